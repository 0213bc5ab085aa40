(** Model of prolothar_common/testing/non_productive_result_cache.py 27-39 for
    processes that use the same cache file at the same time.  Calls that use
    other files do not touch this one ([ResultCache]).  Each process makes one
    call; a process that makes several is a process for each of them.  A file
    is read and written in pieces of any size; opening it for writing empties it
    for all processes, and those that write already go on where they are: what
    is skipped is filled with zero bytes, as POSIX says.  What a process that is
    killed has not written by then is lost. *)
From Verif.Model Require Import Base Parallel ResultCache.
Open Scope nat_scope.

Section R.
  Context {R B : Type}.
  Variable zero : B.
  Variable p : pickle R B.
  (** what the function returns in each of the processes *)
  Variable function : nat -> result R.

  Inductive phase :=
  | Started
  | Evaluating                             (* the file did not exist in line 32 *)
  | Evaluated (r : R)                      (* line 36 is done *)
  | Writing (r : R) (position : nat)       (* the file is open in lines 37-38 *)
  | Reading (bytes : list B)               (* the file existed; lines 33-34 *)
  | Ended (e : ending R).
  Record race := Race { file : option (list B); phases : list phase }.

  (** [write] at a position of a file with this content *)
  Definition write_at (content : list B) (position : nat) (piece : list B) : list B :=
    firstn position content ++ repeat zero (position - length content) ++ piece ++ skipn (position + length piece) content.
  (** process [i] makes its next step; [n + 1] is the size of the piece that is
      read or written, if it does *)
  Definition race_step (act : nat * nat) (s : race) : option race :=
    let '(i, n) := act in
    match nth_error (phases s) i with
    | None => None
    | Some ph =>
      match ph with
      | Started => (* 32 *)
          Some (Race (file s) (upd (phases s) i (match file s with None => Evaluating | Some _ => Reading [] end)))
      | Evaluating => (* 36 *)
          Some (Race (file s) (upd (phases s) i (match function i with Ok r => Evaluated r | Err e => Ended (RaisedExc e) end)))
      | Evaluated r => (* 37 *)
          Some (Race (Some []) (upd (phases s) i (Writing r 0)))
      | Writing r position => (* 38-39 *)
          let '(bytes, e) := dump p r in
          match firstn (S n) (skipn position bytes), file s with
          | [], _ => Some (Race (file s) (upd (phases s) i (Ended (match e with None => Returned r | Some e => RaisedExc e end))))
          | piece, Some content => Some (Race (Some (write_at content position piece)) (upd (phases s) i (Writing r (position + length piece))))
          | _, None => None
          end
      | Reading got => (* 34 *)
          match file s with
          | None => None
          | Some content =>
            match firstn (S n) (skipn (length got) content) with
            | [] => Some (Race (file s) (upd (phases s) i (Ended (match load p got with Ok r => Returned r | Err e => RaisedExc e end))))
            | piece => Some (Race (file s) (upd (phases s) i (Reading (got ++ piece))))
            end
          end
      | Ended _ => None
      end
    end.
  Inductive move := Go (i n : nat) | Kill (i : nat).
  (** as [race_step], but a process that has not ended can also be killed *)
  Definition kill_step (m : move) (s : race) : option race :=
    match m with
    | Go i n => race_step (i, n) s
    | Kill i =>
      match nth_error (phases s) i with
      | None | Some (Ended _) => None
      | Some _ => Some (Race (file s) (upd (phases s) i (Ended Killed)))
      end
    end.
  Definition race_init (content : option (list B)) (processes : nat) : race := Race content (repeat Started processes).
End R.
Arguments phase : clear implicits.
Arguments race : clear implicits.
