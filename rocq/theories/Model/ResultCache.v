(** Model of prolothar_common/testing/non_productive_result_cache.py.

    Files are a dictionary from file names in the cache directory to their
    content; a name with a path separator in it is not treated specially.
    [B] are the bytes, [R] the results, [A] the arguments of a call. *)
From Coq Require Import String.
From Verif.Model Require Import Base.
Open Scope string_scope.
Open Scope list_scope.
Open Scope nat_scope.

Section C.
  Context {A R B : Type}.
  (** pickle: the bytes written by [dump], and the exception it ends with (for
      objects that cannot be pickled); [load] of the content of a file *)
  Record pickle := { dump : R -> list B * option error; load : list B -> result R }.

  (** the files, and how often functions have been evaluated so far; what a
      function returns may depend on that number, so that it need not be pure *)
  Record world := World { files : dict string (list B); evaluations : nat }.

  (** a call of a decorated function: its name, the key function of the
      decorator (if given), the function and its arguments *)
  Record call := Call {
    name : string;
    key : option (A -> result string);
    function : nat -> A -> result R;
    args : A
  }.

  (** where the process is killed during a call, if it is: before the file is
      opened, or after so many of the bytes have been written *)
  Inductive kill := NotKilled | KilledBefore | KilledAfter (bytes : nat).
  Inductive ending := Returned (r : R) | RaisedExc (e : error) | Killed.

  (** 28-31 *)
  Definition cache_file (c : call) : result string :=
    match key c with
    | Some k => do s <- k (args c) ; Ok (name c ++ s)%string
    | None => Ok (name c)
    end.
  (** 27-39.  Opening the file for writing empties it. *)
  Definition wrapper (p : pickle) (c : call) (k : kill) (w : world) : world * ending :=
    match cache_file c with
    | Err e => (w, RaisedExc e)
    | Ok file =>
      match dict_get file (files w) with
      | Some bytes =>
        match k with
        | NotKilled => (w, match load p bytes with Ok r => Returned r | Err e => RaisedExc e end)
        | _ => (w, Killed)
        end
      | None =>
        let w1 := World (files w) (S (evaluations w)) in
        match function c (evaluations w) (args c) with
        | Err e => (w1, match k with NotKilled => RaisedExc e | _ => Killed end)
        | Ok r =>
          let '(bytes, e) := dump p r in
          match k with
          | NotKilled => (World (dict_set file bytes (files w)) (S (evaluations w)),
                          match e with None => Returned r | Some e => RaisedExc e end)
          | KilledBefore => (w1, Killed)
          | KilledAfter n => (World (dict_set file (firstn n bytes) (files w)) (S (evaluations w)), Killed)
          end
        end
      end
    end.
  (** a history of calls, each possibly killed *)
  Definition run (p : pickle) (l : list (call * kill)) (w : world) : world :=
    fold_left (fun w '(c, k) => fst (wrapper p c k w)) l w.
End C.
Arguments pickle : clear implicits.
Arguments world : clear implicits.
Arguments call : clear implicits.
Arguments ending : clear implicits.
