(** Model of prolothar_common/console_utils.py.  Text is made of 8 bit
    characters; [fmt decimals q] is the number [q] as Python prints it with that
    many decimals. *)
From Coq Require Import String Ascii QArith.
From Verif.Model Require Import Base.
Open Scope string_scope.
Open Scope list_scope.
Open Scope nat_scope.

(** [s * n] *)
Fixpoint times (n : nat) (s : string) : string := match n with 0 => "" | S n' => (s ++ times n' s)%string end.
Definition carriage_return : string := String (ascii_of_nat 13) "".
Definition newline : string := String (ascii_of_nat 10) "".
(** 39-40 *)
Definition filled_length (length iteration total : Z) : Z := (length * iteration / total)%Z.
Definition bar (fill : string) (length iteration total : Z) : string :=
  let filled := filled_length length iteration total in
  (times (Z.to_nat filled) fill ++ times (Z.to_nat (length - filled)) "-")%string.
(** 23-44: the text that is written *)
Definition print_progress_bar (fmt : Z -> Q -> string) (iteration total : Z) (prefix suffix : string) (decimals length : Z) (fill : string) : result string :=
  if (total =? 0)%Z then Err ZeroDivisionError else
  if (decimals <? 0)%Z then Err ValueError else
  Ok (carriage_return ++ prefix ++ " |" ++ bar fill length iteration total ++ "| " ++
      fmt decimals (100 * (inject_Z iteration / inject_Z total))%Q ++ "% " ++ suffix ++ carriage_return ++
      (if (iteration =? total)%Z then newline else ""))%string.

(** [nullify_output].  Streams: those of the process and the ones opened on the
    null device *)
Inductive stream := Process (n : nat) | Null (n : nat).
Definition stream_eqb (a b : stream) : bool :=
  match a, b with Process n, Process k => n =? k | Null n, Null k => n =? k | _, _ => false end.
(** [sys.stdout], [sys.stderr], what has been written where, the number of null
    streams opened, and those closed *)
Record console := Console { out : stream; err : stream; written : list (stream * string); opened : nat; closed : list nat }.
(** writing raises a ValueError if the stream is closed *)
Definition write (s : stream) (text : string) (c : console) : console * bool :=
  match s with
  | Null n => if mem n (closed c) then (c, true) else (Console (out c) (err c) (written c ++ [(s, text)]) (opened c) (closed c), false)
  | Process _ => (Console (out c) (err c) (written c ++ [(s, text)]) (opened c) (closed c), false)
  end.
(** what is kept between the two halves of the context manager: flags, stdout, stderr and the null stream *)
Record kept := Kept { k_out : bool; k_err : bool; k_stdout : stream; k_stderr : stream; k_null : nat }.
(** 52-60 *)
Definition enter (suppress_stdout suppress_stderr : bool) (c : console) : console * kept :=
  let null := opened c in
  (Console (if suppress_stdout then Null null else out c) (if suppress_stderr then Null null else err c) (written c) (S (opened c)) (closed c),
   Kept suppress_stdout suppress_stderr (out c) (err c) null).
(** 61-66, on the normal way as well as after an exception *)
Definition leave (k : kept) (c : console) : console :=
  Console (if k_out k then k_stdout k else out c) (if k_err k then k_stderr k else err c) (written c) (opened c) (k_null k :: closed c).
(** a program that writes, redirects, raises, catches and suppresses *)
Inductive prog :=
| Print (text : string) | PrintErr (text : string)
| SetOut (s : stream) | SetErr (s : stream)
| Raise
| Seq (p q : prog)
| Try (p handler : prog)
| Nullify (suppress_stdout suppress_stderr : bool) (p : prog).
(** the console afterwards, and whether an exception is on its way *)
Fixpoint run (p : prog) (c : console) : console * bool :=
  match p with
  | Print t => write (out c) t c
  | PrintErr t => write (err c) t c
  | SetOut s => (Console s (err c) (written c) (opened c) (closed c), false)
  | SetErr s => (Console (out c) s (written c) (opened c) (closed c), false)
  | Raise => (c, true)
  | Seq p q => let '(c', r) := run p c in if r then (c', true) else run q c'
  | Try p q => let '(c', r) := run p c in if r then run q c' else (c', false)
  | Nullify o e p => let '(c', k) := enter o e c in let '(c'', r) := run p c' in (leave k c'', r)
  end.
