(** Specification vocabulary for the console *)
From Coq Require Import String Ascii.
From Verif.Model Require Import Base Console.
Open Scope string_scope.
Open Scope list_scope.
Open Scope nat_scope.

(** how often a character occurs *)
Fixpoint occurrences (a : ascii) (s : string) : nat :=
  match s with EmptyString => 0 | String b s' => (if Ascii.eqb a b then 1 else 0) + occurrences a s' end.
Definition line_break : ascii := ascii_of_nat 10.
(** [n] times the character [a] *)
Fixpoint row (n : nat) (a : ascii) : string := match n with 0 => "" | S n' => String a (row n' a) end.

(** what is written to the process's own streams, in order *)
Definition seen (c : console) : list (nat * string) :=
  flat_map (fun '(s, t) => match s with Process n => [(n, t)] | Null _ => [] end) (written c).
(** the program does not redirect the streams itself *)
Fixpoint plain (p : prog) : bool :=
  match p with
  | SetOut _ | SetErr _ => false
  | Seq p q | Try p q => plain p && plain q
  | Nullify _ _ p => plain p
  | _ => true
  end.
(** what one should see of a program on stdout (number [o]) and stderr (number [e]),
    given which of them are silenced, and whether it ends with an exception *)
Fixpoint heard (o e : nat) (no_out no_err : bool) (p : prog) : list (nat * string) * bool :=
  match p with
  | Print t => (if no_out then [] else [(o, t)], false)
  | PrintErr t => (if no_err then [] else [(e, t)], false)
  | SetOut _ | SetErr _ => ([], false)
  | Raise => ([], true)
  | Seq p q => let '(l, r) := heard o e no_out no_err p in
               if r then (l, true) else let '(l', r') := heard o e no_out no_err q in (l ++ l', r')
  | Try p q => let '(l, r) := heard o e no_out no_err p in
               if r then let '(l', r') := heard o e no_out no_err q in (l ++ l', r') else (l, false)
  | Nullify a b p => heard o e (no_out || a) (no_err || b) p
  end.
(** the null streams opened so far are closed *)
Definition all_closed (c : console) : Prop := forall n, n < opened c -> In n (closed c).
