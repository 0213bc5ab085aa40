(** Model of prolothar_common/func_tools.py: the comparisons of [Min] with
    itself, with other objects of its class and with other values.  Values that
    know nothing of [Min] return NotImplemented, and Python then asks [Min] the
    mirrored question. *)
From Verif.Model Require Import Base Sort.
Open Scope list_scope.
Open Scope nat_scope.

Section M.
  Context {V : Type} `{Eq V}.
  (** [<=] of the other values; they are taken to be totally ordered *)
  Variable leb : V -> V -> bool.
  (** another value, or an object of the class [_MinType] *)
  Inductive obj := Val (v : V) | Least (n : nat).
  (** 42-43 *)
  Definition min_eq (n : nat) (other : obj) : bool := match other with Least k => n =? k | Val _ => false end.
  (** 39-40 *)
  Definition min_le (n : nat) (other : obj) : bool := true.
  (** functools.total_ordering: __lt__, __gt__, __ge__ from __le__ *)
  Definition min_lt (n : nat) (other : obj) : bool := min_le n other && negb (min_eq n other).
  Definition min_gt (n : nat) (other : obj) : bool := negb (min_le n other).
  Definition min_ge (n : nat) (other : obj) : bool := negb (min_le n other) || min_eq n other.
  (** [a == b], [a < b], [a <= b], [a > b], [a >= b] *)
  Definition py_eq (a b : obj) : bool :=
    match a, b with Least n, _ => min_eq n b | Val _, Least n => min_eq n a | Val v, Val w => eqb v w end.
  Definition py_lt (a b : obj) : bool :=
    match a, b with Least n, _ => min_lt n b | Val _, Least n => min_gt n a | Val v, Val w => leb v w && negb (eqb v w) end.
  Definition py_le (a b : obj) : bool :=
    match a, b with Least n, _ => min_le n b | Val _, Least n => min_ge n a | Val v, Val w => leb v w end.
  Definition py_gt (a b : obj) : bool :=
    match a, b with Least n, _ => min_gt n b | Val _, Least n => min_lt n a | Val v, Val w => leb w v && negb (eqb v w) end.
  Definition py_ge (a b : obj) : bool :=
    match a, b with Least n, _ => min_ge n b | Val _, Least n => min_le n a | Val v, Val w => leb w v end.
  (** labeled_transition_system.py 139-141: [sorted(l, key=lambda x: Min if x is None else x)]; [sorted] only uses [<] *)
  Definition sorted_none_first (l : list (option V)) : list (option V) :=
    let key x := match x with None => Least 0 | Some v => Val v end in
    stable_sort (fun a b => negb (py_lt (key b) (key a))) l.
End M.
Arguments obj : clear implicits.
