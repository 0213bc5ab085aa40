(** Vocabulary for events with sub-events *)
From Coq Require Import String.
From Verif.Model Require Import Base EventLog ComplexEvents.
From Verif.Spec Require Import EventLogSpec.
Open Scope nat_scope.

Section S.
  Context {A V I : Type}.
  (** equal events: both without or both with sub-events; the transitions of
      events with sub-events do not count *)
  Inductive same_any : any_event A V -> any_event A V -> Prop :=
  | same_simple e f : same_event e f -> same_any (Simple e) (Simple f)
  | same_complex a d d' tr tr' cs cs' : same_attrs d d' -> Forall2 same_any cs cs' ->
      same_any (Complex a d tr cs) (Complex a d' tr' cs').
  (** lists with as many elements, where the first pair that is not equal has
      the given relation *)
  Definition first_pair {X} (same rel : X -> X -> Prop) (l m : list X) : Prop :=
    exists l1 x l2 m1 y m2, l = l1 ++ x :: l2 /\ m = m1 ++ y :: m2 /\ Forall2 same l1 m1 /\ length l2 = length m2 /\ rel x y.
  (** an event with sub-events meets one without them, of the same name *)
  Inductive clash : any_event A V -> any_event A V -> Prop :=
  | clash_left e a d tr cs : a = activity e -> clash (Simple e) (Complex a d tr cs)
  | clash_right e a d tr cs : a = activity e -> clash (Complex a d tr cs) (Simple e)
  | clash_inside a d d' tr tr' l1 x l2 m1 y m2 : Forall2 same_any l1 m1 -> length l2 = length m2 -> clash x y ->
      clash (Complex a d tr (l1 ++ x :: l2)) (Complex a d' tr' (m1 ++ y :: m2)).
  (** Python dictionaries have no duplicate keys *)
  Inductive proper : any_event A V -> Prop :=
  | proper_simple e : proper_attrs (ev_attrs e) -> proper (Simple e)
  | proper_complex a d tr cs : proper_attrs d -> Forall proper cs -> proper (Complex a d tr cs).
  Definition proper_any_trace (t : any_trace A V I) : Prop := proper_attrs (at_attrs t) /\ Forall proper (at_events t).
  Definition is_complex (x : any_event A V) : Prop := match x with Simple _ => False | Complex _ _ _ _ => True end.
End S.
