(** Specification vocabulary for prefix trees and transition systems *)
From Coq Require Import List Arith.
From Verif.Model Require Import PrefixTree.
Import ListNotations.

(** [ltb] is a strict total order *)
Definition strict_total {A} (ltb : A -> A -> bool) : Prop :=
  (forall x, ltb x x = false) /\
  (forall x y z, ltb x y = true -> ltb y z = true -> ltb x z = true) /\
  (forall x y, x <> y -> ltb x y = true \/ ltb y x = true).

(** following children labelled with the symbols of the word leads from the
    first to the second tree *)
Inductive node_at {A} : ptree A -> list A -> ptree A -> Prop :=
| at_root t : node_at t [] t
| at_child t x c w u : In (x, c) (get_children t) -> node_at c w u -> node_at t (x :: w) u.

(** step [k] of [l] leads from state [q] with [x] to state [q'] *)
Definition step_at {A S} (f : list A -> S) (l : list A) (k : nat) (q : S) (x : A) (q' : S) : Prop :=
  nth_error l k = Some x /\ q = f (firstn k l) /\ q' = f (firstn (k + 1) l).
(** the last step from [q] with [x], in the last sequence that has one, leads
    to [q'] *)
Definition last_step {A S} (f : list A -> S) (ls : list (list A)) (q : S) (x : A) (q' : S) : Prop :=
  exists j l k, nth_error ls j = Some l /\ step_at f l k q x q' /\
    forall j' l' k' q'', nth_error ls j' = Some l' -> j < j' \/ (j = j' /\ k < k') ->
      ~ step_at f l' k' q x q''.
(** the state after one more symbol depends on the state and the symbol only *)
Definition stepwise {A S} (f : list A -> S) : Prop :=
  forall p q x, f p = f q -> f (p ++ [x]) = f (q ++ [x]).
