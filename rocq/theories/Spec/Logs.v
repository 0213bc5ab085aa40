(** Specification vocabulary for sequences of events; independent of the model. *)
From Coq Require Import List Arith Permutation.
From Verif.Spec Require Import Lists.
Import ListNotations.

(** [r] consists of exactly the elements of [l] at the positions satisfying
    [P], in their original order *)
Definition selection {X} (l r : list X) (P : nat -> X -> Prop) : Prop :=
  exists js, ascending js /\ map Some r = map (nth_error l) js /\
    forall j, In j js <-> exists x, nth_error l j = Some x /\ P j x.

(** exactly [n] values satisfy [P] *)
Definition has_size {X} (P : X -> Prop) (n : nat) : Prop :=
  exists l, NoDup l /\ (forall x, In x l <-> P x) /\ length l = n.

(** the part from the first element satisfying [P] on *)
Definition from_first {X} (P : X -> Prop) (l r : list X) : Prop :=
  exists pre x post, l = pre ++ x :: post /\ P x /\ Forall (fun y => ~ P y) pre /\ r = x :: post.
(** the part up to the last element satisfying [P] *)
Definition up_to_last {X} (P : X -> Prop) (l r : list X) : Prop :=
  exists pre x post, l = pre ++ x :: post /\ P x /\ Forall (fun y => ~ P y) post /\ r = pre ++ [x].
Definition none_of {X} (P : X -> Prop) (l : list X) : Prop := Forall (fun y => ~ P y) l.

(** [l] and [m] hold the same elements up to [R], regardless of order *)
Definition same_multiset {X} (R : X -> X -> Prop) (l m : list X) : Prop :=
  exists m', Permutation m m' /\ Forall2 R l m'.

(** cutting [l] into blocks: concatenated they are [l], none is empty, inside a
    block neighbours are related by [R], across a border they are not *)
Fixpoint chained {X} (R : X -> X -> Prop) (l : list X) : Prop :=
  match l with
  | x :: ((y :: _) as l') => R x y /\ chained R l'
  | _ => True
  end.
Definition is_last {X} (x : X) (l : list X) : Prop := exists pre, l = pre ++ [x].
Definition is_first {X} (x : X) (l : list X) : Prop := exists post, l = x :: post.
Definition blocks {X} (R : X -> X -> Prop) (l : list X) (bs : list (list X)) : Prop :=
  concat bs = l /\
  Forall (fun b => b <> [] /\ chained R b) bs /\
  chained (fun b c => forall x y, is_last x b -> is_first y c -> ~ R x y) bs.
