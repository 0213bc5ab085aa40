(** k-element index sets in lexicographic order; independent of the model. *)
From Coq Require Import List Arith Sorted.
Import ListNotations.
From Verif.Spec Require Import Lists.

(** lexicographic order on index lists *)
Inductive lex : list nat -> list nat -> Prop :=
| lex_here a b l m : a < b -> lex (a :: l) (b :: m)
| lex_there a l m : lex l m -> lex (a :: l) (a :: m).

(** an index set of size k below n, written as an ascending list *)
Definition index_set (k n : nat) (I : list nat) : Prop :=
  ascending I /\ length I = k /\ forall i, In i I -> i < n.

(** elements of [t] at the indices of [I], in the order of [t] *)
Definition chosen {A} (I : list nat) (t : list A) : list A :=
  map snd (filter (fun p => if in_dec Nat.eq_dec (fst p) I then true else false)
                  (combine (seq 0 (length t)) t)).
(** the other elements *)
Definition others {A} (I : list nat) (t : list A) : list A :=
  map snd (filter (fun p => if in_dec Nat.eq_dec (fst p) I then false else true)
                  (combine (seq 0 (length t)) t)).
