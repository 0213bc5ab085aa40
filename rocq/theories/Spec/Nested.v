(** What the leaves of a nested Python list are, left to right. *)
From Coq Require Import List.
Import ListNotations.
From Verif.Model Require Import ListUtils. (* only for the data type [pyval] *)

Inductive leaves {A} : pyval A -> list A -> Prop :=
| leaves_leaf a : leaves (Leaf a) [a]
| leaves_nil : leaves (PyList []) []
| leaves_cons x xs l1 l2 :
    leaves x l1 -> leaves (PyList xs) l2 -> leaves (PyList (x :: xs)) (l1 ++ l2).

