(** Python's [list.sort(key=...)] / [sorted]: a stable sort.  [leb x y] is
    "key(x) <= key(y)". *)
From Verif.Model Require Import Base.

Section Sort.
  Context {A : Type}.
  Variable leb : A -> A -> bool.
  Fixpoint sort_insert (x : A) (l : list A) : list A :=
    match l with
    | [] => [x]
    | y :: l' => if leb x y then x :: l else y :: sort_insert x l'
    end.
  Definition stable_sort (l : list A) : list A := fold_right sort_insert [] l.
End Sort.
