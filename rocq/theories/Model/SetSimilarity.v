(** Model of prolothar_common/collections/set_similarity.py.  A Python set is
    a duplicate-free list; floats are exact rationals. *)
From Verif.Model Require Import Base.
From Coq Require Import QArith.
Open Scope nat_scope.

Section Sim.
  Context {A : Type} `{Eq A}.
  (** a.intersection(b) *)
  Definition intersection (a b : list A) : list A := filter (fun x => mem x b) a.
  Definition ratio (p q : nat) : result Q :=
    if q =? 0 then Err ZeroDivisionError else Ok (inject_Z (Z.of_nat p) / inject_Z (Z.of_nat q))%Q.
  (** set_similarity.py 20-25 *)
  Definition sorensen_dice_coefficient (a b : list A) : result Q :=
    if (length a =? 0) && (length b =? 0) then Ok 1%Q
    else ratio (2 * length (intersection a b)) (length a + length b).
  (** set_similarity.py 27-35; the subtraction is the integer one and never
      negative as the intersection is part of both sets *)
  Definition jaccard_index (a b : list A) : result Q :=
    if (length a =? 0) && (length b =? 0) then Ok 1%Q
    else ratio (length (intersection a b)) (length a + length b - length (intersection a b)).
  (** set_similarity.py 37-45 *)
  Definition overlap_coefficient (a b : list A) : result Q :=
    if (length a =? 0) && (length b =? 0) then Ok 1%Q
    else ratio (length (intersection a b)) (Nat.min (length a) (length b)).
End Sim.
