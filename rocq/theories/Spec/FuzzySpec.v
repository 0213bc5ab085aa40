(** Specification vocabulary for fuzzy clusterings over the real numbers *)
From Coq Require Import Reals List.
Import ListNotations.
Open Scope R_scope.

Definition real_total (l : list R) : R := fold_right Rplus 0 l.
(** the memberships of an object [x] in the clusters of the medoids: the
    exponential weights, normalised *)
Definition exponential_row {E} (d : E -> E -> R) (coefficient : R) (medoids : list E) (x : E) : list R :=
  map (fun c => exp (- d c x / coefficient) / real_total (map (fun t => exp (- d t x / coefficient)) medoids)) medoids.
(** the dissimilarities of an object [x] from all objects, weighted by their
    memberships in cluster [j] *)
Definition real_weighted_from {E} (d : E -> E -> R) (coefficient : R) (medoids objects : list E) (j : nat) (x : E) : R :=
  real_total (map (fun y => nth j (exponential_row d coefficient medoids y) 0 * d x y) objects).
