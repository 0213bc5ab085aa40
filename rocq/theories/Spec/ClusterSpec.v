(** Specification vocabulary for clusterings *)
From Coq Require Import List String QArith Permutation.
Notation length := List.length.
From Verif.Spec Require Import Moments.
Import ListNotations.
Open Scope nat_scope.

(** [mode]: the values are dissimilarities, otherwise they are similarities *)
Definition as_close (mode : bool) (x y : Q) : Prop := if mode then (x <= y)%Q else (y <= x)%Q.
Definition closer (mode : bool) (x y : Q) : Prop := if mode then (x < y)%Q else (y < x)%Q.
(** sum of the values between [c] and all objects *)
Definition total_from {E} (d : E -> E -> Q) (objects : list E) (c : E) : Q := total (map (d c) objects).

Record clustering {E} (mode : bool) (d : E -> E -> Q) (objects : list E) (k : nat) (labels medoids : list nat) : Prop := {
  cl_labels : length labels = length objects;
  cl_medoids : length medoids = k /\ forall c, In c medoids -> c < length objects;
  (** every object is labelled with the first closest medoid *)
  cl_closest : forall i x lb, nth_error objects i = Some x -> nth_error labels i = Some lb ->
    exists c y, nth_error medoids lb = Some c /\ nth_error objects c = Some y /\
      forall lb' c' y', nth_error medoids lb' = Some c' -> nth_error objects c' = Some y' ->
        as_close mode (d y x) (d y' x) /\ (lb' < lb -> closer mode (d y x) (d y' x));
  (** no object of its cluster has a smaller sum of values to all objects than the medoid *)
  cl_central : forall lb c y i x, nth_error medoids lb = Some c -> nth_error objects c = Some y ->
    nth_error labels i = Some lb -> nth_error objects i = Some x ->
    (total_from d objects y <= total_from d objects x)%Q
}.
(** different objects, by position, are less similar than an object to itself *)
Definition separated {E} (d : E -> E -> Q) (objects : list E) : Prop :=
  forall i j x y, i <> j -> nth_error objects i = Some x -> nth_error objects j = Some y -> (d x x < d y x)%Q.
Definition is_shuffle (shuffle : list nat -> list nat) : Prop := forall l, Permutation (shuffle l) l.

(** the elements of [xs] whose label satisfies [p]; a label or element without counterpart is ignored *)
Fixpoint labelled {E} (p : Z -> bool) (xs : list E) (ls : list Z) : list E :=
  match xs, ls with
  | x :: xs', l :: ls' => if p l then x :: labelled p xs' ls' else labelled p xs' ls'
  | _, _ => []
  end.

(** distance of two activities, from the numbers [N a b] of times that [b]
    directly follows [a] and the largest of them *)
Definition activity_distance (N : String.string -> String.string -> nat) (mx : nat) (a b : String.string) : Q :=
  (1 - (if String.eqb a b then 1 else inject_Z (Z.of_nat (N a b + N b a + 1)) / inject_Z (Z.of_nat (1 + 2 * mx))))%Q.
(** the fuzzy memberships of an object in the clusters of the given medoids *)
Definition fuzzy_row {E} (d : E -> E -> Q) (weight : Q -> Q) (medoids : list E) (x : E) (row : list Q) : Prop :=
  Forall2 (fun c u => (u == weight (d c x) / total (map (fun c => weight (d c x)) medoids) /\ 0 < u /\ u <= 1)%Q) medoids row /\
  (total row == 1)%Q.
(** the dissimilarities of an object [x] from all objects, weighted by their
    memberships [u] in cluster [j] *)
Definition weighted_from {E} (d : E -> E -> Q) (objects : list E) (u : list (list Q)) (j : nat) (x : E) : Q :=
  total (map (fun '(row, y) => nth j row 0 * d x y)%Q (combine u objects)).
(** the dissimilarities of all objects from all medoids, weighted by the memberships *)
Definition fuzzy_price {E} (d : E -> E -> Q) (objects : list E) (u : list (list Q)) (medoids : list E) : Q :=
  total (map (fun '(row, y) => total (map (fun '(w, c) => w * d c y)%Q (combine row medoids))) (combine u objects)).
