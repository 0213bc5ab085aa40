(** Model of prolothar_common/clustering/fuzzy_k_medoid.py over the real
    numbers, with the exponential function instead of the arbitrary weights of
    [Clustering].  Rounding, overflow and NaN are not modelled; the coefficient
    is not 0. *)
From Coq Require Import Reals.
From Verif.Model Require Import Base.
Open Scope R_scope.

Definition Rsum (l : list R) : R := fold_right Rplus 0 l.
(** numpy.argmin of a non-empty vector: the first least value *)
Fixpoint best_from (best : R) (best_i i : nat) (l : list R) : nat :=
  match l with
  | [] => best_i
  | x :: l' => if Rlt_dec x best then best_from x i (i + 1) l' else best_from best best_i (i + 1) l'
  end.
Definition argmin (l : list R) : nat :=
  match l with [] => 0%nat | x :: l' => best_from x 0 1 l' end.
(** [m[:, j]] and [m[:, js]] *)
Definition column (m : list (list R)) (j : nat) : list R := map (fun row => nth j row 0) m.
Definition columns (m : list (list R)) (js : list nat) : list (list R) := map (fun row => map (fun j => nth j row 0) js) m.
Definition dot (x y : list R) : R := Rsum (map (fun '(a, b) => a * b) (combine x y)).
(** fuzzy_k_medoid.py 99-101: row [x2], column [x1] *)
Definition dissimilarity_matrix {E} (d : E -> E -> R) (objects : list E) : list (list R) :=
  map (fun x2 => map (fun x1 => d x1 x2) objects) objects.
(** 70-85; [shuffle] is the effect of the random generator *)
Definition randomly_select_cluster_centers {E} (shuffle : list nat -> list nat) (objects : list E) (number_of_clusters : option Z) : result (list nat) :=
  let k := match number_of_clusters with None => Z.of_nat (length objects) | Some k => k end in
  if (k <=? 0)%Z then Err ValueError
  else if (Z.of_nat (length objects) <? k)%Z then Err ValueError
  else Ok (firstn (Z.to_nat k) (shuffle (seq 0 (length objects)))).
(** 90-93 for a whole row *)
Definition membership_row (coefficient : R) (row : list R) (centers : list nat) : list R :=
  let total := Rsum (map (fun t => exp (- nth t row 0 / coefficient)) centers) in
  map (fun z => exp (- nth z row 0 / coefficient) / total) centers.
(** 87-97 *)
Definition membership_matrix (coefficient : R) (m : list (list R)) (centers : list nat) : list (list R) :=
  map (fun row => membership_row coefficient row centers) m.
(** 59-61 *)
Definition objective (u d : list (list R)) : R := Rsum (map (fun '(r, s) => dot r s) (combine u d)).
(** numpy.isclose with its default tolerances *)
Definition isclose (a b : R) : bool := if Rle_dec (Rabs (a - b)) (1 / 100000000 + 1 / 100000 * Rabs b) then true else false.
(** 103-107: [Q = U^T D], then the first minimum of every row *)
Definition recompute_cluster_centers (u m : list (list R)) (k : nat) : list nat :=
  map (fun j => argmin (map (fun p => dot (column u j) (column m p)) (seq 0 (length m)))) (seq 0 k).
(** 56-68; [fuel] bounds the number of rounds *)
Fixpoint cluster_loop (fuel : nat) (coefficient : R) (m : list (list R)) (p : option R) (centers : list nat)
  : result (list (list R) * list nat) :=
  match fuel with
  | O => Err OutOfFuel
  | S fuel' =>
    let u := membership_matrix coefficient m centers in
    let p' := objective u (columns m centers) in
    if match p with Some p => isclose p' p | None => false end then Ok (u, centers)
    else cluster_loop fuel' coefficient m (Some p') (recompute_cluster_centers u m (length centers))
  end.
(** 48-68 *)
Definition cluster {E} (fuel : nat) (d : E -> E -> R) (coefficient : R) (shuffle : list nat -> list nat) (objects : list E) (k : option Z)
  : result (list (list R) * list nat) :=
  do centers <- randomly_select_cluster_centers shuffle objects k ;
  cluster_loop fuel coefficient (dissimilarity_matrix d objects) None centers.
