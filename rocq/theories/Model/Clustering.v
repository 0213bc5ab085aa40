(** Model of prolothar_common/clustering.  Dissimilarities are exact rationals:
    the rounding of floating point sums, NaN and infinities are not modelled.
    The external clustering algorithms of sklearn and the SGT encoder are
    function arguments or left out. *)
From Coq Require Import String QArith Qabs.
From Verif.Model Require Import Base EventLog LogNoise Dfg.
Open Scope list_scope.
Open Scope nat_scope.

(** numpy.argmin / argmax of a non-empty vector: the index of the first best value *)
Fixpoint best_from (better : Q -> Q -> bool) (best : Q) (best_i i : nat) (l : list Q) : nat :=
  match l with
  | [] => best_i
  | x :: l' => if better x best then best_from better x i (i + 1) l' else best_from better best best_i (i + 1) l'
  end.
Definition argbest (better : Q -> Q -> bool) (l : list Q) : nat :=
  match l with [] => 0 | x :: l' => best_from better x 0 1 l' end.
Definition argmin : list Q -> nat := argbest Qlt_bool.
Definition argmax : list Q -> nat := argbest (fun x y => Qlt_bool y x).
(** numpy.sum *)
Definition Qsum (l : list Q) : Q := fold_right Qplus 0%Q l.
(** [m[i, j]], [m[:, j]] and [m[:, js]] *)
Definition cell (m : list (list Q)) (i j : nat) : Q := nth j (nth i m []) 0%Q.
Definition column (m : list (list Q)) (j : nat) : list Q := map (fun row => nth j row 0%Q) m.
Definition columns (m : list (list Q)) (js : list nat) : list (list Q) := map (fun row => map (fun j => nth j row 0%Q) js) m.

(** ** k_medoid.py *)
(** 90-92 (fuzzy_k_medoid.py 99-101): row [x2], column [x1] *)
Definition dissimilarity_matrix {E} (d : E -> E -> Q) (objects : list E) : list (list Q) :=
  map (fun x2 => map (fun x1 => d x1 x2) objects) objects.
(** 73-88 (fuzzy_k_medoid.py 70-85); [shuffle] is the effect of the random generator *)
Definition randomly_select_cluster_centers {E} (shuffle : list nat -> list nat) (objects : list E) (number_of_clusters : option Z) : result (list nat) :=
  let k := match number_of_clusters with None => Z.of_nat (length objects) | Some k => k end in
  if (k <=? 0)%Z then Err ValueError
  else if (Z.of_nat (length objects) <? k)%Z then Err ValueError
  else Ok (firstn (Z.to_nat k) (shuffle (seq 0 (length objects)))).
(** 57-64 *)
Definition compute_memberships (dissimilarity_mode : bool) (m : list (list Q)) (centers : list nat) : list nat :=
  map (if dissimilarity_mode then argmin else argmax) (columns m centers).
(** [np.argwhere(memberships == i).flatten()] *)
Definition argwhere (i : nat) (memberships : list nat) : list nat :=
  filter (fun p => nth p memberships 0 =? i) (seq 0 (length memberships)).
(** 99-107, for one center *)
Definition recompute_center (m : list (list Q)) (center : nat) (points : list nat) : nat :=
  snd (fold_left (fun '(s, c) p => let s' := Qsum (column m p) in if Qlt_bool s' s then (s', p) else (s, c))
    points (Qsum (column m center), center)).
(** 94-109 *)
Definition recompute_cluster_centers (m : list (list Q)) (centers memberships : list nat) : list nat :=
  map (fun '(i, c) => recompute_center m c (argwhere i memberships)) (combine (seq 0 (length centers)) centers).
(** 56-71 *)
Fixpoint k_medoid_loop (fuel : nat) (mode : bool) (m : list (list Q)) (centers : list nat) : result (list nat * list nat) :=
  match fuel with
  | 0 => Err OutOfFuel
  | S fuel' =>
    let memberships := compute_memberships mode m centers in
    let new := recompute_cluster_centers m centers memberships in
    if eqb new centers then Ok (memberships, centers) else k_medoid_loop fuel' mode m new
  end.
(** 49-71 *)
Definition k_medoid {E} (fuel : nat) (d : E -> E -> Q) (mode : bool) (shuffle : list nat -> list nat) (objects : list E) (k : option Z) : result (list nat * list nat) :=
  do centers <- randomly_select_cluster_centers shuffle objects k ;
  k_medoid_loop fuel mode (dissimilarity_matrix d objects) centers.

(** ** fuzzy_k_medoid.py; [weight x] is [exp(-x / coefficient)] *)
(** 90-93 for a whole row; division by a sum that has underflown to zero raises *)
Definition membership_row (weight : Q -> Q) (row : list Q) (centers : list nat) : result (list Q) :=
  let total := Qsum (map (fun t => weight (nth t row 0%Q)) centers) in
  mapM (fun z => if Qeq_bool total 0 then Err ZeroDivisionError else Ok (weight (nth z row 0%Q) / total)%Q) centers.
(** 87-97 *)
Definition membership_matrix (weight : Q -> Q) (m : list (list Q)) (centers : list nat) : result (list (list Q)) :=
  mapM (fun row => membership_row weight row centers) m.
(** 59-61 *)
Definition objective (u d : list (list Q)) : Q := Qsum (map (fun '(r, s) => Qsum (map (fun '(x, y) => (x * y)%Q) (combine r s))) (combine u d)).
(** numpy.isclose with its default tolerances *)
Definition isclose (a b : Q) : bool := Qle_bool (Qabs (a - b)) ((1 # 100000000) + (1 # 100000) * Qabs b).
(** 103-107: [Q = U^T D], then the first minimum of every row *)
Definition dot (x y : list Q) : Q := Qsum (map (fun '(a, b) => (a * b)%Q) (combine x y)).
Definition recompute_fuzzy (u m : list (list Q)) (k : nat) : list nat :=
  map (fun j => argmin (map (fun p => dot (column u j) (column m p)) (seq 0 (length m)))) (seq 0 k).
(** 56-68 *)
Fixpoint fuzzy_loop (fuel : nat) (weight : Q -> Q) (m : list (list Q)) (p : option Q) (centers : list nat) : result (list (list Q) * list nat) :=
  match fuel with
  | 0 => Err OutOfFuel
  | S fuel' =>
    do u <- membership_matrix weight m centers ;
    let p' := objective u (columns m centers) in
    if match p with Some p => isclose p' p | None => false end then Ok (u, centers)
    else fuzzy_loop fuel' weight m (Some p') (recompute_fuzzy u m (length centers))
  end.
(** 48-68 *)
Definition fuzzy_k_medoid {E} (fuel : nat) (d : E -> E -> Q) (weight : Q -> Q) (shuffle : list nat -> list nat) (objects : list E) (k : option Z) : result (list (list Q) * list nat) :=
  do centers <- randomly_select_cluster_centers shuffle objects k ;
  fuzzy_loop fuel weight (dissimilarity_matrix d objects) None centers.

(** ** activities/activity_k_medoid.py *)
(** 78-82 *)
Definition activity_similarity (g : graph) (max_count : Z) (a b : string) : Q :=
  if eqb a b then 1%Q
  else (inject_Z (get_count a b g + get_count b a g + 1) / inject_Z (1 + 2 * max_count))%Q.
(** 75-76 *)
Definition activity_dissimilarity (g : graph) (max_count : Z) (a b : string) : Q := (1 - activity_similarity g max_count a b)%Q.
(** 30-33 *)
Definition max_edge_count (g : graph) : result Z :=
  match map snd (edge_list g) with [] => Err ValueError | c :: cs => Ok (fold_left Z.max cs c) end.
(** 27-45 and 61-73, [fuzzy=False]; [ord] is the iteration order of the set of activities *)
Definition cluster_activities {V I} (fuel : nat) (ord : list string -> list string) (shuffle : list nat -> list nat) (l : log string V I) (nr_of_clusters : option Z) : result (dict string nat * list string) :=
  let activities := ord (compute_activity_set l) in
  do g <- create_from_event_log l ;
  do max_count <- max_edge_count g ;
  do (labels, medoids) <- k_medoid fuel (activity_dissimilarity g max_count) true shuffle activities nr_of_clusters ;
  Ok (fold_left (fun dct '(i, a) => dict_set a (nth i labels 0) dct) (combine (seq 0 (length activities)) activities) [],
      map (fun i => nth i activities ""%string) medoids).

(** ** traces *)
(** clustering_algorithm/vector_based.py 54-58 *)
Definition put {E} (st : list (list E) * list E) (p : E * Z) : result (list (list E) * list E) :=
  let '(clusters, outliers) := st in
  let '(instance, label) := p in
  if (label <? 0)%Z then Ok (clusters, outliers ++ [instance])
  else match nth_error clusters (Z.to_nat label) with
       | None => Err IndexError
       | Some c => do cs <- of_option IndexError (list_set clusters (Z.to_nat label) (c ++ [instance])) ; Ok (cs, outliers)
       end.
(** 51-60; [max] of an empty vector raises *)
Definition decode_label_vector {E} (instances : list E) (labels : list Z) : result (list (list E) * list E) :=
  match labels with
  | [] => Err ValueError
  | x :: l' => foldM put (combine instances labels) (repeat [] (Z.to_nat (fold_left Z.max l' x + 1)), [])
  end.
(** encoder/activity_one_hot_encoding.py 22-26 *)
Definition encode_trace {A} `{Base.Eq A} (encoder : dict A nat) (acts : list A) : result (list nat) :=
  foldM (fun v a => do i <- of_option KeyError (dict_get a encoder) ; of_option IndexError (list_set v i 1)) acts (repeat 0 (length encoder)).
(** 17-20; [ord] is the iteration order of the set of activities *)
Definition encode_log {A V I} `{Base.Eq A} (ord : list A -> list A) (l : log A V I) : result (list (list nat)) :=
  let s := ord (compute_activity_set l) in
  let encoder := fold_left (fun dct '(i, a) => dict_set a i dct) (combine (seq 0 (length s)) s) [] in
  mapM (encode_trace encoder) (to_simple_activity_log l).
(** vector_based_clustering.py 17-20; [algorithm] is the external clustering of the rows *)
Definition cluster_traces {A V I} `{Base.Eq A} (encode : log A V I -> result (list (list nat))) (algorithm : list (list nat) -> list Z) (l : log A V I) : result (list (log A V I) * log A V I) :=
  do m <- encode l ; decode_label_vector l (algorithm m).
