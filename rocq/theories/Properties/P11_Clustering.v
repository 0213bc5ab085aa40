(** Properties C57, C58, C78 - C80: clustering *)
From Coq Require Import Reals String QArith Qabs ZArith Permutation.
From Verif.Model Require FuzzyReal.
From Verif.Model Require Import Base EventLog Dfg Clustering.
From Verif.Spec Require Import Logs Graphs EventLogSpec DfgBuilt Moments ClusterSpec FuzzySpec.
From Verif.Proofs Require ClusteringB ClusteringC ClusteringD ClusteringE FuzzyA.
Open Scope string_scope.
Open Scope list_scope.
Open Scope nat_scope.

Definition dist (x y : Z) : Q := inject_Z (Z.abs (x - y)).
Definition points : list Z := [1; 2; 3; 10; 11; 13]%Z.
Example rev_shuffles : is_shuffle (@rev nat).
Proof. intros l. apply Permutation_sym, Permutation_rev. Qed.

(** C57: k-medoid clustering terminates in a closest-medoid assignment *)
(** [fuel] bounds the number of rounds of the main loop: it always suffices *)
Theorem C57_clustering : forall (E : Type) (d : E -> E -> Q) mode shuffle (objects : list E) k,
  is_shuffle shuffle -> 1 <= k <= length objects ->
  exists labels medoids,
    (forall fuel, k * length objects < fuel -> k_medoid fuel d mode shuffle objects (Some (Z.of_nat k)) = Ok (labels, medoids)) /\
    clustering mode d objects k labels medoids.
Proof. exact @ClusteringB.C57_clustering. Qed.
Print Assumptions C57_clustering.
(** the medoids are different objects when no object is as dissimilar to itself
    as to another one *)
Theorem C57_distinct_medoids : forall (E : Type) (d : E -> E -> Q) shuffle (objects : list E) k fuel labels medoids,
  is_shuffle shuffle -> 1 <= k <= length objects -> separated d objects ->
  k_medoid fuel d true shuffle objects (Some (Z.of_nat k)) = Ok (labels, medoids) ->
  NoDup medoids /\ forall lb c, nth_error medoids lb = Some c -> nth_error labels c = Some lb.
Proof. exact @ClusteringB.C57_distinct_medoids. Qed.
Print Assumptions C57_distinct_medoids.
Theorem C57_number_of_clusters : forall (E : Type) (d : E -> E -> Q) mode shuffle (objects : list E) fuel,
  (forall k, (k <= 0 \/ Z.of_nat (length objects) < k)%Z -> k_medoid fuel d mode shuffle objects (Some k) = Err ValueError) /\
  k_medoid fuel d mode shuffle objects None = k_medoid fuel d mode shuffle objects (Some (Z.of_nat (length objects))).
Proof. exact @ClusteringB.C57_number_of_clusters. Qed.
Print Assumptions C57_number_of_clusters.
Example C57_example :
  (k_medoid 13 dist true (@rev nat) points (Some 2%Z), k_medoid 13 dist true (fun l => l) points (Some 2%Z),
   k_medoid 13 dist false (@rev nat) points (Some 2%Z), k_medoid 13 dist true (@rev nat) points (Some 7%Z)) =
  (Ok ([1; 1; 1; 0; 0; 0], [3; 2]), Ok ([0; 0; 1; 1; 1; 1], [1; 2]), Ok ([0; 0; 0; 0; 0; 0], [2; 2]), Err ValueError).
Proof. vm_compute. reflexivity. Qed.
Example C57_separated : separated dist points.
Proof.
  intros i j x y Hij Hx Hy. unfold dist. rewrite Z.sub_diag.
  assert (Hd : x <> y).
  { intros <-. apply Hij. assert (N : NoDup points) by (repeat constructor; cbn; lia).
    apply (proj1 (NoDup_nth_error points) N); [apply nth_error_Some; congruence|congruence]. }
  unfold Qlt. cbn. lia.
Qed.

(** C58: Cluster decoding partitions the instances *)
Theorem C58_decode : forall (E : Type) (instances : list E) labels mx, In mx labels -> (forall z, In z labels -> (z <= mx)%Z) ->
  exists clusters, decode_label_vector instances labels = Ok (clusters, labelled (fun z => z <? 0)%Z instances labels) /\
    length clusters = Z.to_nat (mx + 1) /\
    forall k c, nth_error clusters k = Some c -> c = labelled (Z.eqb (Z.of_nat k)) instances labels.
Proof. exact @ClusteringC.C58_decode. Qed.
Print Assumptions C58_decode.
Theorem C58_partition : forall (E : Type) (instances : list E) labels, labels <> [] -> length instances = length labels ->
  exists clusters outliers, decode_label_vector instances labels = Ok (clusters, outliers) /\ Permutation (concat clusters ++ outliers) instances.
Proof. exact @ClusteringC.C58_partition. Qed.
Print Assumptions C58_partition.
Theorem C58_empty : forall (E : Type) (instances : list E), decode_label_vector instances [] = Err ValueError.
Proof. exact @ClusteringC.C58_empty. Qed.
Print Assumptions C58_empty.
Example C58_example : decode_label_vector ["a"; "b"; "c"; "d"; "e"] [2; -1; 0; 2; -3]%Z = Ok ([["c"]; []; ["a"; "d"]], ["b"; "e"]).
Proof. vm_compute. reflexivity. Qed.

(** C78: Trace vectors and trace clustering *)
Theorem C78_one_hot : forall {A V I : Type} `{Base.Eq A} (ord : list A -> list A) (l : log A V I), (forall s, Permutation (ord s) s) ->
  exists columns, NoDup columns /\ (forall a, In a columns <-> occurs l a) /\
    encode_log ord l = Ok (map (fun t => map (fun a => if mem a (map activity (events t)) then 1 else 0) columns) l).
Proof. exact @ClusteringC.C78_one_hot. Qed.
Print Assumptions C78_one_hot.
Theorem C78_clusters : forall {A V I : Type} `{Base.Eq A} encode (algorithm : list (list nat) -> list Z) (l : log A V I) m,
  encode l = Ok m -> l <> [] -> length (algorithm m) = length l ->
  exists clusters outliers, cluster_traces encode algorithm l = Ok (clusters, outliers) /\ Permutation (concat clusters ++ outliers) l.
Proof. exact @ClusteringC.C78_clusters. Qed.
Print Assumptions C78_clusters.
(** cluster [k] holds the traces labelled [k], the outliers are those with negative labels *)
Theorem C78_labels : forall {A V I : Type} `{Base.Eq A} encode (algorithm : list (list nat) -> list Z) (l : log A V I) m mx,
  encode l = Ok m -> In mx (algorithm m) -> (forall z, In z (algorithm m) -> (z <= mx)%Z) ->
  exists clusters, cluster_traces encode algorithm l = Ok (clusters, labelled (fun z => z <? 0)%Z l (algorithm m)) /\
    length clusters = Z.to_nat (mx + 1) /\
    forall k c, nth_error clusters k = Some c -> c = labelled (Z.eqb (Z.of_nat k)) l (algorithm m).
Proof. exact @ClusteringC.C78_labels. Qed.
Print Assumptions C78_labels.
Definition ex_log : log string Z Z :=
  [Trace 0%Z (map new_event ["a"; "b"; "a"]) []; Trace 1%Z (map new_event ["c"; "b"; "a"; "b"]) []; Trace 2%Z (map new_event ["d"; "a"]) []].
Example C78_example :
  (encode_log (fun l => l) ex_log,
   match cluster_traces (encode_log (@rev string)) (map (fun v => if nth 0 v 0 =? 1 then (-1)%Z else 0%Z)) ex_log with
   | Ok (cs, o) => (map (map tid) cs, map tid o) | Err _ => ([], []) end) =
  (Ok [[1; 1; 0; 0]; [1; 1; 1; 0]; [1; 0; 0; 1]], ([[0; 1]%Z], [2%Z])).
Proof. vm_compute. reflexivity. Qed.

(** C79: Clustering of activities *)
Theorem C79_clusters : forall {V I : Type} (l : log string V I) ord shuffle N mx k,
  (forall s, Permutation (ord s) s) -> is_shuffle shuffle ->
  (forall a b, has_size (fun '(k, i) => exists t, nth_error l k = Some t /\ follows_at (events t) a b i) (N a b)) ->
  (exists a b, N a b = mx) -> (forall a b, N a b <= mx) -> 0 < mx ->
  exists acts, NoDup acts /\ (forall a, In a acts <-> occurs l a) /\
    (1 <= k <= length acts -> exists labels medoids,
       (forall fuel, k * length acts < fuel -> cluster_activities fuel ord shuffle l (Some (Z.of_nat k)) =
          Ok (combine acts labels, map (fun i => nth i acts ""%string) medoids)) /\
       clustering true (activity_distance N mx) acts k labels medoids).
Proof. exact @ClusteringD.C79_clusters. Qed.
Print Assumptions C79_clusters.
(** the distance is symmetric, between 0 and 1, and 0 for an activity and itself;
    it is also 0 for two activities that follow each other as often as any two do *)
Theorem C79_distance : forall N mx a b, (forall a b, N a b <= mx) ->
  (activity_distance N mx a b == activity_distance N mx b a /\ 0 <= activity_distance N mx a b < 1 /\
   (activity_distance N mx a b == 0 <-> a = b \/ (N a b = mx /\ N b a = mx)))%Q.
Proof. exact @ClusteringD.C79_distance. Qed.
Print Assumptions C79_distance.
Theorem C79_no_edges : forall {V I : Type} (l : log string V I) ord shuffle k fuel,
  (forall t a b i, In t l -> ~ follows_at (events t) a b i) -> cluster_activities fuel ord shuffle l k = Err ValueError.
Proof. exact @ClusteringD.C79_no_edges. Qed.
Print Assumptions C79_no_edges.
Example C79_example :
  cluster_activities 9 (fun l => l) (@rev nat) ex_log (Some 2%Z) = Ok ([("a", 0); ("b", 0); ("c", 1); ("d", 0)], ["a"; "b"]).
Proof. vm_compute. reflexivity. Qed.

(** C80: Fuzzy clustering *)
(** whenever the iteration ends; [weight x] is exp(-x / coefficient) *)
Theorem C80_memberships : forall (E : Type) (d : E -> E -> Q) weight shuffle (objects : list E) k fuel res dflt,
  (forall x, (0 < weight x)%Q) -> is_shuffle shuffle -> 1 <= k <= length objects ->
  fuzzy_k_medoid fuel d weight shuffle objects (Some (Z.of_nat k)) = res -> res <> Err OutOfFuel ->
  exists u medoids, res = Ok (u, medoids) /\ length medoids = k /\ (forall c, In c medoids -> c < length objects) /\
    Forall2 (fuzzy_row d weight (map (fun c => nth c objects dflt) medoids)) objects u.
Proof. exact @ClusteringD.C80_memberships. Qed.
Print Assumptions C80_memberships.
(** weights that underflow to zero for all medoids raise *)
Theorem C80_underflow : forall (E : Type) (d : E -> E -> Q) weight shuffle (objects : list E) k fuel,
  (forall x, (weight x == 0)%Q) -> is_shuffle shuffle -> 1 <= k <= length objects -> 0 < fuel ->
  fuzzy_k_medoid fuel d weight shuffle objects (Some (Z.of_nat k)) = Err ZeroDivisionError.
Proof. exact @ClusteringD.C80_underflow. Qed.
Print Assumptions C80_underflow.
(** The round before the last: each returned medoid is the first object with
    the least dissimilarity from all objects, weighted by the memberships of
    that round, and the total weighted dissimilarity is (nearly) the same in the
    last round (numpy.isclose). *)
Theorem C80_last_round : forall (E : Type) (d : E -> E -> Q) weight shuffle (objects : list E) k fuel u medoids dflt,
  (forall x, (0 < weight x)%Q) -> is_shuffle shuffle -> 1 <= k <= length objects ->
  fuzzy_k_medoid fuel d weight shuffle objects (Some (Z.of_nat k)) = Ok (u, medoids) ->
  let object c := nth c objects dflt in
  exists before u0, length before = k /\ (forall c, In c before -> c < length objects) /\
    Forall2 (fuzzy_row d weight (map object before)) objects u0 /\
    (forall j c, nth_error medoids j = Some c -> forall p, p < length objects ->
       (weighted_from d objects u0 j (object c) <= weighted_from d objects u0 j (object p))%Q /\
       (p < c -> (weighted_from d objects u0 j (object c) < weighted_from d objects u0 j (object p))%Q)) /\
    (Qabs (fuzzy_price d objects u (map object medoids) - fuzzy_price d objects u0 (map object before)) <=
     (1 # 100000000) + (1 # 100000) * Qabs (fuzzy_price d objects u0 (map object before)))%Q.
Proof. exact @ClusteringE.C80_last_round. Qed.
Print Assumptions C80_last_round.
(** With one cluster the search ends after at most three rounds, at the first
    object with the least total dissimilarity. *)
Theorem C80_one_cluster : forall (E : Type) (d : E -> E -> Q) weight shuffle (objects : list E) fuel dflt,
  (forall x, (0 < weight x)%Q) -> is_shuffle shuffle -> 1 <= length objects -> 3 <= fuel ->
  let object c := nth c objects dflt in
  exists u c, fuzzy_k_medoid fuel d weight shuffle objects (Some 1%Z) = Ok (u, [c]) /\ c < length objects /\
    forall p, p < length objects -> (total_from d objects (object c) <= total_from d objects (object p))%Q /\
      (p < c -> (total_from d objects (object c) < total_from d objects (object p))%Q).
Proof. exact @ClusteringE.C80_one_cluster. Qed.
Print Assumptions C80_one_cluster.
(** For a positive coefficient the search ends within [n^k + 2] rounds; each
    medoid has the least weighted dissimilarity, with the memberships of the round
    before. *)
Theorem C80_ends : forall (E : Type) (d : E -> E -> R) coefficient shuffle (objects : list E) k dflt,
  (0 < coefficient)%R -> is_shuffle shuffle -> (1 <= k <= length objects)%nat ->
  let object c := nth c objects dflt in
  exists before medoids, length before = k /\ length medoids = k /\ (forall c, In c (before ++ medoids) -> (c < length objects)%nat) /\
    (forall j c p, nth_error medoids j = Some c -> (p < length objects)%nat ->
       (real_weighted_from d coefficient (map object before) objects j (object c) <= real_weighted_from d coefficient (map object before) objects j (object p))%R) /\
    forall fuel, (length objects ^ k + 2 <= fuel)%nat ->
      FuzzyReal.cluster fuel d coefficient shuffle objects (Some (Z.of_nat k)) =
        Ok (map (exponential_row d coefficient (map object medoids)) objects, medoids).
Proof. exact @FuzzyA.C80_ends. Qed.
Print Assumptions C80_ends.
(** a positive weight in place of the exponential function *)
Definition w (x : Q) : Q := (1 / (1 + x * x))%Q.
Example C80_example : exists u, fuzzy_k_medoid 10 dist w (@rev nat) [1; 2; 10]%Z (Some 2%Z) = Ok (u, [2; 1]) /\
  map (map Qred) u = [[1 # 42; 41 # 42]; [1 # 66; 65 # 66]; [65 # 66; 1 # 66]]%Q.
Proof. eexists. vm_compute. split; reflexivity. Qed.
Example C80_example_one : exists u, fuzzy_k_medoid 3 dist w (@rev nat) [1; 2; 10]%Z (Some 1%Z) = Ok (u, [1]) /\
  map (fun x => Qred (total_from dist [1; 2; 10]%Z x)) [1; 2; 10]%Z = [10; 9; 17]%Q.
Proof. eexists. vm_compute. split; reflexivity. Qed.
Example C80_example_ends : exists medoids, length medoids = 2 /\
  FuzzyReal.cluster 11 (fun x y => IZR (Z.abs (x - y))) 1%R (@rev nat) [1; 2; 10]%Z (Some 2%Z) =
    Ok (map (exponential_row (fun x y => IZR (Z.abs (x - y))) 1%R (map (fun c => nth c [1; 2; 10]%Z 0%Z) medoids)) [1; 2; 10]%Z, medoids).
Proof.
  destruct (C80_ends Z (fun x y => IZR (Z.abs (x - y))) 1%R (@rev nat) [1; 2; 10]%Z 2 0%Z) as (b & m & _ & L & _ & _ & H); [apply Rlt_0_1|apply rev_shuffles|cbn; auto with arith|].
  exists m. split; [exact L|]. apply H. cbn. auto with arith.
Qed.
