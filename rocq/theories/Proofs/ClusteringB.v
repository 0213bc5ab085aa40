From Coq Require Import QArith Permutation.
From Verif.Model Require Import Base LogNoise Clustering.
From Verif.Spec Require Import Moments ClusterSpec.
From Verif.Lib Require Import ListLib.
From Verif.Proofs Require Import LogNoise ClusteringA.
Open Scope list_scope.
Open Scope nat_scope.

Section Matrix.
Context {E : Type}.
Variables (d : E -> E -> Q) (objects : list E).
Let m := dissimilarity_matrix d objects.
Lemma matrix_length : length m = length objects.
Proof. unfold m, dissimilarity_matrix. apply map_length. Qed.
Lemma matrix_row i x : nth_error objects i = Some x -> nth_error m i = Some (map (fun x1 => d x1 x) objects).
Proof. intros H. unfold m, dissimilarity_matrix. rewrite (map_nth_error _ _ _ H). auto. Qed.
Lemma row_cell x j y : nth_error objects j = Some y -> nth j (map (fun x1 => d x1 x) objects) 0%Q = d y x.
Proof. intros H. apply nth_error_nth. rewrite (map_nth_error _ _ _ H). auto. Qed.
Lemma matrix_column j y : nth_error objects j = Some y -> column m j = map (d y) objects.
Proof.
  intros H. unfold column, m, dissimilarity_matrix. rewrite map_map. apply map_ext. intros x2. apply row_cell. auto.
Qed.
Lemma column_sum j y : nth_error objects j = Some y -> Qsum (column m j) = total_from d objects y.
Proof. intros H. rewrite (matrix_column j y H). reflexivity. Qed.
Variable cs : list nat.
Hypothesis Hcs : cs <> [].
Hypothesis Hb : forall c, In c cs -> c < length objects.
Lemma closest_label mode i x lb : nth_error objects i = Some x -> nth_error (compute_memberships mode m cs) i = Some lb ->
  exists c y, nth_error cs lb = Some c /\ nth_error objects c = Some y /\
    forall lb' c' y', nth_error cs lb' = Some c' -> nth_error objects c' = Some y' ->
      as_close mode (d y x) (d y' x) /\ (lb' < lb -> closer mode (d y x) (d y' x)).
Proof.
  intros Hx Hl. unfold compute_memberships, columns in Hl. rewrite map_map in Hl.
  rewrite (map_nth_error _ _ _ (matrix_row i x Hx)) in Hl. set (row := map (fun j => nth j (map (fun x1 => d x1 x) objects) 0%Q) cs) in *.
  assert (Hrow : row <> []) by (unfold row; destruct cs; [congruence|discriminate]).
  assert (Hr : forall lb c y, nth_error cs lb = Some c -> nth_error objects c = Some y -> nth_error row lb = Some (d y x)).
  { intros lb' c y Hc Hy. unfold row. rewrite (map_nth_error _ _ _ Hc). f_equal. apply row_cell. auto. }
  assert (Hr' : forall lb v, nth_error row lb = Some v -> exists c y, nth_error cs lb = Some c /\ nth_error objects c = Some y /\ v = d y x).
  { intros lb' v Hv. assert (Q : lb' < length cs) by (replace (length cs) with (length row) by apply map_length; apply nth_error_Some; congruence).
    destruct (nth_error cs lb') as [c|] eqn:Ec; [|apply nth_error_None in Ec; lia].
    assert (Hc : c < length objects) by (apply Hb; eapply nth_error_In; eauto).
    destruct (nth_error objects c) as [y|] eqn:Ey; [|apply nth_error_None in Ey; lia].
    rewrite (Hr lb' c y Ec Ey) in Hv. injection Hv as <-. eauto. }
  injection Hl as <-. destruct mode.
  - destruct (argmin_ok row Hrow) as (v & H1 & H2 & H3). destruct (Hr' _ _ H1) as (c & y & Hc & Hy & ->). exists c, y. split; [auto|]. split; [auto|].
    intros lb' c' y' Hc' Hy'. specialize (Hr _ _ _ Hc' Hy'). split; [apply (H2 _ _ Hr)|]. intros Hlt. apply (H3 _ _ Hlt Hr).
  - destruct (argmax_ok row Hrow) as (v & H1 & H2 & H3). destruct (Hr' _ _ H1) as (c & y & Hc & Hy & ->). exists c, y. split; [auto|]. split; [auto|].
    intros lb' c' y' Hc' Hy'. specialize (Hr _ _ _ Hc' Hy'). split; [apply (H2 _ _ Hr)|]. intros Hlt. apply (H3 _ _ Hlt Hr).
Qed.
Lemma central mode : recompute_cluster_centers m cs (compute_memberships mode m cs) = cs ->
  forall lb c y i x, nth_error cs lb = Some c -> nth_error objects c = Some y ->
  nth_error (compute_memberships mode m cs) i = Some lb -> nth_error objects i = Some x -> (total_from d objects y <= total_from d objects x)%Q.
Proof.
  intros F lb c y i x Hc Hy Hi Hx. pose proof (recompute_nth m cs (compute_memberships mode m cs) lb c Hc) as R. rewrite F, Hc in R. injection R as R.
  destruct (recompute_center_ok m c (argwhere lb (compute_memberships mode m cs))) as (_ & _ & H). rewrite <- R in H.
  specialize (H i (proj2 (argwhere_In _ _ _) Hi)). rewrite (column_sum c y Hy), (column_sum i x Hx) in H. exact H.
Qed.
(** separated objects: a center has its own label *)
Lemma own_label : separated d objects -> NoDup cs -> forall lb c, nth_error cs lb = Some c -> nth_error (compute_memberships true m cs) c = Some lb.
Proof.
  intros Sep Nd lb c Hc. assert (Hl : c < length objects) by (apply Hb; eapply nth_error_In; eauto).
  destruct (nth_error objects c) as [x|] eqn:Ex; [|apply nth_error_None in Ex; lia].
  destruct (nth_error (compute_memberships true m cs) c) as [lb'|] eqn:El.
  2:{ apply nth_error_None in El. rewrite (memberships_length m (length objects) matrix_length) in El. lia. }
  destruct (closest_label true c x lb' Ex El) as (c' & y & Hc' & Hy & Hcl). destruct (Hcl lb c x Hc Ex) as [Hle _]. cbn in Hle.
  destruct (Nat.eq_dec c c') as [<-|Hne].
  - f_equal. eapply (proj1 (NoDup_nth_error cs) Nd); [apply nth_error_Some|]; congruence.
  - exfalso. pose proof (Sep c c' x y Hne Ex Hy) as Hlt. apply Qlt_not_le in Hlt. auto.
Qed.
Lemma nodup_kept : separated d objects -> NoDup cs -> NoDup (recompute_cluster_centers m cs (compute_memberships true m cs)).
Proof.
  intros Sep Nd. apply NoDup_nth_error. intros i j Hi Hij. rewrite recompute_length in Hi.
  assert (G : forall i c, nth_error (recompute_cluster_centers m cs (compute_memberships true m cs)) i = Some c -> nth_error (compute_memberships true m cs) c = Some i).
  { intros a c Ha. assert (La : a < length cs) by (rewrite <- (recompute_length m cs (compute_memberships true m cs)); apply nth_error_Some; congruence).
    destruct (nth_error cs a) as [c0|] eqn:E0; [|apply nth_error_None in E0; lia].
    rewrite (recompute_nth m cs _ a c0 E0) in Ha. injection Ha as <-.
    destruct (recompute_center_ok m c0 (argwhere a (compute_memberships true m cs))) as ([->|[Hin _]] & _).
    - apply own_label; auto.
    - apply argwhere_In in Hin. auto. }
  destruct (nth_error (recompute_cluster_centers m cs (compute_memberships true m cs)) i) as [c|] eqn:Ei.
  - pose proof (G _ _ Ei). pose proof (G _ _ (eq_sym Hij)). congruence.
  - apply nth_error_None in Ei. rewrite recompute_length in Ei. lia.
Qed.
End Matrix.

Lemma firstn_perm_In {X} (l l' : list X) n x : Permutation l' l -> In x (firstn n l') -> In x l.
Proof. intros P H. apply (Permutation_in _ P). rewrite <- (firstn_skipn n l'). apply in_or_app. auto. Qed.
Lemma NoDup_firstn {X} (l : list X) n : NoDup l -> NoDup (firstn n l).
Proof.
  intros H. rewrite <- (firstn_skipn n l) in H. revert H. generalize (firstn n l) as a. induction a as [|x a IH]; cbn; intros H; [constructor|].
  inversion H; subst. constructor; [|auto]. intros Hx. match goal with Q : ~ _ |- _ => apply Q end. apply in_or_app. auto.
Qed.
Lemma select_ok {E} shuffle (objects : list E) k : is_shuffle shuffle -> 1 <= k <= length objects ->
  exists cs, randomly_select_cluster_centers shuffle objects (Some (Z.of_nat k)) = Ok cs /\ length cs = k /\ NoDup cs /\ forall c, In c cs -> c < length objects.
Proof.
  intros Hs Hk. unfold randomly_select_cluster_centers. destruct (Z.leb_spec (Z.of_nat k) 0); [lia|].
  destruct (Z.ltb_spec (Z.of_nat (length objects)) (Z.of_nat k)); [lia|]. eexists. split; [reflexivity|]. rewrite Nat2Z.id.
  pose proof (Hs (seq 0 (length objects))) as P. split; [|split].
  - rewrite firstn_length, (Permutation_length P), seq_length. lia.
  - apply NoDup_firstn. eapply Permutation_NoDup; [symmetry; exact P|apply seq_NoDup].
  - intros c Hc. apply (firstn_perm_In _ _ _ _ P) in Hc. apply in_seq in Hc. lia.
Qed.

(*P C57 k-medoid clustering terminates in a closest-medoid assignment *)
(** [fuel] bounds the number of rounds of the main loop: it always suffices *)
Lemma C57_clustering : forall (E : Type) (d : E -> E -> Q) mode shuffle (objects : list E) k,
  is_shuffle shuffle -> 1 <= k <= length objects ->
  exists labels medoids,
    (forall fuel, k * length objects < fuel -> k_medoid fuel d mode shuffle objects (Some (Z.of_nat k)) = Ok (labels, medoids)) /\
    clustering mode d objects k labels medoids.
Proof.
  intros E d mode shuffle objects k Hs Hk. destruct (select_ok shuffle objects k Hs Hk) as (cs & Ec & Lc & _ & Hc).
  destruct (loop_ok (dissimilarity_matrix d objects) (length objects) (matrix_length d objects) mode (fun _ => True) ltac:(auto) cs Hc I) as (cs' & H1 & H2 & H3 & _ & F).
  set (m := dissimilarity_matrix d objects) in *. exists (compute_memberships mode m cs'), cs'. split.
  - intros fuel Hf. unfold k_medoid. rewrite Ec. cbn [bind]. apply H1. pose proof (mu_bound m (length objects) cs). fold m. rewrite Lc in *. lia.
  - assert (Hne : cs' <> []) by (intros ->; cbn in H2; lia). constructor.
    + apply memberships_length. apply matrix_length.
    + split; [congruence|auto].
    + intros i x lb. apply closest_label; auto.
    + apply central; auto.
Qed.
(** the medoids are different objects when no object is as dissimilar to itself
    as to another one *)
Lemma C57_distinct_medoids : forall (E : Type) (d : E -> E -> Q) shuffle (objects : list E) k fuel labels medoids,
  is_shuffle shuffle -> 1 <= k <= length objects -> separated d objects ->
  k_medoid fuel d true shuffle objects (Some (Z.of_nat k)) = Ok (labels, medoids) ->
  NoDup medoids /\ forall lb c, nth_error medoids lb = Some c -> nth_error labels c = Some lb.
Proof.
  intros E d shuffle objects k fuel labels medoids Hs Hk Sep R. destruct (select_ok shuffle objects k Hs Hk) as (cs & Ec & Lc & Nd & Hc).
  unfold k_medoid in R. rewrite Ec in R. cbn [bind] in R. set (m := dissimilarity_matrix d objects) in *.
  assert (Hk0 : cs <> []) by (intros ->; cbn in Lc; lia). clear Ec Lc.
  revert cs Nd Hc Hk0 R. induction fuel as [|fuel IH]; intros cs Nd Hc Hk0; cbn [k_medoid_loop]; [discriminate|].
  destruct (eqb (recompute_cluster_centers m cs (compute_memberships true m cs)) cs) eqn:Eq.
  - intros R; injection R as <- <-. split; [auto|]. intros lb c. apply own_label; auto.
  - apply IH.
    + apply nodup_kept; auto.
    + apply recompute_bound; [apply memberships_length, matrix_length|auto].
    + intros Q. apply (f_equal (@length nat)) in Q. rewrite recompute_length in Q. destruct cs; [congruence|discriminate].
Qed.
Lemma C57_number_of_clusters : forall (E : Type) (d : E -> E -> Q) mode shuffle (objects : list E) fuel,
  (forall k, (k <= 0 \/ Z.of_nat (length objects) < k)%Z -> k_medoid fuel d mode shuffle objects (Some k) = Err ValueError) /\
  k_medoid fuel d mode shuffle objects None = k_medoid fuel d mode shuffle objects (Some (Z.of_nat (length objects))).
Proof.
  intros E d mode shuffle objects fuel. split; [|reflexivity]. intros k Hk. unfold k_medoid, randomly_select_cluster_centers.
  destruct (Z.leb_spec k 0); [reflexivity|]. destruct (Z.ltb_spec (Z.of_nat (length objects)) k); [reflexivity|lia].
Qed.
