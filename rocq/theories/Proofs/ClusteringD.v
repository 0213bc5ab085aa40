From Coq Require Import String QArith Qabs Permutation Lqa.
From Verif.Model Require Import Base EventLog LogNoise Dfg Clustering.
From Verif.Spec Require Import Logs Graphs EventLogSpec DfgSpec DfgBuilt Moments ClusterSpec.
From Verif.Lib Require Import ListLib DictLib.
From Verif.Proofs Require Import Selection EventLogA DfgJ LogNoise PetriC ClusteringA ClusteringB ClusteringC.
Open Scope list_scope.
Open Scope nat_scope.

(*P C79 Clustering of activities *)
Lemma k_medoid_ext {E} fuel (d d' : E -> E -> Q) mode shuffle objects k : (forall x y, d x y = d' x y) ->
  k_medoid fuel d mode shuffle objects k = k_medoid fuel d' mode shuffle objects k.
Proof.
  intros H. unfold k_medoid. replace (dissimilarity_matrix d' objects) with (dissimilarity_matrix d objects); [auto|].
  unfold dissimilarity_matrix. apply map_ext. intros x2. apply map_ext. auto.
Qed.
Lemma label_dict {X} (g : nat -> X) (s : list string) : NoDup s -> forall d i, (forall a, In a s -> ~ In a (keys d)) ->
  fold_left (fun dct '(i, a) => dict_set a (g i) dct) (combine (seq i (length s)) s) d = d ++ combine s (map g (seq i (length s))).
Proof.
  induction 1 as [|a s Ha Nd IH]; intros d i Hd; cbn [length seq combine fold_left map]; [rewrite app_nil_r; auto|].
  rewrite set_fresh by (apply Hd; cbn; auto). rewrite IH.
  - rewrite <- app_assoc. auto.
  - intros b Hb. unfold keys. rewrite map_app, in_app_iff. cbn. intros [Q|[->|[]]]; [|auto]. eapply Hd; [cbn; right; exact Hb|exact Q].
Qed.
Lemma map_nth_seq {X} (l : list X) d : map (fun i => nth i l d) (seq 0 (length l)) = l.
Proof.
  apply nth_error_ext. intros i. destruct (Nat.lt_ge_cases i (length l)) as [Hi|Hi].
  - erewrite map_nth_error; [|apply (nth_error_seq 0); auto]. symmetry. apply nth_error_nth'. auto.
  - rewrite (proj2 (nth_error_None _ _)) by (rewrite map_length, seq_length; auto). symmetry. apply nth_error_None. auto.
Qed.
Lemma C79_clusters : forall {V I : Type} (l : log string V I) ord shuffle N mx k,
  (forall s, Permutation (ord s) s) -> is_shuffle shuffle ->
  (forall a b, has_size (fun '(k, i) => exists t, nth_error l k = Some t /\ follows_at (events t) a b i) (N a b)) ->
  (exists a b, N a b = mx) -> (forall a b, N a b <= mx) -> 0 < mx ->
  exists acts, NoDup acts /\ (forall a, In a acts <-> occurs l a) /\
    (1 <= k <= length acts -> exists labels medoids,
       (forall fuel, k * length acts < fuel -> cluster_activities fuel ord shuffle l (Some (Z.of_nat k)) =
          Ok (combine acts labels, map (fun i => nth i acts ""%string) medoids)) /\
       clustering true (activity_distance N mx) acts k labels medoids).
Proof.
  intros V I l ord shuffle N mx k Hord Hsh HN (a0 & b0 & H0) Hmx Hpos. destruct (activity_set_ok l) as [Nd Hs].
  set (acts := ord (compute_activity_set l)). exists acts.
  assert (Nd' : NoDup acts) by (eapply Permutation_NoDup; [symmetry; apply Hord|auto]). split; [auto|]. split.
  { intros a. unfold occurs. rewrite <- Hs. split; apply Permutation_in; [apply Hord|symmetry; apply Hord]. }
  intros Hk. destruct (C57_clustering string (activity_distance N mx) true shuffle acts k Hsh Hk) as (labels & medoids & R & Cl).
  exists labels, medoids. split; [|auto]. intros fuel Hf. specialize (R fuel Hf). unfold cluster_activities. fold acts.
  destruct (C37_directly_follows_counts l) as (g & C & Eg & _ & Sh & HC). rewrite Eg. cbn [bind].
  assert (HC' : forall a b, C a b = if N a b =? 0 then None else Some (Z.of_nat (N a b))).
  { intros a b. destruct (HC a b) as (n & Hn & ->). rewrite (has_size_unique _ _ _ (HN a b) Hn). auto. }
  assert (Emx : max_edge_count g = Ok (Z.of_nat mx)).
  { assert (Hin : forall z, In z (map snd (edge_list g)) <-> exists a b, C a b = Some z).
    { intros z. rewrite in_map_iff. split.
      - intros ([[a b] c] & <- & He). apply (proj2 (sh_edges _ _ _ Sh)) in He. eauto.
      - intros (a & b & He). exists (a, b, z). split; [auto|]. apply (proj2 (sh_edges _ _ _ Sh)). auto. }
    assert (Hmax : In (Z.of_nat mx) (map snd (edge_list g))).
    { apply Hin. exists a0, b0. rewrite HC', H0. destruct (Nat.eqb_spec mx 0); [lia|auto]. }
    assert (Hle : forall z, In z (map snd (edge_list g)) -> (z <= Z.of_nat mx)%Z).
    { intros z Hz. apply Hin in Hz. destruct Hz as (a & b & Hz). rewrite HC' in Hz. specialize (Hmx a b). destruct (N a b =? 0); [discriminate|]. injection Hz as <-. lia. }
    unfold max_edge_count. destruct (map snd (edge_list g)) as [|c cs]; [destruct Hmax|]. destruct (fold_max cs c) as [Q1 Q2].
    specialize (Q2 _ Hmax). specialize (Hle _ Q1). f_equal. lia. }
  rewrite Emx. cbn [bind].
  rewrite (k_medoid_ext _ _ (activity_distance N mx)).
  2:{ intros x y. unfold activity_dissimilarity, activity_similarity, activity_distance. change (eqb x y) with (String.eqb x y).
      destruct (String.eqb x y); [auto|]. rewrite !(sh_count _ _ _ Sh), !HC'.
      assert (Z1 : forall n, match (if n =? 0 then None else Some (Z.of_nat n)) with Some c => c | None => 0%Z end = Z.of_nat n) by (intros [|n]; auto).
      rewrite !Z1. repeat f_equal; lia. }
  rewrite R. cbn [bind]. rewrite label_dict; [|auto|intros a _ []]. cbn [app]. do 3 f_equal.
  rewrite <- (cl_labels _ _ _ _ _ _ Cl). rewrite map_nth_seq. auto.
Qed.
(** the distance is symmetric, between 0 and 1, and 0 for an activity and itself;
    it is also 0 for two activities that follow each other as often as any two do *)
Lemma C79_distance : forall N mx a b, (forall a b, N a b <= mx) ->
  (activity_distance N mx a b == activity_distance N mx b a /\ 0 <= activity_distance N mx a b < 1 /\
   (activity_distance N mx a b == 0 <-> a = b \/ (N a b = mx /\ N b a = mx)))%Q.
Proof.
  intros N mx a b Hmx. unfold activity_distance. rewrite (String.eqb_sym b a).
  pose proof (Hmx a b). pose proof (Hmx b a). rewrite (Nat.add_comm (N b a) (N a b)).
  set (s := N a b + N b a + 1). assert (Hs : s <= 1 + 2 * mx) by lia. assert (Hs0 : 0 < s) by lia.
  set (t := (inject_Z (Z.of_nat s) / inject_Z (Z.of_nat (1 + 2 * mx)))%Q).
  assert (Ht0 : (0 < inject_Z (Z.of_nat (1 + 2 * mx)))%Q) by (unfold Qlt; cbn; lia).
  assert (Ht1 : (0 < t)%Q).
  { unfold t, Qdiv. apply Qmult_lt_0_compat; [unfold Qlt; cbn; lia|]. apply Qinv_lt_0_compat. auto. }
  assert (Ht2 : (t <= 1)%Q) by (unfold t; apply Qle_shift_div_r; [auto|]; unfold Qle; cbn; lia).
  assert (Ht3 : (t == 1)%Q <-> s = 1 + 2 * mx).
  { unfold t. split.
    - intros Q. assert (Q1 : (inject_Z (Z.of_nat s) == inject_Z (Z.of_nat (1 + 2 * mx)))%Q).
      { rewrite <- (Qmult_1_l (inject_Z (Z.of_nat (1 + 2 * mx)))). rewrite <- Q. field. intros Q1. rewrite Q1 in Ht0. apply Qlt_irrefl in Ht0. auto. }
      unfold Qeq in Q1. cbn in Q1. lia.
    - intros ->. field. intros Q1. rewrite Q1 in Ht0. apply Qlt_irrefl in Ht0. auto. }
  destruct (String.eqb_spec a b) as [->|Hne].
  - split; [reflexivity|]. split; [split; lra|]. split; [auto|]. intros _. lra.
  - split; [reflexivity|]. split; [split; lra|]. split.
    + intros Q. right. assert (Q1 : (t == 1)%Q) by lra. apply Ht3 in Q1. unfold s in Q1. lia.
    + intros [Q|[Q1 Q2]]; [congruence|]. assert (Q3 : s = 1 + 2 * mx) by (unfold s; lia). apply Ht3 in Q3. lra.
Qed.
Lemma C79_no_edges : forall {V I : Type} (l : log string V I) ord shuffle k fuel,
  (forall t a b i, In t l -> ~ follows_at (events t) a b i) -> cluster_activities fuel ord shuffle l k = Err ValueError.
Proof.
  intros V I l ord shuffle k fuel Hno. unfold cluster_activities. destruct (C37_directly_follows_counts l) as (g & C & Eg & _ & Sh & HC).
  rewrite Eg. cbn [bind]. assert (Ee : edge_list g = []).
  { destruct (edge_list g) as [|[[a b] c] es] eqn:El; [auto|]. exfalso. destruct (HC a b) as (n & Hn & Ec).
    assert (Q : C a b = Some c) by (apply (proj2 (sh_edges _ _ _ Sh)); rewrite El; cbn; auto). 
    assert (Hn0 : n = 0).
    { apply (has_size_unique _ _ _ Hn). apply has_size_empty. intros [i j] (t & Ht & Hf). eapply Hno; [eapply nth_error_In; eauto|eauto]. }
    rewrite Hn0 in Ec. cbn in Ec. congruence. }
  unfold max_edge_count. rewrite Ee. reflexivity.
Qed.

(*P C80 Fuzzy clustering *)
Lemma Qsum_pos l : l <> [] -> (forall x, In x l -> (0 < x)%Q) -> (0 < Qsum l)%Q.
Proof.
  destruct l as [|x l]; [congruence|]. intros _ H. cbn. assert (G : (0 <= Qsum l)%Q).
  { assert (H' : forall x, In x l -> (0 < x)%Q) by (intros; apply H; cbn; auto). clear H. induction l as [|y l IH]; cbn; [lra|].
    specialize (IH ltac:(intros; apply H'; cbn; auto)). specialize (H' y (or_introl eq_refl)). fold (Qsum l). lra. }
  specialize (H x (or_introl eq_refl)). fold (Qsum l). lra.
Qed.
Lemma Qsum_nonneg l : (forall x, In x l -> (0 < x)%Q) -> (0 <= Qsum l)%Q.
Proof. intros H. destruct l as [|x l]; [cbn; lra|]. apply Qlt_le_weak. apply Qsum_pos; [discriminate|auto]. Qed.
Lemma Qsum_ge l x : In x l -> (forall x, In x l -> (0 < x)%Q) -> (x <= Qsum l)%Q.
Proof.
  intros Hx H. induction l as [|y l IH]; [destruct Hx|]. cbn. fold (Qsum l).
  assert (H' : forall x, In x l -> (0 < x)%Q) by (intros; apply H; cbn; auto).
  pose proof (Qsum_nonneg l H'). destruct Hx as [->|Hx].
  - lra.
  - specialize (IH Hx H'). specialize (H y (or_introl eq_refl)). lra.
Qed.
Lemma Qsum_div l t : (Qsum (map (fun x => x / t) l) == Qsum l / t)%Q.
Proof. induction l as [|x l IH]; cbn; [unfold Qdiv; ring|]. fold (Qsum l). fold (Qsum (map (fun x => x / t)%Q l)). rewrite IH. unfold Qdiv. ring. Qed.
Section Fuzzy.
Context {E : Type}.
Variables (d : E -> E -> Q) (weight : Q -> Q) (objects : list E).
Hypothesis Hw : forall x, (0 < weight x)%Q.
Let m := dissimilarity_matrix d objects.
Variable dflt : E.
Definition obj (c : nat) : E := nth c objects dflt.
Lemma row_ok cs x : cs <> [] -> (forall c, In c cs -> c < length objects) -> 
  exists row, membership_row weight (map (fun x1 => d x1 x) objects) cs = Ok row /\ fuzzy_row d weight (map obj cs) x row.
Proof.
  intros Hne Hb. unfold membership_row.
  assert (Hc : forall c, In c cs -> nth c (map (fun x1 => d x1 x) objects) 0%Q = d (obj c) x).
  { intros c Hc. apply row_cell. apply nth_error_nth'. auto. }
  assert (Et : map (fun t => weight (nth t (map (fun x1 => d x1 x) objects) 0%Q)) cs = map (fun c => weight (d (obj c) x)) cs).
  { apply map_ext_in. intros c Hin. rewrite Hc; auto. }
  rewrite Et. set (ws := map (fun c => weight (d (obj c) x)) cs). set (t := Qsum ws).
  assert (Hws : forall w, In w ws -> (0 < w)%Q) by (intros w Hin; apply in_map_iff in Hin; destruct Hin as (c & <- & _); auto).
  assert (Ht : (0 < t)%Q) by (apply Qsum_pos; [unfold ws; destruct cs; [congruence|discriminate]|auto]).
  destruct (Qeq_bool t 0) eqn:E0; [apply Qeq_bool_iff in E0; rewrite E0 in Ht; apply Qlt_irrefl in Ht; destruct Ht|].
  exists (map (fun w => (w / t)%Q) ws). split.
  - clearbody t. unfold ws. rewrite map_map. clear - Hc. induction cs as [|c cs IH]; [reflexivity|]. cbn [mapM map bind].
    rewrite IH by (intros; apply Hc; cbn; auto). cbn [bind]. rewrite Hc by (cbn; auto). reflexivity.
  - split.
    + rewrite !map_map. change (total (map (fun c => weight (d (obj c) x)) cs)) with t.
      assert (G : forall w, In w ws -> (0 < w / t /\ w / t <= 1)%Q).
      { intros w Hin. split.
        - unfold Qdiv. apply Qmult_lt_0_compat; [auto|]. apply Qinv_lt_0_compat. auto.
        - apply Qle_shift_div_r; [auto|]. rewrite Qmult_1_l. apply Qsum_ge; auto. }
      unfold ws in *. clearbody t. clear - G. induction cs as [|c cs IH]; cbn [map]; constructor.
      * split; [reflexivity|]. apply G. cbn. auto.
      * apply IH. intros w Hin. apply G. cbn. auto.
    + change (total (map (fun w => (w / t)%Q) ws)) with (Qsum (map (fun w => (w / t)%Q) ws)). rewrite Qsum_div. fold t. field.
      intros Q. rewrite Q in Ht. apply Qlt_irrefl in Ht. auto.
Qed.
Lemma membership_ok cs : cs <> [] -> (forall c, In c cs -> c < length objects) ->
  exists u, membership_matrix weight m cs = Ok u /\ Forall2 (fuzzy_row d weight (map obj cs)) objects u.
Proof.
  intros Hne Hb. unfold membership_matrix, m, dissimilarity_matrix.
  assert (G : forall xs, exists u, mapM (fun row => membership_row weight row cs) (map (fun x2 => map (fun x1 => d x1 x2) objects) xs) = Ok u /\
     Forall2 (fuzzy_row d weight (map obj cs)) xs u).
  { induction xs as [|x xs (u & E1 & F1)]; cbn [map mapM]; [eauto|]. destruct (row_ok cs x Hne Hb) as (row & E2 & F2). rewrite E2. cbn [bind]. rewrite E1.
    cbn [bind]. eauto. }
  apply G.
Qed.
Lemma argmin_lt l : l <> [] -> argmin l < length l.
Proof. intros H. destruct (argmin_ok l H) as (v & Hv & _). apply nth_error_Some. congruence. Qed.
Lemma recompute_fuzzy_ok u k : objects <> [] -> length (recompute_fuzzy u m k) = k /\ forall c, In c (recompute_fuzzy u m k) -> c < length objects.
Proof.
  intros Hne. unfold recompute_fuzzy. rewrite map_length, seq_length. split; [auto|]. intros c Hc. apply in_map_iff in Hc. destruct Hc as (j & <- & _).
  assert (L : length m = length objects) by apply matrix_length. rewrite L.
  eapply Nat.lt_le_trans; [apply argmin_lt|rewrite map_length, seq_length; auto]. destruct objects; [congruence|discriminate].
Qed.
Lemma fuzzy_loop_ok fuel : forall p cs, cs <> [] -> (forall c, In c cs -> c < length objects) ->
  fuzzy_loop fuel weight m p cs = Err OutOfFuel \/
  exists u cs', fuzzy_loop fuel weight m p cs = Ok (u, cs') /\ length cs' = length cs /\ (forall c, In c cs' -> c < length objects) /\
    Forall2 (fuzzy_row d weight (map obj cs')) objects u.
Proof.
  induction fuel as [|fuel IH]; intros p cs Hne Hb; cbn [fuzzy_loop]; [auto|].
  destruct (membership_ok cs Hne Hb) as (u & E1 & F1). rewrite E1. cbn [bind].
  destruct (match p with Some p => isclose (objective u (columns m cs)) p | None => false end).
  - right. exists u, cs. auto.
  - assert (Ho : objects <> []) by (intros Q; destruct cs as [|c cs]; [congruence|]; specialize (Hb c (or_introl eq_refl)); rewrite Q in Hb; cbn in Hb; lia).
    destruct (recompute_fuzzy_ok u (length cs) Ho) as [L B].
    destruct (IH (Some (objective u (columns m cs))) (recompute_fuzzy u m (length cs))) as [Q|(u' & cs' & Q1 & Q2 & Q3)]; auto.
    + intros Q. rewrite Q in L. destruct cs; [congruence|discriminate].
    + right. exists u', cs'. split; [auto|]. split; [congruence|auto].
Qed.
End Fuzzy.
(** whenever the iteration ends; [weight x] is exp(-x / coefficient) *)
Lemma C80_memberships : forall (E : Type) (d : E -> E -> Q) weight shuffle (objects : list E) k fuel res dflt,
  (forall x, (0 < weight x)%Q) -> is_shuffle shuffle -> 1 <= k <= length objects ->
  fuzzy_k_medoid fuel d weight shuffle objects (Some (Z.of_nat k)) = res -> res <> Err OutOfFuel ->
  exists u medoids, res = Ok (u, medoids) /\ length medoids = k /\ (forall c, In c medoids -> c < length objects) /\
    Forall2 (fuzzy_row d weight (map (fun c => nth c objects dflt) medoids)) objects u.
Proof.
  intros E d weight shuffle objects k fuel res dflt Hw Hs Hk <- Hf. destruct (select_ok shuffle objects k Hs Hk) as (cs & Ec & Lc & _ & Hc).
  unfold fuzzy_k_medoid in *. rewrite Ec in *. cbn [bind] in *.
  destruct (fuzzy_loop_ok d weight objects Hw dflt fuel None cs) as [Q|(u & cs' & Q1 & Q2 & Q3 & Q4)]; auto.
  - intros ->. cbn in Lc. lia.
  - contradiction.
  - exists u, cs'. split; [auto|]. split; [congruence|]. split; [auto|]. exact Q4.
Qed.
(** weights that underflow to zero for all medoids raise *)
Lemma C80_underflow : forall (E : Type) (d : E -> E -> Q) weight shuffle (objects : list E) k fuel,
  (forall x, (weight x == 0)%Q) -> is_shuffle shuffle -> 1 <= k <= length objects -> 0 < fuel ->
  fuzzy_k_medoid fuel d weight shuffle objects (Some (Z.of_nat k)) = Err ZeroDivisionError.
Proof.
  intros E d weight shuffle objects k fuel Hw Hs Hk Hf. destruct (select_ok shuffle objects k Hs Hk) as (cs & Ec & Lc & _ & Hc).
  unfold fuzzy_k_medoid. rewrite Ec. cbn [bind]. destruct fuel as [|fuel]; [lia|]. cbn [fuzzy_loop].
  destruct objects as [|x objects]; [cbn in Hk; lia|]. unfold membership_matrix, dissimilarity_matrix. cbn [map mapM].
  unfold membership_row at 1. destruct cs as [|c cs]; [cbn in Lc; lia|]. cbn [mapM].
  set (t := Qsum _). assert (Ht : (t == 0)%Q).
  { unfold t. generalize (c :: cs) as l. induction l as [|y l IH]; cbn [map Qsum fold_right]; [reflexivity|]. fold (Qsum (map (fun t0 => weight (nth t0 (map (fun x1 => d x1 x) (x :: objects)) 0%Q)) l)).
    rewrite Hw. cbn [map] in *. rewrite IH. reflexivity. }
  apply Qeq_bool_iff in Ht. rewrite Ht. reflexivity.
Qed.
