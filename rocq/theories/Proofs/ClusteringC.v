From Coq Require Import String QArith Permutation.
From Verif.Model Require Import Base EventLog LogNoise Dfg Clustering.
From Verif.Spec Require Import Logs Graphs EventLogSpec DfgSpec DfgBuilt Moments ClusterSpec.
From Verif.Lib Require Import ListLib DictLib.
From Verif.Proofs Require Import Selection EventLogA DfgJ LogNoise PetriC ClusteringA ClusteringB.
Open Scope list_scope.
Open Scope nat_scope.

(*P C58 Cluster decoding partitions the instances *)
Lemma foldM_put {E} (xs : list E) : forall ls cls outs, (forall z, In z ls -> (z < Z.of_nat (length cls))%Z) ->
  exists cls', foldM put (combine xs ls) (cls, outs) = Ok (cls', outs ++ labelled (fun z => z <? 0)%Z xs ls) /\ length cls' = length cls /\
    forall k c, nth_error cls k = Some c -> nth_error cls' k = Some (c ++ labelled (Z.eqb (Z.of_nat k)) xs ls).
Proof.
  induction xs as [|x xs IH]; intros ls cls outs Hz.
  { exists cls. cbn. rewrite app_nil_r. split; [auto|]. split; [auto|]. intros k c Hc. rewrite app_nil_r. auto. }
  destruct ls as [|z ls].
  { exists cls. cbn. rewrite app_nil_r. split; [auto|]. split; [auto|]. intros k c Hc. rewrite app_nil_r. auto. }
  cbn [combine foldM put labelled]. destruct (Z.ltb_spec z 0).
  - cbn [bind]. destruct (IH ls cls (outs ++ [x])) as (cls' & E1 & E2 & E3); [intros; apply Hz; cbn; auto|].
    exists cls'. rewrite E1. split; [rewrite <- app_assoc; auto|]. split; [auto|]. intros k c Hc. rewrite (E3 k c Hc).
    destruct (Z.eqb_spec (Z.of_nat k) z); [lia|auto].
  - assert (Hlt : Z.to_nat z < length cls) by (specialize (Hz z (or_introl eq_refl)); lia).
    destruct (nth_error cls (Z.to_nat z)) as [c0|] eqn:E0; [|apply nth_error_None in E0; lia].
    destruct (list_set_spec cls (Z.to_nat z) (c0 ++ [x]) Hlt) as (cls1 & S1 & S2 & S3). rewrite S1. cbn [of_option bind].
    destruct (IH ls cls1 outs) as (cls' & E1 & E2 & E3); [intros y Hy; rewrite S2; apply Hz; cbn; auto|].
    exists cls'. rewrite E1. split; [auto|]. split; [congruence|]. intros k c Hc. specialize (S3 k).
    destruct (Nat.eqb_spec k (Z.to_nat z)) as [Ekz|Hne]; [rewrite Ekz in *; clear Ekz|].
    + rewrite (E3 _ _ S3). replace c with c0 by congruence. rewrite Z2Nat.id by lia. rewrite Z.eqb_refl, <- app_assoc. auto.
    + rewrite Hc in S3. rewrite (E3 _ _ S3). destruct (Z.eqb_spec (Z.of_nat k) z); [lia|auto].
Qed.
Lemma fold_max l x : let m := fold_left Z.max l x in In m (x :: l) /\ forall z, In z (x :: l) -> (z <= m)%Z.
Proof.
  revert x. induction l as [|y l IH]; intros x; cbn [fold_left].
  - split; [cbn; auto|]. intros z [<-|[]]. lia.
  - destruct (IH (Z.max x y)) as [H1 H2]. split.
    + destruct H1 as [H1|H1]; [|cbn; auto]. cbn [In]. destruct (Z.max_spec x y) as [[_ Q]|[_ Q]]; rewrite Q in *; auto.
    + intros z [<-|[<-|Hz]]; [specialize (H2 (Z.max x y)); cbn in H2; lia|specialize (H2 (Z.max x y)); cbn in H2; lia|apply H2; cbn; auto].
Qed.
Lemma C58_decode : forall (E : Type) (instances : list E) labels mx, In mx labels -> (forall z, In z labels -> (z <= mx)%Z) ->
  exists clusters, decode_label_vector instances labels = Ok (clusters, labelled (fun z => z <? 0)%Z instances labels) /\
    length clusters = Z.to_nat (mx + 1) /\
    forall k c, nth_error clusters k = Some c -> c = labelled (Z.eqb (Z.of_nat k)) instances labels.
Proof.
  intros E instances labels mx Hmx Hz. destruct labels as [|z l]; [destruct Hmx|]. cbn [decode_label_vector].
  assert (Em : fold_left Z.max l z = mx).
  { destruct (fold_max l z) as [H1 H2]. specialize (Hz _ H1). specialize (H2 _ Hmx). lia. }
  rewrite Em. destruct (foldM_put instances (z :: l) (repeat [] (Z.to_nat (mx + 1))) []) as (cls & E1 & E2 & E3).
  { intros y Hy. rewrite repeat_length. specialize (Hz y Hy). lia. }
  exists cls. rewrite E1. split; [auto|]. rewrite repeat_length in E2. split; [auto|]. intros k c Hc.
  destruct (nth_error (repeat (@nil E) (Z.to_nat (mx + 1))) k) as [c0|] eqn:E0.
  - rewrite (E3 _ _ E0) in Hc. apply nth_error_In, repeat_spec in E0. subst c0. cbn [app] in Hc. congruence.
  - apply nth_error_None in E0. rewrite repeat_length in E0. assert (k < length cls) by (apply nth_error_Some; congruence). lia.
Qed.
(** with one label per instance nothing is lost and nothing is doubled *)
Lemma perm_clusters {E} (xs : list E) : forall ls n, length xs = length ls -> (forall z, In z ls -> (z < Z.of_nat n)%Z) ->
  Permutation (concat (map (fun k => labelled (Z.eqb (Z.of_nat k)) xs ls) (seq 0 n)) ++ labelled (fun z => z <? 0)%Z xs ls) xs.
Proof.
  induction xs as [|x xs IH]; intros ls n Hl Hz.
  { cbn. rewrite app_nil_r. induction (seq 0 n); cbn; auto. }
  destruct ls as [|z ls]; [discriminate|]. cbn in Hl. specialize (IH ls n ltac:(lia) ltac:(intros; apply Hz; cbn; auto)).
  cbn [labelled]. destruct (Z.ltb_spec z 0).
  - rewrite <- Permutation_middle. apply perm_skip. etransitivity; [|exact IH]. apply Permutation_app_tail.
    erewrite map_ext_in; [reflexivity|]. intros k Hk. cbn. destruct (Z.eqb_spec (Z.of_nat k) z); [lia|auto].
  - set (j := Z.to_nat z). assert (Hj : j < n) by (specialize (Hz z (or_introl eq_refl)); lia).
    etransitivity; [|apply perm_skip; exact IH]. rewrite app_comm_cons. apply Permutation_app_tail.
    replace n with (j + S (n - j - 1)) by lia. rewrite seq_app, !map_app, !concat_app. cbn [seq map concat]. rewrite Nat.add_0_l.
    destruct (Z.eqb_spec (Z.of_nat j) z) as [_|]; [|lia]. cbn [app].
    rewrite <- Permutation_middle. apply perm_skip. 
    rewrite (map_ext_in (fun k => if (Z.of_nat k =? z)%Z then x :: labelled (Z.eqb (Z.of_nat k)) xs ls else labelled (Z.eqb (Z.of_nat k)) xs ls)
       (fun k => labelled (Z.eqb (Z.of_nat k)) xs ls) (seq 0 j)).
    2:{ intros k Hk. apply in_seq in Hk. destruct (Z.eqb_spec (Z.of_nat k) z); [lia|auto]. }
    rewrite (map_ext_in (fun k => if (Z.of_nat k =? z)%Z then x :: labelled (Z.eqb (Z.of_nat k)) xs ls else labelled (Z.eqb (Z.of_nat k)) xs ls)
       (fun k => labelled (Z.eqb (Z.of_nat k)) xs ls) (seq (S j) (n - j - 1))).
    2:{ intros k Hk. apply in_seq in Hk. destruct (Z.eqb_spec (Z.of_nat k) z); [lia|auto]. }
    reflexivity.
Qed.
Lemma C58_partition : forall (E : Type) (instances : list E) labels, labels <> [] -> length instances = length labels ->
  exists clusters outliers, decode_label_vector instances labels = Ok (clusters, outliers) /\ Permutation (concat clusters ++ outliers) instances.
Proof.
  intros E instances [|z l] Hne Hl; [congruence|]. destruct (fold_max l z) as [H1 H2].
  destruct (C58_decode E instances (z :: l) _ H1 H2) as (cls & E1 & E2 & E3). eexists _, _. split; [exact E1|].
  set (mx := fold_left Z.max l z) in *.
  assert (Ec : cls = map (fun k => labelled (Z.eqb (Z.of_nat k)) instances (z :: l)) (seq 0 (Z.to_nat (mx + 1)))).
  { apply nth_ext with (d := []) (d' := []); [rewrite map_length, seq_length; auto|]. intros k Hk.
    destruct (nth_error cls k) as [c|] eqn:Ek; [|apply nth_error_None in Ek; lia]. rewrite (nth_error_nth _ _ _ Ek). rewrite (E3 k c Ek).
    symmetry. apply nth_error_nth. erewrite map_nth_error; [|apply (nth_error_seq 0); lia]. auto. }
  rewrite Ec. apply perm_clusters; [auto|]. intros y Hy. specialize (H2 y Hy). fold mx in H2. lia.
Qed.
Lemma C58_empty : forall (E : Type) (instances : list E), decode_label_vector instances [] = Err ValueError.
Proof. reflexivity. Qed.

(*P C78 Trace vectors and trace clustering *)
Section OneHot.
Context {A V I : Type} `{Base.Eq A}.
Lemma enum_dict (s : list A) : NoDup s -> forall d i, (forall a, In a s -> ~ In a (keys d)) ->
  fold_left (fun dct '(i, a) => dict_set a i dct) (combine (seq i (length s)) s) d = d ++ combine s (seq i (length s)).
Proof.
  induction 1 as [|a s Ha Nd IH]; intros d i Hd; cbn [length seq combine fold_left]; [rewrite app_nil_r; auto|].
  rewrite set_fresh by (apply Hd; cbn; auto). rewrite IH.
  - rewrite <- app_assoc. auto.
  - intros b Hb. unfold keys. rewrite map_app, in_app_iff. cbn. intros [Q|[->|[]]]; [|auto]. eapply Hd; [cbn; right; exact Hb|exact Q].
Qed.
Lemma enum_get (s : list A) : NoDup s -> forall i j a, nth_error s j = Some a -> dict_get a (combine s (seq i (length s))) = Some (i + j).
Proof.
  induction 1 as [|b s Hb Nd IH]; intros i [|j] a Ha; cbn in Ha; try discriminate; cbn [length seq combine dict_get].
  - injection Ha as ->. rewrite eqb_refl. f_equal. lia.
  - destruct (eqb_ok a b) as [->|]; [exfalso; apply Hb; eapply nth_error_In; eauto|]. rewrite (IH (S i) j a Ha). f_equal. lia.
Qed.
Definition bit (acts : list A) (a : A) : nat := if mem a acts then 1 else 0.
Lemma encode_trace_ok (s : list A) acts : NoDup s -> incl acts s ->
  encode_trace (combine s (seq 0 (length s))) acts = Ok (map (bit acts) s).
Proof.
  intros Nd Hi. unfold encode_trace.
  assert (L : length (combine s (seq 0 (length s))) = length s) by (rewrite combine_length, seq_length; lia). rewrite L.
  assert (G : forall seen, foldM (fun v a => do i <- of_option KeyError (dict_get a (combine s (seq 0 (length s)))); of_option IndexError (list_set v i 1)) acts (map (bit seen) s)
     = Ok (map (bit (seen ++ acts)) s)).
  { clear L. induction acts as [|a acts IH]; intros seen; cbn [foldM]; [rewrite app_nil_r; auto|].
    assert (Ha : In a s) by (apply Hi; cbn; auto). apply In_nth_error in Ha. destruct Ha as (j & Hj). rewrite (enum_get s Nd 0 j a Hj). cbn [of_option bind].
    assert (Lj : j < length (map (bit seen) s)) by (rewrite map_length; apply nth_error_Some; congruence).
    destruct (list_set_spec (map (bit seen) s) j 1 Lj) as (v & E1 & E2 & E3). rewrite Nat.add_0_l, E1. cbn [of_option bind].
    assert (Ev : v = map (bit (seen ++ [a])) s).
    { apply nth_error_ext. intros k. rewrite E3. destruct (nth_error s k) as [b|] eqn:Eb.
      - rewrite !(map_nth_error _ _ _ Eb). unfold bit, mem. rewrite existsb_app. cbn. destruct (Nat.eqb_spec k j) as [->|Hne].
        + replace b with a by congruence. rewrite eqb_refl, orb_comm. auto.
        + destruct (eqb_ok b a) as [->|_]; [exfalso; apply Hne; apply (proj1 (NoDup_nth_error s) Nd); [apply nth_error_Some|]; congruence|].
          rewrite !orb_false_r. auto.
      - assert (length s <= k) by (apply nth_error_None; auto). assert (nth_error (map (bit (seen ++ [a])) s) k = None) as ->.
        { apply nth_error_None. rewrite map_length. auto. }
        destruct (Nat.eqb_spec k j) as [->|]; [congruence|]. apply nth_error_None. rewrite map_length. auto. }
    rewrite Ev, IH by (intros x Hx; apply Hi; cbn; auto). rewrite <- app_assoc. auto. }
  etransitivity; [|exact (G [])]. f_equal. clear. induction s; cbn; congruence.
Qed.
End OneHot.
Lemma C78_one_hot : forall {A V I : Type} `{Base.Eq A} (ord : list A -> list A) (l : log A V I), (forall s, Permutation (ord s) s) ->
  exists columns, NoDup columns /\ (forall a, In a columns <-> occurs l a) /\
    encode_log ord l = Ok (map (fun t => map (fun a => if mem a (map activity (events t)) then 1 else 0) columns) l).
Proof.
  intros A V I Heq ord l Hord. destruct (activity_set_ok l) as [Nd Hs]. exists (ord (compute_activity_set l)).
  assert (Nd' : NoDup (ord (compute_activity_set l))) by (eapply Permutation_NoDup; [symmetry; apply Hord|auto]).
  assert (Hin : forall a, In a (ord (compute_activity_set l)) <-> occurs l a).
  { intros a. unfold occurs. rewrite <- Hs. split; apply Permutation_in; [apply Hord|symmetry; apply Hord]. }
  split; [auto|]. split; [auto|]. unfold encode_log. rewrite enum_dict; [|auto|intros a _ []]. cbn [app].
  assert (Hl : forall t, In t l -> incl (map activity (events t)) (ord (compute_activity_set l))).
  { intros t Ht a Ha. apply in_map_iff in Ha. destruct Ha as (e & <- & He). apply Hin. exists t, e. auto. }
  revert Hl Nd'. generalize (ord (compute_activity_set l)) as s. clear. intros s Hl Nd. induction l as [|t l IH]; [reflexivity|].
  cbn [to_simple_activity_log map mapM]. change (to_activity_list t) with (map activity (events t)). rewrite encode_trace_ok by (auto; apply Hl; cbn; auto). cbn [bind].
  unfold to_simple_activity_log in IH. rewrite IH by (intros; apply Hl; cbn; auto). reflexivity.
Qed.
Lemma C78_clusters : forall {A V I : Type} `{Base.Eq A} encode (algorithm : list (list nat) -> list Z) (l : log A V I) m,
  encode l = Ok m -> l <> [] -> length (algorithm m) = length l ->
  exists clusters outliers, cluster_traces encode algorithm l = Ok (clusters, outliers) /\ Permutation (concat clusters ++ outliers) l.
Proof.
  intros A V I Heq encode algorithm l m E1 Hl Ha. unfold cluster_traces. rewrite E1. cbn [bind].
  apply C58_partition; [|auto]. intros Q. rewrite Q in Ha. destruct l; [congruence|discriminate].
Qed.
(** cluster [k] holds the traces labelled [k], the outliers are those with negative labels *)
Lemma C78_labels : forall {A V I : Type} `{Base.Eq A} encode (algorithm : list (list nat) -> list Z) (l : log A V I) m mx,
  encode l = Ok m -> In mx (algorithm m) -> (forall z, In z (algorithm m) -> (z <= mx)%Z) ->
  exists clusters, cluster_traces encode algorithm l = Ok (clusters, labelled (fun z => z <? 0)%Z l (algorithm m)) /\
    length clusters = Z.to_nat (mx + 1) /\
    forall k c, nth_error clusters k = Some c -> c = labelled (Z.eqb (Z.of_nat k)) l (algorithm m).
Proof.
  intros A V I Heq encode algorithm l m mx E1 Hm Hx. unfold cluster_traces. rewrite E1. cbn [bind]. apply C58_decode; auto.
Qed.
