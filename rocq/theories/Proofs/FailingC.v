(** What failing transformations leave behind (C143), continued *)
From Coq Require Import Permutation QArith Qcanon String Sorted.
From Verif.Model Require Import Base Sort LogNoise Dataset Transformers Discretization FailingTransformers.
From Verif.Spec Require Import DatasetSpec TransformSpec QuantileSpec FailingSpec.
From Verif.Lib Require Import ListLib DictLib.
From Verif.Proofs Require Import PetriA ParallelB DatasetA DatasetB DatasetC TransformersA TransformersB TransformersC TransformersD Quantiles FailingA FailingB.
Open Scope string_scope.
Open Scope list_scope.
Open Scope nat_scope.


(*P C143 What a failing transformation leaves behind *)
(** One-hot encoding, if the names of the new columns are new and distinct:
    either it works, or there is a first categorical attribute whose values
    are not among the predefined ones (KeyError) or cannot be sorted.  Then the
    attributes before it are replaced by their columns, no column of another
    attribute was added, and it and all attributes after it are as they were. *)
Lemma C143_one_hot : forall (I V T : Type) (EI : Base.Eq I) (EV : Base.Eq V) possible
    (sorted : list V -> result (list V)) (zero one : V) join (show : V -> string) (h : heap I V T) (d : dataset V) it,
  let encoded := fun n pv => kind_of d n = Some Categorical /\ pv <> [zero; one] /\
                   exists s, range_of possible d n s /\ sorted s = Ok pv in
  let column := fun n v => (n ++ join ++ show v)%string in
  history true h d -> Permutation it (insts d) ->
  (forall n s pv, kind_of d n = Some Categorical -> range_of possible d n s -> sorted s = Ok pv -> NoDup pv) ->
  (forall n pv v, encoded n pv -> In v pv -> ~ has_attribute d (column n v)) ->
  (forall n pv v n' pv' v', encoded n pv -> In v pv -> encoded n' pv' -> In v' pv' ->
     column n v = column n' v' -> n = n' /\ v = v') ->
  exists h' d' e done rest, one_hot_encoding possible sorted zero one join show it h d = (h', d', e) /\
    keys (attrs d) = done ++ rest /\
    history true h' d' /\ insts d' = insts d /\ only_features d h h' /\
    (forall n pv, In n done -> encoded n pv -> ~ has_attribute d' n) /\
    (forall n pv v, In n done -> encoded n pv -> In v pv -> kind_of d' (column n v) = Some Categorical /\
       forall a, In a (insts d) -> (value h a n = Some v -> value h' a (column n v) = Some one) /\
                                   (value h a n <> Some v -> value h' a (column n v) = Some zero)) /\
    (forall m, (forall pv, In m done -> ~ encoded m pv) -> (forall n pv v, In n done -> encoded n pv -> In v pv -> m <> column n v) ->
       kind_of d' m = kind_of d m /\ forall a, In a (insts d) -> value h' a m = value h a m) /\
    match e with
    | None => rest = []
    | Some e => exists n rest', rest = n :: rest' /\ kind_of d n = Some Categorical /\
        ((e = KeyError /\ forall s, ~ range_of possible d n s) \/ (exists s, range_of possible d n s /\ sorted s = Err e))
    end.
Proof.
  intros I V T EI EV possible sorted zero one join show h d it encoded col Hh Hit Hsort Hfresh Hdist.
  pose proof (history_inv _ _ _ Hh) as Hi.
  set (P := fun (done : list string) (h1 : heap I V T) (d1 : dataset V) =>
    history true h1 d1 /\ insts d1 = insts d /\ only_features d h h1 /\
    (forall n pv, In n done -> encoded n pv -> kind_of d1 n = None) /\
    (forall n pv v, In n done -> encoded n pv -> In v pv -> kind_of d1 (col n v) = Some Categorical /\
       forall a w, In a (insts d) -> value h a n = Some w -> value h1 a (col n v) = Some (if eqb w v then one else zero)) /\
    (forall m, (forall pv, In m done -> ~ encoded m pv) ->
       (forall n pv v, In n done -> encoded n pv -> In v pv -> m <> col n v) ->
       kind_of d1 m = kind_of d m /\ forall a, In a (insts d) -> value h1 a m = value h a m)).
  destruct (per_loop Categorical (one_hot_encoding_attribute possible sorted zero one join show it) d P
    (fun n _ e => (e = KeyError /\ forall s, ~ range_of possible d n s) \/ (exists s, range_of possible d n s /\ sorted s = Err e))) with (h := h)
    as (h' & d' & e & done & rest & E & Ek & (H1 & H2 & H3 & H4 & H5 & H6) & Hfail).
  - apply Hi.
  - intros done n us h1 d1 Hk Hu Hnd (H1 & H2 & H3 & H4 & H5 & H6).
    destruct (candidates_cases possible sorted d n us Hu) as [(s & pv & Hr & Es & Hcand)|(e & Ec & Hf)].
    2: { right. exists e. split; [unfold one_hot_encoding_attribute; rewrite Ec; auto|auto]. }
    left. pose proof (Hsort n s pv Hk Hr Es) as Hpv.
    enough (exists h2 d2, one_hot_attribute possible sorted zero one join show it h1 d1 n us = Ok (h2, d2) /\ P (n :: done) h2 d2) as (h2 & d2 & Eo & Po).
    { rewrite <- one_hot_attribute_agrees in Eo. apply to_result_ok in Eo. exists h2, d2. auto. }
    assert (Hha : has_attribute d n) by (unfold has_attribute; rewrite Hk; discriminate).
    assert (Huniq : forall pv', encoded n pv' -> pv' = pv).
    { intros pv' (_ & _ & s' & Hr' & Es'). unfold range_of in *. destruct possible; congruence. }
    unfold one_hot_attribute. rewrite Hcand. cbn [bind].
    destruct (list_eqb_ok pv [zero; one]) as [E01|E01].
    + (* already 0-1 encoded *)
      assert (Hnot : forall pv', ~ encoded n pv').
      { intros pv' He. pose proof (Huniq pv' He). subst pv'. destruct He as (_ & He & _). contradiction. }
      exists h1, d1. split; [auto|]. split; [auto|]. split; [auto|]. split; [auto|]. split; [|split].
      * intros m pv' [<-|Hm] He; [exfalso; eapply Hnot; eauto|]. eapply H4; eauto.
      * intros m pv' v [<-|Hm] He Hv; [exfalso; eapply Hnot; eauto|]. eapply H5; eauto.
      * intros m Hm1 Hm2. apply H6.
        -- intros pv' Hin. apply Hm1. cbn; auto.
        -- intros n' pv' v Hin. apply Hm2. cbn; auto.
    + assert (He : encoded n pv) by (split; [auto|]; split; [auto|]; eauto).
      (* n itself and its columns are untouched so far *)
      assert (Hn_un : kind_of d1 n = kind_of d n /\ forall a, In a (insts d) -> value h1 a n = value h a n).
      { apply H6.
        - intros pv' Hin. contradiction.
        - intros n' pv' v Hin He' Hv Ec. apply (Hfresh n' pv' v He' Hv). rewrite <- Ec. auto. }
      destruct Hn_un as [Hkn Hvn].
      assert (Hcol_un : forall v, In v pv -> kind_of d1 (col n v) = kind_of d (col n v)).
      { intros v Hv. apply H6.
        - intros pv' Hin He'. apply (Hfresh n pv v He Hv). destruct He' as (Hk' & _). unfold has_attribute. fold (col n v). rewrite Hk'. discriminate.
        - intros n' pv' v' Hin He' Hv' Ec. destruct (Hdist n pv v n' pv' v' He Hv He' Hv' Ec) as [-> _]. contradiction. }
      assert (Hit1 : Permutation it (insts d1)) by (rewrite H2; auto).
      assert (Hha1 : has_attribute d1 n) by (unfold has_attribute; rewrite Hkn; auto).
      assert (Hf1 : forall v, In v pv -> ~ has_attribute d1 (col n v)).
      { intros v Hv. unfold has_attribute. rewrite Hcol_un by auto. apply (Hfresh n pv v He Hv). }
      assert (Hinj : forall v w, In v pv -> In w pv -> col n v = col n w -> v = w).
      { intros v w Hv Hw Ec. apply (Hdist n pv v n pv w He Hv He Hw Ec). }
      destruct (columns_loop zero one (col n) it n h1 d1 Hit1 Hha1 pv Hinj Hpv Hf1 H1)
        as (h2 & d2 & E2 & G1 & G2 & G3 & G4 & G5).
      change (foldM _ pv (h1, d1)) with (foldM (fun '(h, d) v =>
          do vs <- mapM (fun a => do w <- getitem h n a ; Ok (if eqb w v then one else zero)) it ;
          to_result (add_attribute Categorical h d it (col n v) vs)) pv (h1, d1)).
      rewrite E2. cbn [bind].
      destruct (G5 n) as [Gk Gv]; [intros v Hv Ec; apply (Hfresh n pv v He Hv); fold (col n v); rewrite <- Ec; auto|].
      destruct (remove_step h2 d2 it n G1) as (h3 & d3 & E3 & K1 & K2 & K3 & K4 & K5).
      { rewrite G2. auto. }
      { unfold has_attribute. rewrite Gk. auto. }
      exists h3, d3. rewrite E3. cbn [to_result]. split; [auto|].
      assert (Hnc : forall n' pv' v, encoded n' pv' -> In v pv' -> col n' v <> n).
      { intros n' pv' v He' Hv Ec. apply (Hfresh n' pv' v He' Hv). fold (col n' v). rewrite Ec. auto. }
      split; [auto|]. split; [congruence|]. split.
      { eapply only_features_trans; [|exact H3|eapply only_features_trans; [|exact G3|exact K5]]; congruence. }
      split; [|split].
      * intros m pv' Hm He'. rewrite K3. destruct (eqb_ok m n) as [->|Hne]; auto.
        destruct Hm as [Hm|Hm]; [congruence|]. rewrite (proj1 (G5 m ltac:(intros v Hv Ec; apply (Hfresh n pv v He Hv); fold (col n v); rewrite <- Ec; unfold has_attribute; destruct He' as (Hk' & _); rewrite Hk'; discriminate))).
        eapply H4; eauto.
      * intros m pv' v Hm He' Hv. rewrite K3. destruct (eqb_ok (col m v) n) as [Ec|_]; [exfalso; eapply Hnc; eauto|].
        destruct (eqb_ok m n) as [->|Hne].
        -- pose proof (Huniq pv' He'). subst pv'. destruct (G4 v Hv) as [A B]. split; [auto|].
           intros a w Ha Ew. rewrite K4 by (rewrite G2, H2; auto). destruct (eqb_ok (col n v) n) as [Ec|_]; [exfalso; eapply Hnc; eauto|].
           apply B; [rewrite H2; auto|]. rewrite Hvn; auto.
        -- destruct Hm as [Hm|Hm]; [congruence|]. destruct (H5 m pv' v Hm He' Hv) as [A B].
           destruct (G5 (col m v)) as [C D].
           { intros v' Hv' Ec. destruct (Hdist m pv' v n pv v' He' Hv He Hv' Ec) as [Em _]. congruence. }
           split; [rewrite C; auto|]. intros a w Ha Ew. rewrite K4 by (rewrite G2, H2; auto).
           destruct (eqb_ok (col m v) n) as [Ec|_]; [exfalso; eapply Hnc; eauto|].
           rewrite D by (rewrite H2; auto). auto.
      * intros m Hm1 Hm2. assert (Hmn : m <> n). { intros ->. apply (Hm1 pv); cbn; auto. }
        destruct (G5 m) as [C D]. { intros v Hv. apply (Hm2 n pv v); cbn; auto. }
        destruct (H6 m) as [A B].
        { intros pv' Hin. apply Hm1. cbn; auto. }
        { intros n' pv' v Hin. apply Hm2. cbn; auto. }
        split.
        -- rewrite K3. destruct (eqb_ok m n); [contradiction|]. congruence.
        -- intros a Ha. rewrite K4 by (rewrite G2, H2; auto). destruct (eqb_ok m n); [contradiction|].
           rewrite D by (rewrite H2; auto). auto.
  - intros done n h1 d1 Hk (H1 & H2 & H3 & H4 & H5 & H6).
    assert (Hnot : forall pv', ~ encoded n pv') by (intros pv' (He & _); contradiction).
    split; [auto|]. split; [auto|]. split; [auto|]. split; [|split].
    + intros m pv' [<-|Hm] He; [exfalso; eapply Hnot; eauto|]. eapply H4; eauto.
    + intros m pv' v [<-|Hm] He Hv; [exfalso; eapply Hnot; eauto|]. eapply H5; eauto.
    + intros m Hm1 Hm2. apply H6.
      * intros pv' Hin. apply Hm1. cbn; auto.
      * intros n' pv' v Hin. apply Hm2. cbn; auto.
  - split; [auto|]. split; [auto|]. split; [apply only_features_refl|]. split; [|split].
    + intros n pv [].
    + intros n pv v [].
    + auto.
  - exists h', d', e, (rev done), rest. split; [exact E|]. split; [auto|]. split; [auto|]. split; [auto|]. split; [auto|]. split; [|split; [|split]].
    + intros n pv Hin He. apply in_rev in Hin. unfold has_attribute. rewrite (H4 n pv Hin He). auto.
    + intros n pv v Hin He Hv. apply in_rev in Hin. destruct (H5 n pv v Hin He Hv) as [A B]. split; [auto|].
      intros a Ha. assert (Hha : has_attribute d n) by (unfold has_attribute; destruct He as (Hk & _); rewrite Hk; discriminate).
      destruct (value_some true h d a n Hh Ha Hha) as (w & us & Ew & _). fold (col n v). rewrite (B a w Ha Ew).
      split; intros Hw.
      * assert (w = v) by congruence. subst w. rewrite eqb_refl. auto.
      * destruct (eqb_ok w v) as [->|]; [congruence|auto].
    + intros m Hm1 Hm2. apply H6.
      * intros pv Hin. apply Hm1. apply in_rev in Hin. auto.
      * intros n pv v Hin. apply Hm2. apply in_rev in Hin. auto.
    + destruct e as [e|]; [|auto]. destruct Hfail as (n & us & rest' & A & B & _ & C). exists n, rest'. auto.
Qed.

(** Quantile based discretization of numbers either works, or there are fewer
    than two bins and there is a first numerical attribute with more different
    values than bins.  Then the numerical attributes before it, which have at
    most as many different values as there are bins, have become the texts of
    their values, and everything else is as it was. *)
Lemma C143_discretization : forall (I T : Type) (EI : Base.Eq I) (show : Qc -> string) (bins : Z) (h : heap I val T) (d : dataset val) it,
  history true h d -> Permutation it (insts d) ->
  (forall a n v, In a (insts d) -> kind_of d n = Some Numerical -> value h a n = Some v -> exists q, v = Num q) ->
  exists h' d' e done rest, discretizing show bins it h d = (h', d', e) /\
    keys (attrs d) = done ++ rest /\
    history true h' d' /\ insts d' = insts d /\ only_features d h h' /\
    (forall n, In n done -> kind_of d' n = Some Categorical) /\
    (forall n, ~ In n done -> kind_of d' n = kind_of d n) /\
    (forall a n, In a (insts d) -> In n rest \/ kind_of d n = Some Categorical -> value h' a n = value h a n) /\
    (forall n us, In n done -> kind_of d n = Some Numerical -> uniques d n = Some us ->
       ((Z.of_nat (length us) <= bins)%Z -> printed show h h' d n) /\
       ((bins < Z.of_nat (length us))%Z -> (2 <= bins)%Z /\ binned show (Z.to_nat bins) h h' d n)) /\
    match e with
    | None => rest = []
    | Some e => exists n us rest', rest = n :: rest' /\ kind_of d n = Some Numerical /\ uniques d n = Some us /\
        (bins < Z.of_nat (length us))%Z /\ ((e = IndexError /\ bins = 1%Z) \/ (e = ValueError /\ (bins < 1)%Z))
    end.
Proof.
  intros I T EI show bins h d it Hh Hit Hnum. pose proof (history_inv _ _ _ Hh) as Hi.
  set (R := fun (h1 h2 : heap I val T) (d' : dataset val) n => forall us, uniques d n = Some us ->
       ((Z.of_nat (length us) <= bins)%Z -> printed show h1 h2 d' n) /\
       ((bins < Z.of_nat (length us))%Z -> (2 <= bins)%Z /\ binned show (Z.to_nat bins) h1 h2 d' n)).
  assert (HR : local R).
  { intros h1 h1' h2 h2' d1 d1' n E E1 E2 P us Hu. destruct (P us Hu) as [A B].
    split; intros Hl; [exact (printed_local show _ _ _ _ _ _ _ E E1 E2 (A Hl))|].
    destruct (B Hl) as [B1 B2]. split; [auto|]. exact (binned_local show _ _ _ _ _ _ _ _ E E1 E2 B2). }
  destruct (per_loop Numerical (discretizing_attribute show bins it) d (progress R h d)
    (fun n us e => (bins < Z.of_nat (length us))%Z /\ ((e = IndexError /\ bins = 1%Z) \/ (e = ValueError /\ (bins < 1)%Z)))) with (h := h)
    as (h' & d' & e & done & rest & E & Ek & (H1 & H2 & H3 & H4 & H5 & H6) & He).
  - apply Hi.
  - intros done n us h1 d1 Hk Hu Hnd HP. destruct (progress_coming R h d done n us h1 d1 Hh Hk Hu Hnd HP) as (Hv & Hk1 & us1 & Eu1 & El).
    pose proof HP as (H1 & H2 & _).
    destruct (discretize_step show bins it h1 d1 n us us1 H1) as (S1 & S2 & S3 & S4).
    + rewrite H2. auto.
    + auto.
    + auto.
    + rewrite H2. intros a v Ha Ev. rewrite Hv in Ev by auto. eapply Hnum; eauto.
    + rewrite El in *. destruct (Z_le_gt_dec (Z.of_nat (length us)) bins) as [Hle|Hgt].
      * left. destruct S1 as (h2 & d2 & E2 & Rl & Pr); [lia|]. rewrite <- discretizing_attribute_agrees in E2. apply to_result_ok in E2.
        exists h2, d2. split; [auto|].
        eapply progress_step; eauto. intros us' Hu'. assert (us' = us) by congruence. subst us'. split; [auto|lia].
      * destruct (Z_le_gt_dec 2 bins) as [H2b|H2b].
        -- left. destruct S2 as (h2 & d2 & E2 & Rl & Pr); [lia|lia|]. rewrite <- discretizing_attribute_agrees in E2. apply to_result_ok in E2.
           exists h2, d2. split; [auto|].
           eapply progress_step; eauto. intros us' Hu'. assert (us' = us) by congruence. subst us'. split; [lia|auto].
        -- right. assert (Q : forall e, discretize_attribute show bins it h1 d1 n us = Err e -> discretizing_attribute show bins it h1 d1 n us = (h1, d1, Some e)).
           { intros e. unfold discretizing_attribute, discretize_attribute.
             destruct (mapM (getitem h1 n) it) as [vs|] eqn:E1; cbn [bind reading]; [|congruence].
             destruct (of_option KeyError (dict_get n (attrs d1))) as [y|]; cbn [bind reading]; [|congruence].
             match goal with |- context [reading ?r] => destruct r as [ls|] eqn:E2 end; cbn [bind reading]; [|congruence].
             intros Er. exfalso. rewrite <- to_result_replacing in Er.
             destruct (replacing_ok h1 d1 it Categorical n (map Txt ls) H1) as (h2 & d2 & E3 & _).
             - rewrite H2. auto.
             - unfold has_attribute. rewrite Hk1. discriminate.
             - rewrite map_length, <- (mapM_length _ _ _ E1). revert E2. destruct (_ <? _)%Z.
               + destruct (mapM number vs) as [qs|] eqn:Eq; cbn [bind]; [|discriminate]. destruct (quantiles qs bins); cbn [bind]; [|discriminate].
                 destruct (Qc_min qs); cbn [bind]; [|discriminate]. destruct (Qc_max qs); cbn [bind]; [|discriminate].
                 intros El'. rewrite (mapM_length _ _ _ El'). exact (mapM_length _ _ _ Eq).
               + intros El'. injection El' as <-. apply map_length.
             - rewrite E3 in Er. discriminate. }
           destruct (Z.eq_dec bins 1) as [->|].
           ++ exists IndexError. split; [apply Q, S3; lia|]. split; [lia|auto].
           ++ exists ValueError. split; [apply Q, S4; lia|]. split; [lia|]. right. split; [auto|lia].
  - intros done n h1 d1 Hk HP. apply progress_skip; auto.
  - apply progress_start. auto.
  - exists h', d', e, (rev done), rest. split; [exact E|]. split; [auto|]. split; [auto|]. split; [auto|]. split; [auto|].
    assert (Hmem : forall n, mem n done = true <-> In n (rev done)) by (intros n; rewrite mem_In, <- in_rev; tauto).
    split; [|split; [|split; [|split]]].
    + intros n Hin. rewrite H4, (proj2 (Hmem n) Hin). assert (Ha : In n (keys (attrs d))) by (rewrite Ek; apply in_app_iff; auto).
      apply has_attribute_In in Ha. unfold has_attribute in Ha. destruct (kind_of d n); [reflexivity|congruence].
    + intros n Hin. rewrite H4. destruct (mem n done) eqn:Em; auto. apply Hmem in Em. contradiction.
    + intros a n Ha [Hr|Hk]; apply H5; auto; [left; eapply not_done; eauto; apply Hi|right; rewrite Hk; discriminate].
    + intros n us Hin Hk Hu. apply in_rev in Hin. exact (H6 n Hin Hk us Hu).
    + destruct e as [e|]; [|auto]. destruct He as (n & us & rest' & A & B & C & D & F). exists n, us, rest'. auto 10.
Qed.

(** Discretization of numbers with trained bins either works, or there is a
    first numerical attribute that was not trained (KeyError) or has no bin
    although there are instances (IndexError).  Then the numerical attributes
    before it are discretized and everything else is as it was. *)
Lemma C143_trained_bins : forall (I T : Type) (EI : Base.Eq I) (bins : dict string (list (Qc * Qc * string))) (h : heap I val T) (d : dataset val) it,
  history true h d -> Permutation it (insts d) ->
  (forall a n v, In a (insts d) -> kind_of d n = Some Numerical -> value h a n = Some v -> exists q, v = Num q) ->
  exists h' d' e done rest, binning bins it h d = (h', d', e) /\
    keys (attrs d) = done ++ rest /\
    history true h' d' /\ insts d' = insts d /\ only_features d h h' /\
    (forall n, In n done -> kind_of d' n = Some Categorical) /\
    (forall n, ~ In n done -> kind_of d' n = kind_of d n) /\
    (forall a n, In a (insts d) -> In n rest \/ kind_of d n = Some Categorical -> value h' a n = value h a n) /\
    (forall n, In n done -> kind_of d n = Some Numerical -> exists b, dict_get n bins = Some b /\ in_bins b h h' d n) /\
    match e with
    | None => rest = []
    | Some e => exists n rest', rest = n :: rest' /\ kind_of d n = Some Numerical /\
        ((e = KeyError /\ dict_get n bins = None) \/ (e = IndexError /\ dict_get n bins = Some [] /\ insts d <> []))
    end.
Proof.
  intros I T EI bins h d it Hh Hit Hnum. pose proof (history_inv _ _ _ Hh) as Hi.
  set (R := fun (h1 h2 : heap I val T) (d' : dataset val) n => exists b, dict_get n bins = Some b /\ in_bins b h1 h2 d' n).
  assert (HR : local R).
  { intros h1 h1' h2 h2' d1 d1' n E E1 E2 (b & P & Q). exists b. split; [auto|].
    exact (in_bins_local (fun _ => b) _ _ _ _ _ _ _ E E1 E2 Q). }
  destruct (per_loop Numerical (binning_attribute bins it) d (progress R h d)
    (fun n us e => (e = KeyError /\ dict_get n bins = None) \/ (e = IndexError /\ dict_get n bins = Some [] /\ insts d <> []))) with (h := h)
    as (h' & d' & e & done & rest & E & Ek & (H1 & H2 & H3 & H4 & H5 & H6) & He).
  - apply Hi.
  - intros done n us h1 d1 Hk Hu Hnd HP. destruct (progress_coming R h d done n us h1 d1 Hh Hk Hu Hnd HP) as (Hv & Hk1 & us1 & Eu1 & El).
    pose proof HP as (H1 & H2 & _).
    destruct (dict_get n bins) as [b|] eqn:Eb.
    2: { right. exists KeyError. split; [|left; auto]. unfold binning_attribute. rewrite Eb. reflexivity. }
    destruct b as [|b0 bs].
    + assert (Hne : insts d = [] \/ insts d <> []) by (destruct (insts d); [auto|right; discriminate]).
      destruct Hne as [Ei|Hne].
      * left. assert (it = []) by (rewrite Ei in Hit; apply Permutation_sym, Permutation_nil in Hit; auto). subst it.
        destruct (relabel_step h1 d1 [] n [] H1) as (h2 & d2 & E2 & Rl & _); [rewrite H2, Ei; auto|auto|auto|].
        rewrite <- to_result_replacing in E2. apply to_result_ok in E2. exists h2, d2.
        split; [unfold binning_attribute; rewrite Eb; exact E2|]. eapply progress_step; eauto. exists []. split; [auto|].
        intros a q Ha. rewrite H2, Ei in Ha. destruct Ha.
      * right. exists IndexError. split; [|right; auto]. unfold binning_attribute. rewrite Eb. cbn [of_option reading].
        assert (Hone : forall a, In a it -> (do v <- getitem h1 n a ; do q <- number v ; bin_label [] q) = Err IndexError).
        { intros a Ha. apply (Permutation_in _ Hit) in Ha. destruct (value_some true h d a n Hh Ha) as (v & us' & Ev & _).
          { unfold has_attribute. rewrite Hk. discriminate. }
          destruct (Hnum a n v Ha Hk Ev) as [q ->]. rewrite (getitem_value h1 a n (Num q)) by (rewrite Hv; auto). reflexivity. }
        destruct it as [|a it]; [apply Permutation_nil in Hit; congruence|]. cbn [mapM]. rewrite Hone by (cbn; auto). reflexivity.
    + left. destruct (bin_step bins (b0 :: bs) it h1 d1 n us H1) as (h2 & d2 & E2 & Rl & Pr).
      * rewrite H2. auto.
      * auto.
      * auto.
      * discriminate.
      * rewrite H2. intros a v Ha Ev. rewrite Hv in Ev by auto. eapply Hnum; eauto.
      * rewrite <- binning_attribute_agrees in E2. apply to_result_ok in E2. exists h2, d2. split; [auto|].
        eapply progress_step; eauto. exists (b0 :: bs). auto.
  - intros done n h1 d1 Hk HP. apply progress_skip; auto.
  - apply progress_start. auto.
  - exists h', d', e, (rev done), rest. split; [exact E|]. split; [auto|]. split; [auto|]. split; [auto|]. split; [auto|].
    assert (Hmem : forall n, mem n done = true <-> In n (rev done)) by (intros n; rewrite mem_In, <- in_rev; tauto).
    split; [|split; [|split; [|split]]].
    + intros n Hin. rewrite H4, (proj2 (Hmem n) Hin). assert (Ha : In n (keys (attrs d))) by (rewrite Ek; apply in_app_iff; auto).
      apply has_attribute_In in Ha. unfold has_attribute in Ha. destruct (kind_of d n); [reflexivity|congruence].
    + intros n Hin. rewrite H4. destruct (mem n done) eqn:Em; auto. apply Hmem in Em. contradiction.
    + intros a n Ha [Hr|Hk]; apply H5; auto; [left; eapply not_done; eauto; apply Hi|right; rewrite Hk; discriminate].
    + intros n Hin Hk. apply in_rev in Hin. exact (H6 n Hin Hk).
    + destruct e as [e|]; [|auto]. destruct He as (n & us & rest' & A & B & C & D). exists n, rest'. auto 10.
Qed.

(** Noise: the instances are changed one after the other, with one generator.
    If an instance cannot be changed, the ones before it have their noisy
    sequences and it and all other objects are as they were. *)
Lemma C143_noise : forall (A I V : Type) (EI : Base.Eq I) (EV : Base.Eq V)
    (f : nat -> list A -> result (nat * list A)) i (h : heap I V (list A)) (d : dataset V) it i' h' e,
  history true h d -> Permutation it (insts d) -> noising f i h it = (i', h', e) ->
  exists done rest ss ts, it = done ++ rest /\
    history true h' d /\ length h' = length h /\
    (forall a, ~ In a done -> nth_error h' a = nth_error h a) /\
    (forall a x, In a done -> nth_error h a = Some x -> exists x', nth_error h' a = Some x' /\ iid x' = iid x /\ feats x' = feats x) /\
    map (fun a => option_map (fun x => target x) (nth_error h a)) done = map Some ss /\
    map (fun a => option_map (fun x => target x) (nth_error h' a)) done = map Some ts /\
    in_turn f i ss i' ts /\
    match e with
    | None => rest = []
    | Some e => exists a x rest', rest = a :: rest' /\ nth_error h a = Some x /\ f i' (target x) = Err e
    end.
Proof.
  intros A I V EI EV f i h d it i' h' e Hh Hit E. pose proof (history_inv _ _ _ Hh) as Hi.
  assert (G : forall it i (h : heap I V (list A)), NoDup it -> (forall a, In a it -> exists x, nth_error h a = Some x) -> noising f i h it = (i', h', e) ->
     exists done rest ss ts, it = done ++ rest /\ length h' = length h /\
     (forall a, ~ In a done -> nth_error h' a = nth_error h a) /\
     (forall a x, In a done -> nth_error h a = Some x -> exists x', nth_error h' a = Some x' /\ iid x' = iid x /\ feats x' = feats x) /\
     map (fun a => option_map (fun x => target x) (nth_error h a)) done = map Some ss /\
     map (fun a => option_map (fun x => target x) (nth_error h' a)) done = map Some ts /\
     in_turn f i ss i' ts /\
     match e with
     | None => rest = []
     | Some e => exists a x rest', rest = a :: rest' /\ nth_error h a = Some x /\ f i' (target x) = Err e
     end).
  { clear. induction it as [|a it IH]; intros i h Hnd Hex E; cbn [noising] in E.
    - injection E as <- <- <-. exists [], [], [], []. split; [auto|]. split; [auto|]. split; [auto|]. split; [intros a x []|].
      split; [auto|]. split; [auto|]. split; [constructor|auto].
    - inversion Hnd as [|? ? Hni Hnd']; subst. destruct (Hex a) as [x Ex]; [cbn; auto|]. rewrite Ex in E. cbn [of_option] in E.
      destruct (f i (target x)) as [[j s]|er] eqn:Ef.
      + destruct (IH j (update h a (set_target s)) Hnd') as (done & rest & ss & ts & Q1 & Q2 & Q3 & Q4 & Q5 & Q6 & Q7 & Q8); auto.
        { intros b Hb. rewrite update_nth. destruct (Hex b) as [y Ey]; [cbn; auto|]. rewrite Ey. destruct (b =? a); cbn; eauto. }
        assert (Hnid : ~ In a done) by (intros Hin; apply Hni; rewrite Q1; apply in_app_iff; auto).
        assert (Hup : forall b, In b it -> nth_error (update h a (set_target s)) b = nth_error h b).
        { intros b Hb. rewrite update_nth. destruct (Nat.eqb_spec b a); auto. subst. contradiction. }
        assert (Ea : nth_error h' a = Some (set_target s x)) by (rewrite Q3, update_nth, Nat.eqb_refl, Ex by auto; auto).
        exists (a :: done), rest, (target x :: ss), (s :: ts). split; [rewrite Q1; auto|]. split; [rewrite Q2; apply update_length|].
        split; [|split; [|split; [|split; [|split]]]].
        * intros b Hb. rewrite Q3 by (intros Hin; apply Hb; cbn; auto). rewrite update_nth. destruct (Nat.eqb_spec b a); auto.
          exfalso. apply Hb. cbn; auto.
        * intros b y [<-|Hb] Ey.
          -- exists (set_target s x). rewrite Ex in Ey. injection Ey as <-. auto.
          -- apply Q4; auto. rewrite Hup; auto. rewrite Q1. apply in_app_iff; auto.
        * cbn [map]. rewrite Ex. cbn [option_map]. f_equal. rewrite <- Q5. apply map_ext_in. intros b Hb. rewrite Hup; auto.
          rewrite Q1. apply in_app_iff; auto.
        * cbn [map]. rewrite Ea. cbn [option_map]. f_equal. auto.
        * econstructor; eauto.
        * destruct e as [e|]; [|auto]. destruct Q8 as (b & y & rest' & -> & Ey & Ee). exists b, y, rest'. split; [auto|]. split; [|auto].
          rewrite <- Ey. symmetry. apply Hup. rewrite Q1. apply in_app_iff; cbn; auto.
      + injection E as <- <- <-. exists [], (a :: it), [], []. split; [auto|]. split; [auto|]. split; [auto|]. split; [intros b y []|].
        split; [auto|]. split; [auto|]. split; [constructor|]. exists a, x, it. auto. }
  destruct (G it i h) as (done & rest & ss & ts & Q1 & Q2 & Q3 & Q4 & Q); auto.
  { apply Permutation_NoDup with (insts d); [apply Permutation_sym; auto|apply Hi]. }
  { intros a Ha. apply (v_valid _ _ _ Hi). apply (Permutation_in _ Hit). auto. }
  exists done, rest, ss, ts. split; [auto|]. split; [|auto].
  assert (M : forall a x, nth_error h a = Some x -> exists x', nth_error h' a = Some x' /\ iid x' = iid x /\ feats x' = feats x).
  { intros a x Ex. destruct (in_dec Nat.eq_dec a done) as [Ha|Ha]; [eauto|]. exists x. rewrite Q3; auto. }
  eapply hist_other; [exact Hh| |].
  - intros a x Ex. destruct (nth_error_lt h a) as [y Ey]; [rewrite <- Q2; eapply nth_error_Some_lt; eauto|].
    pose proof (v_proper _ _ _ Hi a y Ey) as Hp. destruct (M a y Ey) as (x' & Ex' & _ & Ef). congruence.
  - intros a x [Ha Ex]. eauto.
Qed.

(** Transforming a copy (inplace=False, the default) never changes the given
    dataset or any object that existed before, whether it works or raises, for
    every transformer, dataset and iteration order; a result consists of new
    instances only. *)
Lemma C143_copy : forall (I V T A : Type) (EI : Base.Eq I) (EV : Base.Eq V) (ord : list nat -> list nat),
  (forall l, Permutation (ord l) l) ->
  (forall possible sorted ofnat isbool, spares_original (I := I) (V := V) (T := T) (fun h c => labelling possible sorted ofnat isbool (ord (insts c)) h c)) /\
  (forall possible sorted zero one join show, spares_original (I := I) (V := V) (T := T) (fun h c => one_hot_encoding possible sorted zero one join show (ord (insts c)) h c)) /\
  (forall names, spares_original (I := I) (V := V) (T := T) (fun h c => selecting names (ord (insts c)) h c)) /\
  spares_original (I := I) (V := V) (T := T) (fun h c => removing_one_valued (ord (insts c)) h c) /\
  (forall lo hi, spares_original (I := I) (T := T) (fun h c => scaling lo hi (ord (insts c)) h c)) /\
  (forall show bins, spares_original (I := I) (T := T) (fun h c => discretizing show bins (ord (insts c)) h c)) /\
  (forall bins, spares_original (I := I) (T := T) (fun h c => binning bins (ord (insts c)) h c)) /\
  (forall (f : nat -> list A -> result (nat * list A)) i, spares_original (I := I) (V := V) (fun h c => noising_dataset f i (ord (insts c)) h c)).
Proof.
  intros I V T A EI EV ord Ho.
  assert (Hinc : forall l : list nat, incl (ord l) l) by (intros l a Ha; apply (Permutation_in _ (Ho l)); auto).
  split; [intros; apply spares; intros h c; apply harmless_labelling; auto|].
  split; [intros; apply spares; intros h c; apply harmless_one_hot; auto|].
  split; [intros; apply spares; intros h c; apply harmless_removing; auto|].
  split; [intros; apply spares; intros h c; apply harmless_removing; auto|].
  split; [intros; apply spares; intros h c; apply harmless_scaling; auto|].
  split; [intros; apply spares; intros h c; apply harmless_discretizing; auto|].
  split; [intros; apply spares; intros h c; apply harmless_binning; auto|].
  intros; apply spares; intros h c; apply harmless_noising; auto.
Qed.

(** Where nothing is raised these are the transformations of C61, C62, C82,
    C87 and C88, and they raise exactly the same exceptions. *)
Lemma C143_agrees : forall (I V T A : Type) (EI : Base.Eq I) (EV : Base.Eq V) it,
  (forall possible sorted ofnat isbool (h : heap I V T) d, to_result (labelling possible sorted ofnat isbool it h d) = label_encode possible sorted ofnat isbool it h d) /\
  (forall possible sorted zero one join show (h : heap I V T) d,
     to_result (one_hot_encoding possible sorted zero one join show it h d) = one_hot_encode possible sorted zero one join show it h d) /\
  (forall names (h : heap I V T) d, to_result (selecting names it h d) = select_attributes names it h d) /\
  (forall (h : heap I V T) d, to_result (removing_one_valued it h d) = remove_one_valued it h d) /\
  (forall lo hi (h : heap I Qc T) d, to_result (scaling lo hi it h d) = scale lo hi it h d) /\
  (forall show bins (h : heap I val T) d, to_result (discretizing show bins it h d) = discretize show bins it h d) /\
  (forall bins (h : heap I val T) d, to_result (binning bins it h d) = discretize_trained bins it h d) /\
  (forall (f : nat -> list A -> result (nat * list A)) i (h : heap I V (list A)), to_result (noising f i h it) = noise_dataset f i h it).
Proof.
  intros I V T A EI EV it.
  split; [intros; apply to_result_per, labelling_attribute_agrees|].
  split; [intros; apply to_result_per, one_hot_attribute_agrees|].
  split; [intros; apply removing_agrees|].
  split; [intros; apply removing_agrees|].
  split; [intros; apply to_result_per, scaling_attribute_agrees|].
  split; [intros; apply to_result_per, discretizing_attribute_agrees|].
  split; [intros; apply to_result_per, binning_attribute_agrees|].
  intros. apply noising_agrees.
Qed.

(** The instances are taken in turn, with one generator: each sequence gets the
    random numbers that come after those of the instances before it. *)
Lemma C62_noise_in_turn : forall (A I V : Type) (EI : Base.Eq I) (EV : Base.Eq V)
    (f : nat -> list A -> result (nat * list A)) i (h : heap I V (list A)) (d : dataset V) it i' h',
  history true h d -> Permutation it (insts d) -> noise_dataset f i h it = Ok (i', h') ->
  exists ss ts,
    map (fun a => option_map (fun x => target x) (nth_error h a)) it = map Some ss /\
    map (fun a => option_map (fun x => target x) (nth_error h' a)) it = map Some ts /\
    in_turn f i ss i' ts.
Proof.
  intros A I V EI EV f i h d it i' h' Hh Hit E.
  pose proof (C143_agrees I V (list A) A EI EV it) as Ag. repeat match type of Ag with _ /\ _ => destruct Ag as [_ Ag] end.
  specialize (Ag f i h). rewrite E in Ag. destruct (noising f i h it) as [[j g] e] eqn:En.
  destruct (C143_noise A I V EI EV f i h d it j g e Hh Hit En) as (dn & rest & ss & ts & Ei & _ & _ & _ & _ & Hs & Ht & Hin & He).
  destruct e as [e|]; cbn in Ag; [discriminate|]. injection Ag as -> ->. subst rest. rewrite app_nil_r in Ei. subst dn. eauto.
Qed.
