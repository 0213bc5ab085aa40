(** Dataset transformers: one-hot encoding, min-max scaling, attribute
    selection (C61, C82) *)
From Coq Require Import Permutation QArith Qcanon String.
From Verif.Model Require Import Base LogNoise Dataset Transformers.
From Verif.Spec Require Import DatasetSpec.
From Verif.Lib Require Import ListLib DictLib.
From Verif.Proofs Require Import PetriA ParallelB DatasetA DatasetB DatasetC TransformersA.
Open Scope string_scope.
Open Scope list_scope.
Open Scope nat_scope.

(*P C61 Encoders are faithful *)
Section O.
  Context {I V T : Type} `{Base.Eq I} `{Base.Eq V}.
  Notation heap := (heap I V T).
  Notation dataset := (dataset V).

  (** the inner loop of one_hot_attribute over the values [pv] *)
  Lemma columns_loop (zero one : V) (col : V -> string) (it : list nat) n (h : heap) (d : dataset) :
    Permutation it (insts d) -> has_attribute d n ->
    forall pv, (forall v w, In v pv -> In w pv -> col v = col w -> v = w) -> NoDup pv -> (forall v, In v pv -> ~ has_attribute d (col v)) ->
    history true h d ->
    exists h' d', foldM (fun '(h, d) v =>
          do vs <- mapM (fun a => do w <- getitem h n a ; Ok (if eqb w v then one else zero)) it ;
          to_result (add_attribute Categorical h d it (col v) vs)) pv (h, d) = Ok (h', d') /\
      history true h' d' /\ insts d' = insts d /\ only_features d h h' /\
      (forall v, In v pv -> kind_of d' (col v) = Some Categorical /\
         forall a w, In a (insts d) -> value h a n = Some w -> value h' a (col v) = Some (if eqb w v then one else zero)) /\
      (forall m, (forall v, In v pv -> m <> col v) -> kind_of d' m = kind_of d m /\
         forall a, In a (insts d) -> value h' a m = value h a m).
  Proof.
    intros Hit Hn pv. revert h d Hit Hn. induction pv as [|v pv IH]; intros h d Hit Hn Hinj Hnd Hfr Hh; cbn [foldM].
    - exists h, d. split; [auto|]. split; [auto|]. split; [auto|]. split; [apply only_features_refl|]. split.
      + intros v [].
      + auto.
    - inversion Hnd as [|? ? Hni Hnd']; subst.
      destruct (mapM_some (fun a => do w <- getitem h n a ; Ok (if eqb w v then one else zero)) it) as (vs & Evs & Fvs).
      { intros a Ha. apply (Permutation_in _ Hit) in Ha. destruct (value_some true h d a n Hh Ha Hn) as (w & us & Ew & _).
        rewrite (getitem_value h a n w Ew). cbn [bind]. eauto. }
      rewrite Evs. cbn [bind].
      destruct (add_step h d it Categorical (col v) vs Hh Hit) as (h1 & d1 & E1 & H1 & I1 & K1 & V1 & O1).
      { apply Hfr. cbn; auto. }
      { clear - Fvs. induction Fvs; cbn; auto. }
      rewrite E1. cbn [to_result bind].
      assert (Hcn : n <> col v) by (intros E; apply (Hfr v); [cbn; auto|rewrite <- E; auto]).
      assert (Hpos : forall a, In a (insts d) -> exists i w u, nth_error it i = Some a /\ value h a n = Some w /\
         nth_error vs i = Some u /\ u = if eqb w v then one else zero).
      { intros a Ha. pose proof (Permutation_in _ (Permutation_sym Hit) Ha) as Ha'. apply In_nth_error in Ha'.
        destruct Ha' as [i Ei]. destruct (Forall2_nth_error_l _ _ _ Fvs i a Ei) as (u & Eu & Ef).
        destruct (value_some true h d a n Hh Ha Hn) as (w & us & Ew & _). rewrite (getitem_value h a n w Ew) in Ef.
        cbn [bind] in Ef. injection Ef as <-. exists i, w. eauto. }
      destruct (IH h1 d1) as (h' & d' & E' & H' & I' & O' & C' & R'); auto.
      + rewrite I1. auto.
      + unfold has_attribute. rewrite K1. destruct (eqb_ok n (col v)); [discriminate|auto].
      + intros u w Hu Hw. apply Hinj; cbn; auto.
      + intros w Hw. unfold has_attribute. rewrite K1. destruct (eqb_ok (col w) (col v)) as [E|].
        * apply Hinj in E; [|cbn; auto|cbn; auto]. subst w. contradiction.
        * apply Hfr. cbn; auto.
      + exists h', d'. split; [auto|]. split; [auto|]. split; [congruence|]. split; [eapply only_features_trans; eauto|]. split.
        * intros w [<-|Hw].
          -- destruct (R' (col v)) as [Rk Rv].
             { intros u Hu E. apply Hinj in E; [|cbn; auto|cbn; auto]. subst u. contradiction. }
             split; [rewrite Rk, K1, eqb_refl; auto|]. intros a w Ha Ew.
             rewrite Rv by (rewrite I1; auto). destruct (Hpos a Ha) as (i & w' & u & Ei & Ew' & Eu & ->).
             assert (w' = w) by congruence. subst w'. rewrite (V1 i a _ Ei Eu), eqb_refl. auto.
          -- destruct (C' w Hw) as [Ck Cv]. split; [auto|]. intros a u Ha Eu. apply Cv; [rewrite I1; auto|].
             destruct (Hpos a Ha) as (i & w' & u' & Ei & Ew' & Eu' & ->). rewrite (V1 i a _ Ei Eu').
             destruct (eqb_ok n (col v)) as [E|]; [contradiction|auto].
        * intros m Hm. destruct (R' m) as [Rk Rv]; [intros u Hu; apply Hm; cbn; auto|].
          assert (Hmv : m <> col v) by (apply Hm; cbn; auto). split.
          -- rewrite Rk, K1. destruct (eqb_ok m (col v)); [contradiction|auto].
          -- intros a Ha. rewrite Rv by (rewrite I1; auto). destruct (Hpos a Ha) as (i & w' & u' & Ei & Ew' & Eu' & ->).
             rewrite (V1 i a _ Ei Eu'). destruct (eqb_ok m (col v)); [contradiction|auto].
  Qed.
End O.

(** One-hot encoding.  An attribute is encoded when it is categorical and its
    sorted values are not 0 and 1.  If the values can be sorted and the names
    of the new columns are new and distinct, then every encoded attribute is
    replaced by one categorical column per value, which is one for the
    instances that had the value and zero for the others; everything else is
    unchanged. *)
Lemma C61_one_hot : forall (I V T : Type) (EI : Base.Eq I) (EV : Base.Eq V) possible
    (sorted : list V -> result (list V)) (zero one : V) join (show : V -> string) (h : heap I V T) (d : dataset V) it,
  let encoded := fun n pv => kind_of d n = Some Categorical /\ pv <> [zero; one] /\
                   exists s, range_of possible d n s /\ sorted s = Ok pv in
  let column := fun n v => (n ++ join ++ show v)%string in
  history true h d -> Permutation it (insts d) ->
  (forall n us, kind_of d n = Some Categorical -> uniques d n = Some us ->
     exists s pv, range_of possible d n s /\ sorted s = Ok pv /\ Permutation pv s /\ NoDup s) ->
  (forall n pv v, encoded n pv -> In v pv -> ~ has_attribute d (column n v)) ->
  (forall n pv v n' pv' v', encoded n pv -> In v pv -> encoded n' pv' -> In v' pv' ->
     column n v = column n' v' -> n = n' /\ v = v') ->
  exists h' d', one_hot_encode possible sorted zero one join show it h d = Ok (h', d') /\
    history true h' d' /\ insts d' = insts d /\ only_features d h h' /\
    (forall n pv, encoded n pv -> ~ has_attribute d' n) /\
    (forall n pv v, encoded n pv -> In v pv -> kind_of d' (column n v) = Some Categorical /\
       forall a, In a (insts d) -> (value h a n = Some v -> value h' a (column n v) = Some one) /\
                                   (value h a n <> Some v -> value h' a (column n v) = Some zero)) /\
    (forall m, (forall pv, ~ encoded m pv) -> (forall n pv v, encoded n pv -> In v pv -> m <> column n v) ->
       kind_of d' m = kind_of d m /\ forall a, In a (insts d) -> value h' a m = value h a m).
Proof.
  intros I V T EI EV possible sorted zero one join show h d it encoded col Hh Hit Hsort Hfresh Hdist.
  pose proof (history_inv _ _ _ Hh) as Hi.
  set (P := fun (done : list string) (h1 : heap I V T) (d1 : dataset V) =>
    history true h1 d1 /\ insts d1 = insts d /\ only_features d h h1 /\
    (forall n pv, In n done -> encoded n pv -> kind_of d1 n = None) /\
    (forall n pv v, In n done -> encoded n pv -> In v pv -> kind_of d1 (col n v) = Some Categorical /\
       forall a w, In a (insts d) -> value h a n = Some w -> value h1 a (col n v) = Some (if eqb w v then one else zero)) /\
    (forall m, (forall pv, In m done -> ~ encoded m pv) ->
       (forall n pv v, In n done -> encoded n pv -> In v pv -> m <> col n v) ->
       kind_of d1 m = kind_of d m /\ forall a, In a (insts d) -> value h1 a m = value h a m)).
  destruct (each_loop Categorical (one_hot_attribute possible sorted zero one join show it) d P) with (h := h)
    as (h' & d' & done & E & (H1 & H2 & H3 & H4 & H5 & H6) & Hdone).
  - apply Hi.
  - intros done n us h1 d1 Hk Hu Hnd (H1 & H2 & H3 & H4 & H5 & H6).
    destruct (Hsort n us Hk Hu) as (s & pv & Hr & Es & Hp & Hs).
    assert (Hcand : candidates possible sorted n us = Ok pv).
    { unfold candidates, range_of in *. destruct possible as [m|].
      - rewrite Hr. cbn. auto.
      - rewrite Hu in Hr. injection Hr as ->. auto. }
    assert (Hpv : NoDup pv) by (apply Permutation_NoDup with s; [apply Permutation_sym|]; auto).
    assert (Hha : has_attribute d n) by (unfold has_attribute; rewrite Hk; discriminate).
    assert (Huniq : forall pv', encoded n pv' -> pv' = pv).
    { intros pv' (_ & _ & s' & Hr' & Es'). unfold range_of in *. destruct possible; congruence. }
    unfold one_hot_attribute. rewrite Hcand. cbn [bind].
    destruct (list_eqb_ok pv [zero; one]) as [E01|E01].
    + (* already 0-1 encoded *)
      assert (Hnot : forall pv', ~ encoded n pv').
      { intros pv' He. pose proof (Huniq pv' He). subst pv'. destruct He as (_ & He & _). contradiction. }
      exists h1, d1. split; [auto|]. split; [auto|]. split; [auto|]. split; [auto|]. split; [|split].
      * intros m pv' [<-|Hm] He; [exfalso; eapply Hnot; eauto|]. eapply H4; eauto.
      * intros m pv' v [<-|Hm] He Hv; [exfalso; eapply Hnot; eauto|]. eapply H5; eauto.
      * intros m Hm1 Hm2. apply H6.
        -- intros pv' Hin. apply Hm1. cbn; auto.
        -- intros n' pv' v Hin. apply Hm2. cbn; auto.
    + assert (He : encoded n pv) by (split; [auto|]; split; [auto|]; eauto).
      (* n itself and its columns are untouched so far *)
      assert (Hn_un : kind_of d1 n = kind_of d n /\ forall a, In a (insts d) -> value h1 a n = value h a n).
      { apply H6.
        - intros pv' Hin. contradiction.
        - intros n' pv' v Hin He' Hv Ec. apply (Hfresh n' pv' v He' Hv). rewrite <- Ec. auto. }
      destruct Hn_un as [Hkn Hvn].
      assert (Hcol_un : forall v, In v pv -> kind_of d1 (col n v) = kind_of d (col n v)).
      { intros v Hv. apply H6.
        - intros pv' Hin He'. apply (Hfresh n pv v He Hv). destruct He' as (Hk' & _). unfold has_attribute. fold (col n v). rewrite Hk'. discriminate.
        - intros n' pv' v' Hin He' Hv' Ec. destruct (Hdist n pv v n' pv' v' He Hv He' Hv' Ec) as [-> _]. contradiction. }
      assert (Hit1 : Permutation it (insts d1)) by (rewrite H2; auto).
      assert (Hha1 : has_attribute d1 n) by (unfold has_attribute; rewrite Hkn; auto).
      assert (Hf1 : forall v, In v pv -> ~ has_attribute d1 (col n v)).
      { intros v Hv. unfold has_attribute. rewrite Hcol_un by auto. apply (Hfresh n pv v He Hv). }
      assert (Hinj : forall v w, In v pv -> In w pv -> col n v = col n w -> v = w).
      { intros v w Hv Hw Ec. apply (Hdist n pv v n pv w He Hv He Hw Ec). }
      destruct (columns_loop zero one (col n) it n h1 d1 Hit1 Hha1 pv Hinj Hpv Hf1 H1)
        as (h2 & d2 & E2 & G1 & G2 & G3 & G4 & G5).
      change (foldM _ pv (h1, d1)) with (foldM (fun '(h, d) v =>
          do vs <- mapM (fun a => do w <- getitem h n a ; Ok (if eqb w v then one else zero)) it ;
          to_result (add_attribute Categorical h d it (col n v) vs)) pv (h1, d1)).
      rewrite E2. cbn [bind].
      destruct (G5 n) as [Gk Gv]; [intros v Hv Ec; apply (Hfresh n pv v He Hv); fold (col n v); rewrite <- Ec; auto|].
      destruct (remove_step h2 d2 it n G1) as (h3 & d3 & E3 & K1 & K2 & K3 & K4 & K5).
      { rewrite G2. auto. }
      { unfold has_attribute. rewrite Gk. auto. }
      exists h3, d3. rewrite E3. cbn [to_result]. split; [auto|].
      assert (Hnc : forall n' pv' v, encoded n' pv' -> In v pv' -> col n' v <> n).
      { intros n' pv' v He' Hv Ec. apply (Hfresh n' pv' v He' Hv). fold (col n' v). rewrite Ec. auto. }
      split; [auto|]. split; [congruence|]. split.
      { eapply only_features_trans; [|exact H3|eapply only_features_trans; [|exact G3|exact K5]]; congruence. }
      split; [|split].
      * intros m pv' Hm He'. rewrite K3. destruct (eqb_ok m n) as [->|Hne]; auto.
        destruct Hm as [Hm|Hm]; [congruence|]. rewrite (proj1 (G5 m ltac:(intros v Hv Ec; apply (Hfresh n pv v He Hv); fold (col n v); rewrite <- Ec; unfold has_attribute; destruct He' as (Hk' & _); rewrite Hk'; discriminate))).
        eapply H4; eauto.
      * intros m pv' v Hm He' Hv. rewrite K3. destruct (eqb_ok (col m v) n) as [Ec|_]; [exfalso; eapply Hnc; eauto|].
        destruct (eqb_ok m n) as [->|Hne].
        -- pose proof (Huniq pv' He'). subst pv'. destruct (G4 v Hv) as [A B]. split; [auto|].
           intros a w Ha Ew. rewrite K4 by (rewrite G2, H2; auto). destruct (eqb_ok (col n v) n) as [Ec|_]; [exfalso; eapply Hnc; eauto|].
           apply B; [rewrite H2; auto|]. rewrite Hvn; auto.
        -- destruct Hm as [Hm|Hm]; [congruence|]. destruct (H5 m pv' v Hm He' Hv) as [A B].
           destruct (G5 (col m v)) as [C D].
           { intros v' Hv' Ec. destruct (Hdist m pv' v n pv v' He' Hv He Hv' Ec) as [Em _]. congruence. }
           split; [rewrite C; auto|]. intros a w Ha Ew. rewrite K4 by (rewrite G2, H2; auto).
           destruct (eqb_ok (col m v) n) as [Ec|_]; [exfalso; eapply Hnc; eauto|].
           rewrite D by (rewrite H2; auto). auto.
      * intros m Hm1 Hm2. assert (Hmn : m <> n). { intros ->. apply (Hm1 pv); cbn; auto. }
        destruct (G5 m) as [C D]. { intros v Hv. apply (Hm2 n pv v); cbn; auto. }
        destruct (H6 m) as [A B].
        { intros pv' Hin. apply Hm1. cbn; auto. }
        { intros n' pv' v Hin. apply Hm2. cbn; auto. }
        split.
        -- rewrite K3. destruct (eqb_ok m n); [contradiction|]. congruence.
        -- intros a Ha. rewrite K4 by (rewrite G2, H2; auto). destruct (eqb_ok m n); [contradiction|].
           rewrite D by (rewrite H2; auto). auto.
  - intros done n h1 d1 Hk (H1 & H2 & H3 & H4 & H5 & H6).
    assert (Hnot : forall pv', ~ encoded n pv') by (intros pv' (He & _); contradiction).
    split; [auto|]. split; [auto|]. split; [auto|]. split; [|split].
    + intros m pv' [<-|Hm] He; [exfalso; eapply Hnot; eauto|]. eapply H4; eauto.
    + intros m pv' v [<-|Hm] He Hv; [exfalso; eapply Hnot; eauto|]. eapply H5; eauto.
    + intros m Hm1 Hm2. apply H6.
      * intros pv' Hin. apply Hm1. cbn; auto.
      * intros n' pv' v Hin. apply Hm2. cbn; auto.
  - split; [auto|]. split; [auto|]. split; [apply only_features_refl|]. split; [|split].
    + intros n pv [].
    + intros n pv v [].
    + auto.
  - assert (Hin : forall n pv, encoded n pv -> In n done).
    { intros n pv (Hk & _). apply Hdone. unfold has_attribute. rewrite Hk. discriminate. }
    exists h', d'. split; [exact E|]. split; [auto|]. split; [auto|]. split; [auto|]. split; [|split].
    + intros n pv He. unfold has_attribute. rewrite (H4 n pv (Hin n pv He) He). auto.
    + intros n pv v He Hv. destruct (H5 n pv v (Hin n pv He) He Hv) as [A B]. split; [auto|].
      intros a Ha. assert (Hha : has_attribute d n) by (unfold has_attribute; destruct He as (Hk & _); rewrite Hk; discriminate).
      destruct (value_some true h d a n Hh Ha Hha) as (w & us & Ew & _). fold (col n v). rewrite (B a w Ha Ew).
      split; intros Hw.
      * assert (w = v) by congruence. subst w. rewrite eqb_refl. auto.
      * destruct (eqb_ok w v) as [->|]; [congruence|auto].
    + intros m Hm1 Hm2. apply H6; [intros pv _; apply Hm1|]. intros n pv v _. apply Hm2.
Qed.
