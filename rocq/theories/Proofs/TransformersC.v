(** Dataset transformers: min-max scaling (C61), attribute selection and
    transforming a copy (C82) *)
From Coq Require Import Permutation QArith Qcanon String.
From Verif.Model Require Import Base LogNoise Dataset Transformers.
From Verif.Spec Require Import DatasetSpec TransformSpec.
From Verif.Lib Require Import ListLib DictLib.
From Verif.Proofs Require Import PetriA ParallelB LogNoise DatasetA DatasetB DatasetC TransformersA TransformersB.
Open Scope string_scope.
Open Scope list_scope.
Open Scope nat_scope.

Section Q.
  Lemma Qc_lt_dec (x y : Qc) : (x < y)%Qc \/ (y <= x)%Qc.
  Proof. destruct (Qclt_le_dec x y); auto. Qed.
  Lemma Qc_fold_min l : forall x, let m := fold_left (fun m y : Qc => if Qlt_bool (this y) (this m) then y else m) l x in
    (m = x \/ In m l) /\ (m <= x)%Qc /\ forall y, In y l -> (m <= y)%Qc.
  Proof.
    induction l as [|y l IH]; intros x; cbn [fold_left].
    - split; [auto|]. split; [apply Qcle_refl|]. intros y [].
    - specialize (IH (if Qlt_bool (this y) (this x) then y else x)). cbn zeta in IH. destruct IH as (A & B & C).
      destruct (Qlt_bool (this y) (this x)) eqn:E.
      + apply Qlt_bool_iff in E. split; [destruct A; cbn; auto|]. split.
        * eapply Qcle_trans; [exact B|]. apply Qclt_le_weak. exact E.
        * intros z [<-|Hz]; auto.
      + apply Qlt_bool_false in E. split; [destruct A; cbn; auto|]. split; [auto|].
        intros z [<-|Hz]; auto. eapply Qcle_trans; [exact B|]. exact E.
  Qed.
  Lemma Qc_fold_max l : forall x, let m := fold_left (fun m y : Qc => if Qlt_bool (this m) (this y) then y else m) l x in
    (m = x \/ In m l) /\ (x <= m)%Qc /\ forall y, In y l -> (y <= m)%Qc.
  Proof.
    induction l as [|y l IH]; intros x; cbn [fold_left].
    - split; [auto|]. split; [apply Qcle_refl|]. intros y [].
    - specialize (IH (if Qlt_bool (this x) (this y) then y else x)). cbn zeta in IH. destruct IH as (A & B & C).
      destruct (Qlt_bool (this x) (this y)) eqn:E.
      + apply Qlt_bool_iff in E. split; [destruct A; cbn; auto|]. split.
        * eapply Qcle_trans; [|exact B]. apply Qclt_le_weak. exact E.
        * intros z [<-|Hz]; auto.
      + apply Qlt_bool_false in E. split; [destruct A; cbn; auto|]. split; [auto|].
        intros z [<-|Hz]; auto. eapply Qcle_trans; [|exact B]. exact E.
  Qed.
  Lemma Qc_min_ok l : l <> [] -> exists m, Qc_min l = Ok m /\ In m l /\ forall y, In y l -> (m <= y)%Qc.
  Proof.
    destruct l as [|x l]; [congruence|]. intros _. cbn [Qc_min]. destruct (Qc_fold_min l x) as (A & B & C).
    eexists. split; [reflexivity|]. split; [destruct A as [->|]; cbn; auto|]. intros y [<-|Hy]; auto.
  Qed.
  Lemma Qc_max_ok l : l <> [] -> exists m, Qc_max l = Ok m /\ In m l /\ forall y, In y l -> (y <= m)%Qc.
  Proof.
    destruct l as [|x l]; [congruence|]. intros _. cbn [Qc_max]. destruct (Qc_fold_max l x) as (A & B & C).
    eexists. split; [reflexivity|]. split; [destruct A as [->|]; cbn; auto|]. intros y [<-|Hy]; auto.
  Qed.
  Lemma Qc_pos_diff (x y : Qc) : (x < y)%Qc -> (0 < y - x)%Qc.
  Proof. intros Hlt. apply Qclt_minus_iff in Hlt. exact Hlt. Qed.
  Lemma Qc_pos_neq (x : Qc) : (0 < x)%Qc -> x <> 0%Qc.
  Proof. intros Hlt ->. apply (Qclt_not_eq 0%Qc 0%Qc); auto. Qed.
  Lemma Qc_le_add (x y z : Qc) : (x <= y)%Qc -> (x + z <= y + z)%Qc.
  Proof. intros Hl. apply Qcplus_le_compat; [auto|apply Qcle_refl]. Qed.
  Lemma Qc_div_mul (x m : Qc) : m <> 0%Qc -> (x / m * m)%Qc = x.
  Proof. intros Hm. field. auto. Qed.

  Definition scaled (lo hi mn mx v : Qc) : Qc := ((v - mn) / (mx - mn) * (hi - lo) + lo)%Qc.
  Lemma scaled_mn lo hi mn mx : (mn < mx)%Qc -> scaled lo hi mn mx mn = lo.
  Proof. intros Hm. apply Qc_pos_diff, Qc_pos_neq in Hm. unfold scaled. field. auto. Qed.
  Lemma scaled_mx lo hi mn mx : (mn < mx)%Qc -> scaled lo hi mn mx mx = hi.
  Proof. intros Hm. apply Qc_pos_diff, Qc_pos_neq in Hm. unfold scaled. field. auto. Qed.
  Lemma Qc_div_le (x y m : Qc) : (0 < m)%Qc -> (x <= y)%Qc -> (x / m <= y / m)%Qc.
  Proof.
    intros Hm Hl. destruct (Qc_lt_dec (y / m) (x / m)) as [Hlt|]; auto. exfalso.
    apply (Qcmult_lt_compat_r _ _ m Hm) in Hlt. rewrite !Qc_div_mul in Hlt by (apply Qc_pos_neq; auto).
    apply (Qclt_not_le _ _ Hlt). auto.
  Qed.
  Lemma scaled_le lo hi mn mx v w : (mn < mx)%Qc -> (lo <= hi)%Qc -> (v <= w)%Qc ->
    (scaled lo hi mn mx v <= scaled lo hi mn mx w)%Qc.
  Proof.
    intros Hm Hlh Hv. unfold scaled. apply Qc_le_add. apply Qcmult_le_compat_r.
    - apply Qc_div_le; [apply Qc_pos_diff; auto|]. unfold Qcminus. apply Qc_le_add. auto.
    - apply (Qc_le_add _ _ (- lo)%Qc) in Hlh. rewrite Qcplus_opp_r in Hlh. exact Hlh.
  Qed.
  Lemma scaled_lt lo hi mn mx v w : (mn < mx)%Qc -> (lo < hi)%Qc -> (v < w)%Qc ->
    (scaled lo hi mn mx v < scaled lo hi mn mx w)%Qc.
  Proof.
    intros Hm Hlh Hv. destruct (Qc_lt_dec (scaled lo hi mn mx v) (scaled lo hi mn mx w)) as [|Hle]; auto. exfalso.
    apply (Qclt_not_le _ _ Hv).
    pose proof (Qc_pos_neq _ (Qc_pos_diff _ _ Hm)) as Hm'. pose proof (Qc_pos_neq _ (Qc_pos_diff _ _ Hlh)) as Hl'.
    assert (Einv : forall u, u = scaled mn mx lo hi (scaled lo hi mn mx u)).
    { intros u. unfold scaled. field. auto. }
    rewrite (Einv w), (Einv v). apply scaled_le; auto. apply Qclt_le_weak; auto.
  Qed.
End Q.

Section E.
  Context {I V T : Type} `{Base.Eq I} `{Base.Eq V}.
  Notation heap := (heap I V T).
  Notation dataset := (dataset V).
  Lemma each_loop_err e n0 k f (d : dataset) (P : list string -> heap -> dataset -> Prop) :
    NoDup (keys (attrs d)) -> kind_of d n0 = Some k ->
    (forall done n us h1 d1, kind_of d n = Some k -> uniques d n = Some us -> ~ In n done -> P done h1 d1 ->
       f h1 d1 n us = Err e \/ exists h2 d2, f h1 d1 n us = Ok (h2, d2) /\ P (n :: done) h2 d2) ->
    (forall done n h1 d1, kind_of d n <> Some k -> P done h1 d1 -> P (n :: done) h1 d1) ->
    (forall done us h1 d1, ~ In n0 done -> uniques d n0 = Some us -> P done h1 d1 -> f h1 d1 n0 us = Err e) ->
    forall h, P [] h d -> each_attribute k f h d = Err e.
  Proof.
    intros Hn Hk0 Hf Hskip Herr h HP. unfold each_attribute.
    assert (G : forall l done h1 d1, (forall n y, In (n, y) l -> dict_get n (attrs d) = Some y) ->
      NoDup (keys l) -> (forall n, In n done -> ~ In n (keys l)) -> In n0 (keys l) -> P done h1 d1 ->
      foldM (fun '(h, d) '(n, y) =>
             match akind y, k with
             | Categorical, Categorical | Numerical, Numerical => f h d n (auniq y)
             | _, _ => Ok (h, d)
             end) l (h1, d1) = Err e).
    { induction l as [|[n y] l IH]; intros done h1 d1 Hl Hnd Hdis Hin HP1; cbn [foldM].
      - destruct Hin.
      - change (keys ((n, y) :: l)) with (n :: keys l) in *. inversion Hnd as [|? ? Hni Hnd']; subst.
        assert (Ey : dict_get n (attrs d) = Some y) by (apply Hl; cbn; auto).
        assert (Hd : ~ In n done). { intros Hin'. apply (Hdis n Hin'). cbn; auto. }
        assert (Hk : kind_of d n = Some (akind y)) by (unfold kind_of; rewrite Ey; auto).
        assert (Hu : uniques d n = Some (auniq y)) by (unfold uniques; rewrite Ey; auto).
        assert (Hstep : (match akind y, k with
             | Categorical, Categorical | Numerical, Numerical => f h1 d1 n (auniq y)
             | _, _ => Ok (h1, d1)
             end = Err e) \/ n <> n0 /\ exists h2 d2, match akind y, k with
             | Categorical, Categorical | Numerical, Numerical => f h1 d1 n (auniq y)
             | _, _ => Ok (h1, d1)
             end = Ok (h2, d2) /\ P (n :: done) h2 d2).
        { destruct (eqb_ok n n0) as [->|Hne].
          - left. rewrite Hk0 in Hk. injection Hk as Hk. rewrite <- Hk.
            rewrite (Herr done (auniq y) h1 d1 Hd Hu HP1). destruct k; auto.
          - destruct (akind y), k; try (destruct (Hf done n (auniq y) h1 d1 Hk Hu Hd HP1); auto; fail); right; (split; [auto|]);
              do 2 eexists; (split; [reflexivity|]); apply Hskip; auto; rewrite Hk; discriminate. }
        destruct Hstep as [->|(Hne & h2 & d2 & -> & P2)]; [auto|]. cbn [bind].
        apply (IH (n :: done)).
        + intros m z Hin'. apply Hl. cbn; auto.
        + auto.
        + intros m [<-|Hin']; auto. intros Hin''. apply (Hdis m Hin'). cbn; auto.
        + destruct Hin; [congruence|auto].
        + auto. }
    apply (G (attrs d) []); auto.
    - intros n y Hin. apply dict_In_get; auto.
    - apply has_attribute_In. unfold has_attribute. rewrite Hk0. discriminate.
  Qed.

  (** the values of an attribute as a list *)
  Lemma values_list (h : heap) (d : dataset) it n : history true h d -> Permutation it (insts d) -> has_attribute d n ->
    exists vs, mapM (getitem h n) it = Ok vs /\ length vs = length it /\
      (forall i a, nth_error it i = Some a -> exists v, nth_error vs i = Some v /\ value h a n = Some v) /\
      (forall v, In v vs <-> exists a, In a (insts d) /\ value h a n = Some v).
  Proof.
    intros Hh Hit Hn. destruct (mapM_some (getitem h n) it) as (vs & E & F).
    { intros a Ha. apply (Permutation_in _ Hit) in Ha. destruct (value_some true h d a n Hh Ha Hn) as (w & us & Ew & _).
      rewrite (getitem_value h a n w Ew). eauto. }
    exists vs. split; [auto|].
    assert (P1 : forall i a, nth_error it i = Some a -> exists v, nth_error vs i = Some v /\ value h a n = Some v).
    { intros i a Ei. destruct (Forall2_nth_error_l _ _ _ F i a Ei) as (v & Ev & Eg). exists v. split; auto.
      unfold getitem in Eg. unfold value. destruct (nth_error h a); [|discriminate]. cbn [of_option bind] in Eg.
      destruct (dict_get n (feats i0)); cbn in Eg; congruence. }
    split; [|split; [auto|]].
    - clear - F. induction F; cbn; auto.
    - intros v. split.
      + intros Hv. apply In_nth_error in Hv. destruct Hv as [i Ei].
        destruct (Forall2_nth_error_r _ _ _ F i v Ei) as (a & Ea & _). destruct (P1 i a Ea) as (v' & Ev' & Hv').
        exists a. split; [apply (Permutation_in _ Hit); eapply nth_error_In; eauto|congruence].
      + intros (a & Ha & Hv). pose proof (Permutation_in _ (Permutation_sym Hit) Ha) as Ha'. apply In_nth_error in Ha'.
        destruct Ha' as [i Ei]. destruct (P1 i a Ei) as (v' & Ev' & Hv'). assert (v' = v) by congruence. subst.
        eapply nth_error_In; eauto.
  Qed.
End E.

Section M.
  Context {I T : Type} `{Base.Eq I}.
  Notation heap := (heap I Qc T).
  Notation dataset := (dataset Qc).

  Lemma scale_step lo hi it (h1 : heap) (d1 : dataset) n us :
    history true h1 d1 -> Permutation it (insts d1) -> kind_of d1 n = Some Numerical -> insts d1 <> [] ->
    exists mn mx, least h1 d1 n mn /\ greatest h1 d1 n mx /\
      ((mn = mx /\ scale_attribute lo hi it h1 d1 n us = Err ZeroDivisionError) \/
       ((mn < mx)%Qc /\ exists h2 d2, scale_attribute lo hi it h1 d1 n us = Ok (h2, d2) /\
         history true h2 d2 /\ insts d2 = insts d1 /\ (forall m, kind_of d2 m = kind_of d1 m) /\
         only_features d1 h1 h2 /\
         (forall a v, In a (insts d1) -> value h1 a n = Some v -> value h2 a n = Some (scaled lo hi mn mx v)) /\
         (forall a m, In a (insts d1) -> m <> n -> value h2 a m = value h1 a m))).
  Proof.
    intros Hh Hit Hk Hne. assert (Hn : has_attribute d1 n) by (unfold has_attribute; rewrite Hk; discriminate).
    destruct (values_list h1 d1 it n Hh Hit Hn) as (vs & E & Hl & Hp & Hv).
    assert (Hvs : vs <> []).
    { intros ->. destruct it; [|discriminate]. apply Permutation_nil in Hit. congruence. }
    destruct (Qc_min_ok vs Hvs) as (mn & Emn & Imn & Lmn). destruct (Qc_max_ok vs Hvs) as (mx & Emx & Imx & Lmx).
    exists mn, mx. split; [|split].
    { split; [apply Hv; auto|]. intros a v Ha Ev. apply Lmn. apply Hv. eauto. }
    { split; [apply Hv; auto|]. intros a v Ha Ev. apply Lmx. apply Hv. eauto. }
    unfold scale_attribute. rewrite E. cbn [bind]. rewrite Emn. cbn [bind]. rewrite Emx. cbn [bind].
    destruct (eqb_ok (mx - mn)%Qc 0%Qc) as [E0|E0].
    - left. assert (Em : mn = mx). { assert (mx = (mx - mn) + mn)%Qc by ring. rewrite H0, E0. ring. }
      split; [auto|]. destruct vs as [|v vs]; [congruence|]. reflexivity.
    - right. assert (Hlt : (mn < mx)%Qc).
      { destruct (Qc_lt_dec mn mx) as [|Hle]; auto. exfalso. apply E0.
        assert (mn = mx) by (apply Qcle_antisym; auto). subst mx. ring. }
      split; [auto|].
      rewrite (mapM_all _ (scaled lo hi mn mx) vs) by (intros; reflexivity). cbn [bind].
      destruct (replace_step h1 d1 it Numerical n (map (scaled lo hi mn mx) vs) Hh Hit Hn)
        as (h2 & d2 & E2 & G1 & G2 & G3 & G4 & G5).
      { rewrite map_length. auto. }
      exists h2, d2. split; [exact E2|]. split; [auto|]. split; [auto|]. split; [|split; [auto|]].
      { intros m. rewrite G3. destruct (eqb_ok m n) as [->|]; auto. }
      assert (Hpos : forall a, In a (insts d1) -> exists i v, nth_error it i = Some a /\ value h1 a n = Some v /\
         nth_error (map (scaled lo hi mn mx) vs) i = Some (scaled lo hi mn mx v)).
      { intros a Ha. pose proof (Permutation_in _ (Permutation_sym Hit) Ha) as Ha'. apply In_nth_error in Ha'.
        destruct Ha' as [i Ei]. destruct (Hp i a Ei) as (v & Ev & Ea). exists i, v. rewrite nth_error_map, Ev. auto. }
      split.
      + intros a v Ha Ev. destruct (Hpos a Ha) as (i & v' & Ei & Ev' & En). rewrite (G4 i a _ Ei En), eqb_refl. congruence.
      + intros a m Ha Hm. destruct (Hpos a Ha) as (i & v' & Ei & Ev' & En). rewrite (G4 i a _ Ei En).
        destruct (eqb_ok m n); [contradiction|auto].
  Qed.
End M.

(*P C61 Encoders are faithful *)

(** Min-max scaling in exact arithmetic.  If no numerical attribute is
    constant, every numerical value is moved by one affine map per attribute,
    with the least value going to the lower and the greatest to the upper
    bound; the scaled values are in the range and in the same order; everything
    else is unchanged. *)
Lemma C61_min_max_scaling : forall (I T : Type) (EI : Base.Eq I) (lo hi : Qc) (h : heap I Qc T) (d : dataset Qc) it,
  history true h d -> Permutation it (insts d) ->
  (forall n, kind_of d n = Some Numerical ->
     exists a b v w, In a (insts d) /\ In b (insts d) /\ value h a n = Some v /\ value h b n = Some w /\ v <> w) ->
  exists h' d', scale lo hi it h d = Ok (h', d') /\
    history true h' d' /\ insts d' = insts d /\ same_attributes d d' /\ only_features d h h' /\
    (forall a n, In a (insts d) -> kind_of d n = Some Categorical -> value h' a n = value h a n) /\
    (forall n mn mx, kind_of d n = Some Numerical -> least h d n mn -> greatest h d n mx ->
       (mn < mx)%Qc /\
       (forall a v, In a (insts d) -> value h a n = Some v ->
          value h' a n = Some ((v - mn) / (mx - mn) * (hi - lo) + lo)%Qc) /\
       ((lo <= hi)%Qc -> least h' d' n lo /\ greatest h' d' n hi) /\
       ((lo < hi)%Qc -> forall a b v w v' w', In a (insts d) -> In b (insts d) ->
          value h a n = Some v -> value h b n = Some w -> value h' a n = Some v' -> value h' b n = Some w' ->
          ((v < w)%Qc <-> (v' < w')%Qc))).
Proof.
  intros I T EI lo hi h d it Hh Hit Hvar. pose proof (history_inv _ _ _ Hh) as Hi.
  set (P := fun (done : list string) (h1 : heap I Qc T) (d1 : dataset Qc) =>
    history true h1 d1 /\ insts d1 = insts d /\ same_attributes d d1 /\ only_features d h h1 /\
    (forall a n, In a (insts d) -> (~ In n done \/ kind_of d n <> Some Numerical) -> value h1 a n = value h a n) /\
    (forall n, In n done -> kind_of d n = Some Numerical ->
       exists mn mx, least h d n mn /\ greatest h d n mx /\ (mn < mx)%Qc /\
         forall a v, In a (insts d) -> value h a n = Some v -> value h1 a n = Some (scaled lo hi mn mx v))).
  assert (Hcong : forall (h1 : heap I Qc T) (d1 : dataset Qc) n m, insts d1 = insts d -> (forall a, In a (insts d) -> value h1 a n = value h a n) ->
     (least h1 d1 n m -> least h d n m) /\ (greatest h1 d1 n m -> greatest h d n m)).
  { intros h1 d1 n m E Ev. unfold least, greatest. rewrite E. split.
    - intros [(a & Ha & Em) Hall]. rewrite Ev in Em by auto. split; [eauto|].
      intros b v Hb Eb. rewrite <- Ev in Eb by auto. eauto.
    - intros [(a & Ha & Em) Hall]. rewrite Ev in Em by auto. split; [eauto|].
      intros b v Hb Eb. rewrite <- Ev in Eb by auto. eauto. }
  destruct (each_loop Numerical (scale_attribute lo hi it) d P) with (h := h)
    as (h' & d' & done & E & (H1 & H2 & H3 & H4 & H5 & H6) & Hdone).
  - apply Hi.
  - intros done n us h1 d1 Hk Hu Hnd (H1 & H2 & H3 & H4 & H5 & H6).
    destruct (Hvar n Hk) as (a & b & v & w & Ha & Hb & Ev & Ew & Hvw).
    assert (Hsame : forall c, In c (insts d) -> value h1 c n = value h c n) by (intros; apply H5; auto).
    destruct (scale_step lo hi it h1 d1 n us H1) as (mn & mx & Hmn & Hmx & [[Em Ee]|(Hlt & h2 & d2 & E2 & G1 & G2 & G3 & G4 & G5 & G6)]).
    + rewrite H2. auto.
    + rewrite (H3 n). auto.
    + rewrite H2. intros E0. rewrite E0 in Ha. destruct Ha.
    + exfalso. apply (Hcong _ _ _ _ H2 Hsame) in Hmn. apply (Hcong _ _ _ _ H2 Hsame) in Hmx. subst mx.
      apply Hvw. transitivity mn; [|symmetry]; apply Qcle_antisym;
        solve [exact (proj2 Hmn _ _ Ha Ev)|exact (proj2 Hmx _ _ Ha Ev)|exact (proj2 Hmn _ _ Hb Ew)|exact (proj2 Hmx _ _ Hb Ew)].
    + exists h2, d2. split; [exact E2|]. split; [auto|]. split; [congruence|]. split; [|split; [|split]].
      * intros m. rewrite G3. auto.
      * eapply only_features_trans; eauto.
      * intros c m Hc Hm. destruct (eqb_ok m n) as [->|Hne].
        -- exfalso. destruct Hm as [Hm|Hm]; [apply Hm; cbn; auto|auto].
        -- rewrite G6 by (auto; rewrite H2; auto). apply H5; auto.
           destruct Hm as [Hm|Hm]; auto. left. intros Hin. apply Hm. cbn; auto.
      * intros m Hm Hkm. destruct (eqb_ok m n) as [->|Hne].
        -- exists mn, mx. split; [apply (Hcong _ _ _ _ H2 Hsame); auto|]. split; [apply (Hcong _ _ _ _ H2 Hsame); auto|].
           split; [auto|]. intros c u Hc Eu. apply G5; [rewrite H2; auto|]. rewrite Hsame; auto.
        -- destruct Hm as [Hm|Hm]; [congruence|]. destruct (H6 m Hm Hkm) as (mn' & mx' & A & B & C & D).
           exists mn', mx'. split; [auto|]. split; [auto|]. split; [auto|]. intros c u Hc Eu.
           rewrite G6 by (auto; rewrite H2; auto). auto.
  - intros done n h1 d1 Hk (H1 & H2 & H3 & H4 & H5 & H6). split; [auto|]. split; [auto|]. split; [auto|]. split; [auto|]. split.
    + intros a m Ha [Hm|Hm]; apply H5; auto. left. intros Hin. apply Hm. cbn; auto.
    + intros m [<-|Hm] Hkm; [contradiction|]. auto.
  - split; [auto|]. split; [auto|]. split; [intros m; auto|]. split; [apply only_features_refl|]. split; auto.
    intros n [].
  - exists h', d'. split; [exact E|]. split; [auto|]. split; [auto|]. split; [auto|]. split; [auto|]. split.
    + intros a n Ha Hk. apply H5; auto. right. rewrite Hk. discriminate.
    + intros n mn mx Hk Hmn Hmx. destruct (H6 n) as (mn' & mx' & Hmn' & Hmx' & Hlt & Hs).
      { apply Hdone. unfold has_attribute. rewrite Hk. discriminate. }
      { auto. }
      assert (mn' = mn).
      { destruct Hmn as [(a & Ha & Ea) La]. destruct Hmn' as [(b & Hb & Eb) Lb]. apply Qcle_antisym; eauto. }
      assert (mx' = mx).
      { destruct Hmx as [(a & Ha & Ea) La]. destruct Hmx' as [(b & Hb & Eb) Lb]. apply Qcle_antisym; eauto. }
      subst mn' mx'. split; [auto|]. split; [exact Hs|].
      assert (Hinv : forall a v', In a (insts d) -> value h' a n = Some v' ->
         exists v, value h a n = Some v /\ v' = scaled lo hi mn mx v).
      { intros a v' Ha Ev'. destruct (value_some true h d a n Hh Ha) as (v & us & Ev & _).
        { unfold has_attribute. rewrite Hk. discriminate. }
        exists v. split; auto. rewrite (Hs a v Ha Ev) in Ev'. congruence. }
      split.
      * intros Hlh. unfold least, greatest. rewrite H2. split; split.
        -- destruct Hmn as [(a & Ha & Ea) La]. exists a. split; auto. rewrite (Hs a mn Ha Ea), scaled_mn; auto.
        -- intros a v' Ha Ev'. destruct (Hinv a v' Ha Ev') as (v & Ev & ->).
           rewrite <- (scaled_mn lo hi mn mx Hlt) at 1. apply scaled_le; auto. eapply Hmn; eauto.
        -- destruct Hmx as [(a & Ha & Ea) La]. exists a. split; auto. rewrite (Hs a mx Ha Ea), scaled_mx; auto.
        -- intros a v' Ha Ev'. destruct (Hinv a v' Ha Ev') as (v & Ev & ->).
           rewrite <- (scaled_mx lo hi mn mx Hlt) at 2. apply scaled_le; auto. eapply Hmx; eauto.
      * intros Hlh a b v w v' w' Ha Hb Ev Ew Ev' Ew'. rewrite (Hs a v Ha Ev) in Ev'. rewrite (Hs b w Hb Ew) in Ew'.
        injection Ev' as <-. injection Ew' as <-. split; [apply scaled_lt; auto|].
        intros Hl. destruct (Qc_lt_dec v w) as [|Hle]; auto. exfalso. apply (Qclt_not_le _ _ Hl).
        apply scaled_le; auto. apply Qclt_le_weak. auto.
Qed.

(** Min-max scaling fails as soon as a numerical attribute has the same value
    everywhere, with a ZeroDivisionError, or if there are no instances at
    all, with a ValueError. *)
Lemma C61_min_max_undefined : forall (I T : Type) (EI : Base.Eq I) (lo hi : Qc) (h : heap I Qc T) (d : dataset Qc) it n,
  history true h d -> Permutation it (insts d) -> kind_of d n = Some Numerical ->
  (insts d = [] -> scale lo hi it h d = Err ValueError) /\
  (insts d <> [] -> (forall a b, In a (insts d) -> In b (insts d) -> value h a n = value h b n) ->
     scale lo hi it h d = Err ZeroDivisionError).
Proof.
  intros I T EI lo hi h d it n Hh Hit Hk. pose proof (history_inv _ _ _ Hh) as Hi. split.
  - intros E0. rewrite E0 in Hit. apply Permutation_sym, Permutation_nil in Hit. subst it.
    apply (each_loop_err ValueError n Numerical _ d (fun _ _ _ => True)); auto. apply Hi.
  - intros Hne Hsame.
    set (P := fun (done : list string) (h1 : heap I Qc T) (d1 : dataset Qc) =>
      history true h1 d1 /\ insts d1 = insts d /\ same_attributes d d1 /\
      (forall a n, In a (insts d) -> ~ In n done -> value h1 a n = value h a n)).
    apply (each_loop_err ZeroDivisionError n Numerical _ d P).
    + apply Hi.
    + auto.
    + intros done m us h1 d1 Hkm Hu Hnd (H1 & H2 & H3 & H4).
      destruct (scale_step lo hi it h1 d1 m us H1) as (mn & mx & Hmn & Hmx & [[Em Ee]|(Hlt & h2 & d2 & E2 & G1 & G2 & G3 & G4 & G5 & G6)]).
      * rewrite H2. auto.
      * rewrite (H3 m). auto.
      * rewrite H2. auto.
      * auto.
      * right. exists h2, d2. split; [auto|]. split; [auto|]. split; [congruence|]. split.
        -- intros k. rewrite G3. auto.
        -- intros a k Ha Hin. rewrite G6; [apply H4; auto; intros Hin'; apply Hin; cbn; auto|rewrite H2; auto|].
           intros ->. apply Hin. cbn; auto.
    + intros done m h1 d1 Hkm (H1 & H2 & H3 & H4). split; [auto|]. split; [auto|]. split; [auto|].
      intros a k Ha Hin. apply H4; auto. intros Hin'. apply Hin. cbn; auto.
    + intros done us h1 d1 Hnd Hu (H1 & H2 & H3 & H4).
      destruct (scale_step lo hi it h1 d1 n us H1) as (mn & mx & Hmn & Hmx & [[Em Ee]|(Hlt & _)]).
      * rewrite H2. auto.
      * rewrite (H3 n). auto.
      * rewrite H2. auto.
      * auto.
      * exfalso. destruct Hmn as [(a & Ha & Ea) _]. destruct Hmx as [(b & Hb & Eb) _]. rewrite H2 in *.
        rewrite H4 in Ea, Eb by auto. rewrite (Hsame a b Ha Hb) in Ea. assert (mn = mx) by congruence. subst mx.
        apply (Qclt_not_eq _ _ Hlt). auto.
    + split; [auto|]. split; [auto|]. split; [intros m|]; auto.
Qed.

Section R.
  Context {I V T : Type} `{Base.Eq I} `{Base.Eq V}.
  Notation heap := (heap I V T).
  Notation dataset := (dataset V).
  Lemma remove_attributes_ok test it (h : heap) (d : dataset) :
    history true h d -> Permutation it (insts d) ->
    exists h' d', remove_attributes test it h d = Ok (h', d') /\ history true h' d' /\ insts d' = insts d /\
      only_features d h h' /\
      (forall n, kind_of d' n = match dict_get n (attrs d) with
                                | Some y => if test n y then None else Some (akind y)
                                | None => None
                                end) /\
      (forall a n, In a (insts d) -> has_attribute d' n -> value h' a n = value h a n).
  Proof.
    intros Hh Hit. pose proof (history_inv _ _ _ Hh) as Hi. unfold remove_attributes.
    assert (G : forall l (h1 : heap) (d1 : dataset),
      NoDup (keys l) -> (forall n y, In (n, y) l -> has_attribute d1 n) ->
      history true h1 d1 -> insts d1 = insts d ->
      exists h' d', foldM (fun '(h, d) '(n, y) => if test n y then to_result (remove_attribute h d it n) else Ok (h, d)) l (h1, d1)
        = Ok (h', d') /\ history true h' d' /\ insts d' = insts d /\ only_features d1 h1 h' /\
        (forall n, kind_of d' n = match dict_get n l with
                                  | Some y => if test n y then None else kind_of d1 n
                                  | None => kind_of d1 n
                                  end) /\
        (forall a n, In a (insts d) -> has_attribute d' n -> value h' a n = value h1 a n)).
    { induction l as [|[n y] l IH]; intros h1 d1 Hnd Hl H1 I1; cbn [foldM].
      - exists h1, d1. split; [auto|]. split; [auto|]. split; [auto|]. split; [apply only_features_refl|]. cbn. auto.
      - change (keys ((n, y) :: l)) with (n :: keys l) in Hnd. inversion Hnd as [|? ? Hni Hnd']; subst.
        destruct (test n y) eqn:Et.
        + destruct (remove_step h1 d1 it n H1) as (h2 & d2 & E2 & H2 & I2 & K2 & V2 & O2).
          { rewrite I1. auto. }
          { eapply Hl. cbn; auto. }
          rewrite E2. cbn [to_result bind].
          destruct (IH h2 d2) as (h' & d' & E' & H' & I' & O' & K' & V'); auto.
          { intros m z Hin. unfold has_attribute. rewrite K2. destruct (eqb_ok m n) as [->|].
            - exfalso. apply Hni. apply (in_map fst) in Hin. exact Hin.
            - eapply Hl. cbn; eauto. }
          { congruence. }
          exists h', d'. split; [auto|]. split; [auto|]. split; [auto|]. split; [eapply only_features_trans; eauto|]. split.
          * intros m. rewrite K', K2. cbn [dict_get]. destruct (eqb_ok m n) as [->|].
            -- rewrite Et. rewrite (proj2 (dict_get_None l n) Hni). auto.
            -- auto.
          * intros a m Ha Hm. rewrite V' by auto. rewrite V2 by (rewrite I1; auto). destruct (eqb_ok m n) as [->|]; auto.
            exfalso. apply Hm. rewrite K', K2, eqb_refl. destruct (dict_get n l); auto. destruct (test n a0); auto.
        + cbn [bind]. destruct (IH h1 d1) as (h' & d' & E' & H' & I' & O' & K' & V'); auto.
          { intros m z Hin. eapply Hl. cbn; eauto. }
          exists h', d'. split; [auto|]. split; [auto|]. split; [auto|]. split; [auto|]. split; [|auto].
          intros m. rewrite K'. cbn [dict_get]. destruct (eqb_ok m n) as [->|]; auto.
          rewrite Et. rewrite (proj2 (dict_get_None l n) Hni). auto. }
    destruct (G (attrs d) h d) as (h' & d' & E' & H' & I' & O' & K' & V'); auto.
    - apply Hi.
    - intros n y Hin. apply has_attribute_In. apply (in_map fst) in Hin. exact Hin.
    - exists h', d'. split; [auto|]. split; [auto|]. split; [auto|]. split; [auto|]. split; [|auto].
      intros n. rewrite K'. unfold kind_of. destruct (dict_get n (attrs d)) as [y|]; auto.
  Qed.
End R.

(*P C82 Attribute selection and transforming a copy *)

(** SelectAttributes keeps exactly the attributes of the dataset that are
    among the selected names, with their kinds and values. *)
Lemma C82_select_attributes : forall (I V T : Type) (EI : Base.Eq I) (EV : Base.Eq V) (names : list string)
    (h : heap I V T) (d : dataset V) it,
  history true h d -> Permutation it (insts d) ->
  exists h' d', select_attributes names it h d = Ok (h', d') /\
    history true h' d' /\ insts d' = insts d /\ only_features d h h' /\
    (forall n, (In n names -> kind_of d' n = kind_of d n) /\ (~ In n names -> ~ has_attribute d' n)) /\
    (forall a n, In a (insts d) -> has_attribute d' n -> value h' a n = value h a n).
Proof.
  intros I V T EI EV names h d it Hh Hit.
  destruct (remove_attributes_ok (fun n _ => negb (mem n names)) it h d Hh Hit) as (h' & d' & E & H1 & H2 & H3 & H4 & H5).
  exists h', d'. split; [exact E|]. split; [auto|]. split; [auto|]. split; [auto|]. split; [|auto].
  intros n. split.
  - intros Hn. rewrite H4. unfold kind_of. destruct (dict_get n (attrs d)); auto. apply mem_In in Hn. rewrite Hn. auto.
  - intros Hn Hh'. apply Hh'. rewrite H4. destruct (dict_get n (attrs d)); auto.
    destruct (mem n names) eqn:Em; auto. apply mem_In in Em. contradiction.
Qed.

(** RemoveAttributesWithOneUniqueValue removes exactly the attributes for
    which there are instances and all of them have the same value. *)
Lemma C82_remove_one_valued : forall (I V T : Type) (EI : Base.Eq I) (EV : Base.Eq V)
    (h : heap I V T) (d : dataset V) it,
  history true h d -> Permutation it (insts d) ->
  exists h' d', remove_one_valued it h d = Ok (h', d') /\
    history true h' d' /\ insts d' = insts d /\ only_features d h h' /\
    (forall n, has_attribute d n ->
       let constant := exists v, insts d <> [] /\ forall a, In a (insts d) -> value h a n = Some v in
       (constant -> ~ has_attribute d' n) /\ (~ constant -> kind_of d' n = kind_of d n)) /\
    (forall n, ~ has_attribute d n -> ~ has_attribute d' n) /\
    (forall a n, In a (insts d) -> has_attribute d' n -> value h' a n = value h a n).
Proof.
  intros I V T EI EV h d it Hh Hit. pose proof (history_inv _ _ _ Hh) as Hi.
  destruct (remove_attributes_ok (fun _ y => length (auniq y) =? 1) it h d Hh Hit) as (h' & d' & E & H1 & H2 & H3 & H4 & H5).
  exists h', d'. split; [exact E|]. split; [auto|]. split; [auto|]. split; [auto|]. split; [|split; [|auto]].
  - intros n Hn constant. pose proof (proj1 (has_attribute_In d n) Hn) as Hin. destruct (dict_get_key _ _ Hin) as [y Ey].
    destruct (v_uniq _ _ _ Hi n y Ey) as [Hnd Hu].
    assert (Hc : constant <-> length (auniq y) = 1).
    { split.
      - intros (v & Hne & Hall). destruct (auniq y) as [|u [|w l]].
        + destruct (insts d) as [|a l]; [congruence|]. exfalso. apply (in_nil (a:=v)). apply Hu. exists a. split; [cbn; auto|apply Hall; cbn; auto].
        + auto.
        + exfalso. assert (Hw : forall z, In z (u :: w :: l) -> z = v).
          { intros z Hz. apply Hu in Hz. destruct Hz as (a & Ha & Ez). rewrite (Hall a Ha) in Ez. congruence. }
          inversion Hnd as [|? ? Hni _]; subst. apply Hni. rewrite (Hw u) by (cbn; auto). rewrite (Hw w) by (cbn; auto). cbn; auto.
      - intros Hl. destruct (auniq y) as [|v [|w l]]; try discriminate. exists v. split.
        + destruct (proj1 (Hu v)) as (a & Ha & _); [cbn; auto|]. intros E0. rewrite E0 in Ha. destruct Ha.
        + intros a Ha. destruct (value_some true h d a n Hh Ha Hn) as (w & us & Ew & _).
          assert (Hw : In w [v]) by (apply Hu; eauto). destruct Hw as [<-|[]]. auto. }
    split; intros HC.
    + intros Hh'. apply Hh'. rewrite H4, Ey. apply Hc in HC. rewrite HC. auto.
    + rewrite H4. unfold kind_of. rewrite Ey. destruct (Nat.eqb_spec (length (auniq y)) 1); auto. exfalso. apply HC, Hc. auto.
  - intros n Hn Hh'. apply Hh'. rewrite H4. destruct (dict_get n (attrs d)) eqn:Ey; auto.
    exfalso. apply Hn. unfold has_attribute, kind_of. rewrite Ey. discriminate.
Qed.

Section U.
  Context {I V T : Type} `{Base.Eq I} `{Base.Eq V}.
  Notation heap := (heap I V T).
  Notation dataset := (dataset V).
  (** whatever happens, adding and removing attributes only writes features of
      the instances they iterate over *)
  Lemma update_features (d : dataset) (h : heap) a g :
    In a (insts d) -> only_features d h (update h a (fun x => with_feats (g x) x)).
  Proof.
    intros Ha. split; [apply update_length|]. revert a Ha. induction h as [|x h IH]; intros a Ha b y Ey; [destruct b; discriminate|].
    assert (G : forall (h : heap) a b y, nth_error h b = Some y -> exists x', nth_error (update h a (fun x => with_feats (g x) x)) b = Some x' /\
      iid x' = iid y /\ target x' = target y /\ (b <> a -> x' = y)).
    { clear. induction h as [|x h IH]; intros [|a] [|b] y Ey; cbn in Ey |- *; try discriminate.
      - injection Ey as ->. eexists. split; [reflexivity|]. cbn. split; [auto|]. split; [auto|]. lia.
      - exists y. auto.
      - injection Ey as ->. exists y. auto.
      - destruct (IH a b y Ey) as (x' & A & B & C & D). exists x'. split; [auto|]. split; [auto|]. split; [auto|]. intros; apply D; lia. }
    destruct (G (x :: h) a b y Ey) as (x' & A & B & C & D). exists x'. split; [auto|]. split; [auto|]. split; [auto|].
    intros Hni. apply D. intros ->. contradiction.
  Qed.
  Lemma remove_features_only (d : dataset) n : forall it (h : heap), incl it (insts d) ->
    only_features d h (fst (remove_features h it n)).
  Proof.
    induction it as [|a it IH]; intros h Hit; cbn [remove_features]; [apply only_features_refl|].
    destruct (nth_error h a); [|apply only_features_refl]. destruct (dict_has n (feats i)); [|apply only_features_refl].
    eapply only_features_trans; [reflexivity| |apply IH; intros b Hb; apply Hit; cbn; auto].
    apply update_features. apply Hit. cbn; auto.
  Qed.
  Lemma set_features_only (d : dataset) n : forall vs (h : heap), (forall v a, In (v, a) vs -> In a (insts d)) ->
    only_features d h (set_features h vs n).
  Proof.
    induction vs as [|[v a] vs IH]; intros h Hit; cbn [set_features]; [apply only_features_refl|].
    eapply only_features_trans; [reflexivity| |apply IH; intros w b Hb; apply (Hit w); cbn; auto].
    apply update_features. apply (Hit v). cbn; auto.
  Qed.
  Lemma remove_only (h : heap) (d : dataset) it n h' d' : incl it (insts d) ->
    to_result (remove_attribute h d it n) = Ok (h', d') -> insts d' = insts d /\ only_features d h h'.
  Proof.
    intros Hit. unfold remove_attribute. destruct (dict_get n (attrs d)) as [y|]; [|discriminate].
    destruct (mem _ _); [|discriminate]. pose proof (remove_features_only d n it h Hit) as Ho.
    destruct (remove_features h it n) as [h1 e1]. cbn [fst] in Ho. cbn [to_result]. destruct e1; [discriminate|].
    intros E. injection E as <- <-. split; auto. destruct (akind y); auto.
  Qed.
  Lemma add_only k (h : heap) (d : dataset) it n vs h' d' : incl it (insts d) ->
    to_result (add_attribute k h d it n vs) = Ok (h', d') -> insts d' = insts d /\ only_features d h h'.
  Proof.
    intros Hit. unfold add_attribute. destruct (length (insts d) =? length vs); [|discriminate]. cbn [to_result].
    intros E. injection E as <- <-. split; auto. apply set_features_only.
    intros v a Hin. apply Hit. eapply in_combine_r; eauto.
  Qed.
  Definition harmless (d0 : dataset) (h0 h : heap) (d : dataset) := insts d = insts d0 /\ only_features d0 h0 h.
  Lemma fold_harmless {X} (f : heap * dataset -> X -> result (heap * dataset)) l : forall h d h' d',
    (forall h1 d1 x h2 d2, insts d1 = insts d -> f (h1, d1) x = Ok (h2, d2) -> insts d2 = insts d1 /\ only_features d1 h1 h2) ->
    foldM f l (h, d) = Ok (h', d') -> insts d' = insts d /\ only_features d h h'.
  Proof.
    induction l as [|x l IH]; intros h d h' d' Hf E; cbn [foldM] in E.
    - injection E as <- <-. split; auto. apply only_features_refl.
    - destruct (f (h, d) x) as [[h1 d1]|] eqn:E1; [|discriminate]. cbn [bind] in E.
      destruct (Hf h d x h1 d1 eq_refl E1) as [A B]. destruct (IH h1 d1 h' d') as [C D]; auto.
      { intros h2 d2 y h3 d3 E2. apply Hf. congruence. }
      split; [congruence|]. eapply only_features_trans; eauto.
  Qed.
  Lemma each_harmless k f (h : heap) (d : dataset) h' d' :
    (forall h1 d1 n us h2 d2, insts d1 = insts d -> f h1 d1 n us = Ok (h2, d2) -> insts d2 = insts d1 /\ only_features d1 h1 h2) ->
    each_attribute k f h d = Ok (h', d') -> insts d' = insts d /\ only_features d h h'.
  Proof.
    intros Hf. apply fold_harmless. intros h1 d1 [n y] h2 d2 E1 E.
    destruct (akind y), k; try (eapply Hf; eauto; fail); injection E as <- <-; (split; [auto|apply only_features_refl]).
  Qed.
End U.

(** Transforming a copy (the default): if the transformation works at all then
    every object that existed before is exactly as before, the given dataset
    object included, and the result consists of new objects only.  [ord] is
    the order in which a set of instances is iterated over. *)
Lemma C82_transform_copy : forall (I V T : Type) (EI : Base.Eq I) (EV : Base.Eq V)
    (h : heap I V T) (d : dataset V) (ord : list nat -> list nat) h' c,
  history true h d -> (forall l, Permutation (ord l) l) ->
  let leaves_original := fun f => transform false f h d (ord (insts d)) = Ok (h', c) ->
    (forall a x, nth_error h a = Some x -> nth_error h' a = Some x) /\
    length (insts c) = length (insts d) /\ (forall a, In a (insts c) -> length h <= a) in
  (forall possible sorted ofnat isbool,
     leaves_original (fun h c => label_encode possible sorted ofnat isbool (ord (insts c)) h c)) /\
  (forall possible sorted zero one join show,
     leaves_original (fun h c => one_hot_encode possible sorted zero one join show (ord (insts c)) h c)) /\
  (forall names, leaves_original (fun h c => select_attributes names (ord (insts c)) h c)) /\
  leaves_original (fun h c => remove_one_valued (ord (insts c)) h c).
Proof.
  intros I V T EI EV h d ord h' c Hh Hord leaves.
  assert (G : forall f, (forall h1 c1 h2 c2, f h1 c1 = Ok (h2, c2) -> insts c2 = insts c1 /\ only_features c1 h1 h2) ->
    leaves f).
  { intros f Hf E. unfold transform in E.
    destruct (C59_copy _ _ _ _ _ h d (ord (insts d)) Hh (Hord _)) as (h1 & c1 & E1 & A1 & A2 & A3 & A4 & A5 & A6 & A7 & A8).
    rewrite E1 in E. cbn [bind] in E. destruct (Hf h1 c1 h' c E) as [B1 [B2 B3]].
    assert (Hnew : forall a, In a (insts c1) -> length h <= a).
    { intros a Ha. apply A8. auto. }
    assert (Hold : forall a x, nth_error h a = Some x -> nth_error h' a = Some x).
    { intros a x Ex. pose proof (nth_error_Some_lt _ _ _ Ex) as Hlt. rewrite <- A7 in Ex by auto.
      destruct (B3 a x Ex) as (x' & Ex' & _ & _ & Hx). rewrite Ex', Hx; auto. intros Hin. apply Hnew in Hin. lia. }
    split; [auto|]. split.
    - rewrite B1. apply (f_equal (@length _)) in A6. rewrite !map_length in A6. rewrite A6. apply Permutation_length, Hord.
    - rewrite B1. auto. }
  assert (Hinc : forall l : list nat, incl (ord l) l) by (intros l a Ha; apply (Permutation_in _ (Hord l)); auto).
  split; [|split; [|split]].
  - intros possible sorted ofnat isbool. apply G. intros h1 c1 h2 c2. apply each_harmless.
    intros h3 d3 n us h4 d4 E3. unfold label_attribute. destruct (candidates _ _ _ _) as [pv|]; [|discriminate]. cbn [bind].
    destruct (match pv with [] => false | _ :: _ => _ end).
    + intros E. injection E as <- <-. split; [auto|apply only_features_refl].
    + cbv zeta. destruct (mapM _ _) as [vs|]; [|discriminate]. cbn [bind].
      destruct (to_result (remove_attribute h3 d3 _ n)) as [[h5 d5]|] eqn:E5; [|discriminate]. cbn [bind]. intros E.
      apply remove_only in E5; [|rewrite E3; auto]. destruct E5 as [E5 O5].
      apply add_only in E; [|rewrite E5, E3; auto]. destruct E as [E6 O6]. split; [congruence|].
      eapply only_features_trans; eauto.
  - intros possible sorted zero one join show. apply G. intros h1 c1 h2 c2. apply each_harmless.
    intros h3 d3 n us h4 d4 E3. unfold one_hot_attribute. destruct (candidates _ _ _ _) as [pv|]; [|discriminate]. cbn [bind].
    destruct (list_eqb _ _).
    + intros E. injection E as <- <-. split; [auto|apply only_features_refl].
    + destruct (foldM _ pv (h3, d3)) as [[h5 d5]|] eqn:E5; [|discriminate]. cbn [bind]. intros E.
      apply fold_harmless in E5.
      * destruct E5 as [E5 O5]. apply remove_only in E; [|rewrite E5, E3; auto]. destruct E as [E6 O6]. split; [congruence|].
        eapply only_features_trans; eauto.
      * intros h6 d6 v h7 d7 E6. destruct (mapM _ _) as [vs|]; [|discriminate]. cbn [bind]. intros E7.
        apply add_only in E7; auto. rewrite E6, E3. auto.
  - intros names. apply G. intros h1 c1 h2 c2. apply fold_harmless. intros h3 d3 [n y] h4 d4 E3.
    destruct (negb (mem n names)); [apply remove_only; rewrite E3; auto|].
    intros E. injection E as <- <-. split; [auto|apply only_features_refl].
  - apply G. intros h1 c1 h2 c2. apply fold_harmless. intros h3 d3 [n y] h4 d4 E3.
    destruct (length (auniq y) =? 1); [apply remove_only; rewrite E3; auto|].
    intros E. injection E as <- <-. split; [auto|apply only_features_refl].
Qed.
