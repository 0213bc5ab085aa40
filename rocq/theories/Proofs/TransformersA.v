(** Dataset transformers: encoders (C61) *)
From Coq Require Import Permutation QArith Qcanon String.
From Verif.Model Require Import Base LogNoise Dataset Transformers.
From Verif.Spec Require Import DatasetSpec.
From Verif.Lib Require Import ListLib DictLib.
From Verif.Proofs Require Import PetriA ParallelB DatasetA DatasetB DatasetC.
Open Scope string_scope.
Open Scope list_scope.
Open Scope nat_scope.

Section T.
  Context {I V T : Type} `{Base.Eq I} `{Base.Eq V}.
  Notation heap := (heap I V T).
  Notation dataset := (dataset V).

  Lemma only_features_refl (d : dataset) (h : heap) : only_features d h h.
  Proof. split; auto. intros a x Ex. exists x. auto. Qed.
  Lemma only_features_trans (d d' : dataset) (h h' h'' : heap) : insts d' = insts d ->
    only_features d h h' -> only_features d' h' h'' -> only_features d h h''.
  Proof.
    intros E [L1 A] [L2 B]. split; [congruence|]. intros a x Ex. destruct (A a x Ex) as (x1 & E1 & F1 & F2 & F3).
    destruct (B a x1 E1) as (x2 & E2 & G1 & G2 & G3). exists x2. split; [auto|]. split; [congruence|].
    split; [congruence|]. intros Hni. rewrite (G3 ltac:(rewrite E; auto)). auto.
  Qed.
  Lemma update_length (h : heap) a f : length (update h a f) = length h.
  Proof. revert a; induction h as [|x h IH]; intros [|a]; cbn; auto. Qed.
  Lemma remove_features_length n it : forall h : heap, length (fst (remove_features h it n)) = length h.
  Proof.
    induction it as [|a it IH]; intros h; cbn [remove_features]; auto.
    destruct (nth_error h a); auto. destruct (dict_has n (feats i)); auto. rewrite IH. apply update_length.
  Qed.
  Lemma set_features_length n vs : forall h : heap, length (set_features h vs n) = length h.
  Proof.
    induction vs as [|[v a] vs IH]; intros h; cbn [set_features]; auto. rewrite IH. apply update_length.
  Qed.

  Lemma add_step (h : heap) d it k n vs :
    history true h d -> Permutation it (insts d) -> ~ has_attribute d n -> length vs = length it ->
    exists h' d', add_attribute k h d it n vs = (h', d', None) /\ history true h' d' /\ insts d' = insts d /\
      (forall m, kind_of d' m = if eqb m n then Some k else kind_of d m) /\
      (forall i a v, nth_error it i = Some a -> nth_error vs i = Some v ->
         forall m, value h' a m = if eqb m n then Some v else value h a m) /\
      only_features d h h'.
  Proof.
    intros Hh Hit Hna Hl. pose proof (history_inv _ _ _ Hh) as Hi.
    destruct (C59_add_attribute _ _ _ _ _ true h d it k n vs Hh Hit) as [[Hbad _]|(_ & h' & d' & E & F1 & F2 & F3 & F4)].
    { exfalso. apply Hbad. rewrite Hl. apply Permutation_length; auto. }
    exists h', d'. split; [auto|]. split; [eapply hist_attribute; eauto|]. split; [auto|]. split; [auto|]. split.
    - intros i a v Ei Ev m.
      assert (Ha : In a (insts d)). { apply (Permutation_in _ Hit). eapply nth_error_In; eauto. }
      destruct (v_valid _ _ _ Hi a Ha) as [x Ex]. destruct (F3 i a v x Ei Ev Ex) as (x' & Ex' & _ & _ & Eg).
      unfold value. rewrite Ex', Ex. auto.
    - split.
      { unfold add_attribute in E. destruct (length (insts d) =? length vs); [|discriminate].
        replace h' with (set_features h (combine vs it) n) by congruence. apply set_features_length. }
      intros a x Ex. destruct (in_dec Nat.eq_dec a (insts d)) as [Ha|Ha].
      + pose proof (Permutation_in _ (Permutation_sym Hit) Ha) as Ha'. apply In_nth_error in Ha'. destruct Ha' as [i Ei].
        destruct (nth_error_lt vs i) as [v Ev]; [rewrite Hl; eapply nth_error_Some_lt; eauto|].
        destruct (F3 i a v x Ei Ev Ex) as (x' & Ex' & E1 & E2 & _). exists x'. tauto.
      + exists x. rewrite (F4 a Ha). auto.
  Qed.
  Lemma remove_step (h : heap) d it n :
    history true h d -> Permutation it (insts d) -> has_attribute d n ->
    exists h' d', remove_attribute h d it n = (h', d', None) /\ history true h' d' /\ insts d' = insts d /\
      (forall m, kind_of d' m = if eqb m n then None else kind_of d m) /\
      (forall a m, In a (insts d) -> value h' a m = if eqb m n then None else value h a m) /\
      only_features d h h'.
  Proof.
    intros Hh Hit Hna. pose proof (history_inv _ _ _ Hh) as Hi.
    destruct (C59_remove_attribute _ _ _ _ _ true h d it n Hh Hit) as [[Hbad _]|(_ & h' & d' & E & F1 & F2 & F3 & F4)].
    { exfalso. auto. }
    exists h', d'. split; [auto|]. split; [eapply hist_remove; eauto|]. split; [auto|]. split; [auto|]. split.
    - intros a m Ha. destruct (v_valid _ _ _ Hi a Ha) as [x Ex].
      destruct (F3 a x (conj Ha Ex)) as (x' & Ex' & _ & _ & Eg). unfold value. rewrite Ex', Ex. auto.
    - split.
      { unfold remove_attribute in E. destruct (dict_get n (attrs d)); [|discriminate].
        destruct (mem _ _); [|discriminate]. destruct (remove_features h it n) as [h1 e1] eqn:Er.
        replace h' with (fst (remove_features h it n)) by (rewrite Er; cbn; congruence). apply remove_features_length. }
      intros a x Ex. destruct (in_dec Nat.eq_dec a (insts d)) as [Ha|Ha].
      + destruct (F3 a x (conj Ha Ex)) as (x' & Ex' & E1 & E2 & _). exists x'. tauto.
      + exists x. rewrite (F4 a Ha). auto.
  Qed.
  Lemma replace_step (h : heap) d it k n vs :
    history true h d -> Permutation it (insts d) -> has_attribute d n -> length vs = length it ->
    exists h' d',
      (do (h1, d1) <- to_result (remove_attribute h d it n) ; to_result (add_attribute k h1 d1 it n vs)) = Ok (h', d') /\
      history true h' d' /\ insts d' = insts d /\
      (forall m, kind_of d' m = if eqb m n then Some k else kind_of d m) /\
      (forall i a v, nth_error it i = Some a -> nth_error vs i = Some v ->
         forall m, value h' a m = if eqb m n then Some v else value h a m) /\
      only_features d h h'.
  Proof.
    intros Hh Hit Ha Hl. destruct (remove_step h d it n Hh Hit Ha) as (h1 & d1 & E1 & H1 & I1 & K1 & V1 & O1).
    rewrite E1. cbn [to_result bind].
    assert (Hit1 : Permutation it (insts d1)) by (rewrite I1; auto).
    destruct (add_step h1 d1 it k n vs H1 Hit1) as (h2 & d2 & E2 & H2 & I2 & K2 & V2 & O2); auto.
    { unfold has_attribute. rewrite K1, eqb_refl. auto. }
    rewrite E2. cbn [to_result]. exists h2, d2. split; [auto|]. split; [auto|]. split; [congruence|]. split; [|split].
    - intros m. rewrite K2, K1. destruct (eqb m n); auto.
    - intros i a v Ei Ev m. rewrite (V2 i a v Ei Ev), V1.
      + destruct (eqb m n); auto.
      + apply (Permutation_in _ Hit). eapply nth_error_In; eauto.
    - eapply only_features_trans; eauto.
  Qed.

  (** every member has a value for every attribute, among the unique ones *)
  Lemma value_some fresh (h : heap) d a n : history fresh h d -> In a (insts d) -> has_attribute d n ->
    exists v us, value h a n = Some v /\ uniques d n = Some us /\ In v us.
  Proof.
    intros Hh Ha Hn. pose proof (history_inv _ _ _ Hh) as Hi. apply has_attribute_In in Hn.
    destruct (dict_get_key _ _ Hn) as [y Ey]. destruct (v_valid _ _ _ Hi a Ha) as [x Ex].
    apply (v_feats _ _ _ Hi a x (conj Ha Ex)) in Hn. destruct (dict_get_key _ _ Hn) as [v Ev].
    assert (Hv : value h a n = Some v) by (unfold value; rewrite Ex; auto).
    exists v, (auniq y). unfold uniques. rewrite Ey. split; [auto|]. split; [auto|].
    apply (v_uniq _ _ _ Hi n y Ey). eauto.
  Qed.
  Lemma getitem_value (h : heap) a n v : value h a n = Some v -> getitem h n a = Ok v.
  Proof.
    unfold value, getitem. destruct (nth_error h a); cbn; [|discriminate]. intros ->. auto.
  Qed.

  Lemma each_loop k f (d : dataset) (P : list string -> heap -> dataset -> Prop) :
    NoDup (keys (attrs d)) ->
    (forall done n us h1 d1, kind_of d n = Some k -> uniques d n = Some us -> ~ In n done -> P done h1 d1 ->
       exists h2 d2, f h1 d1 n us = Ok (h2, d2) /\ P (n :: done) h2 d2) ->
    (forall done n h1 d1, kind_of d n <> Some k -> P done h1 d1 -> P (n :: done) h1 d1) ->
    forall h, P [] h d ->
    exists h' d' done, each_attribute k f h d = Ok (h', d') /\ P done h' d' /\ forall n, In n done <-> has_attribute d n.
  Proof.
    intros Hn Hf Hskip h HP. unfold each_attribute.
    assert (G : forall l done h1 d1, (forall n y, In (n, y) l -> dict_get n (attrs d) = Some y) ->
      NoDup (keys l) -> (forall n, In n done -> ~ In n (keys l)) -> P done h1 d1 ->
      exists h' d' done', foldM (fun '(h, d) '(n, y) =>
             match akind y, k with
             | Categorical, Categorical | Numerical, Numerical => f h d n (auniq y)
             | _, _ => Ok (h, d)
             end) l (h1, d1) = Ok (h', d') /\ P done' h' d' /\ forall n, In n done' <-> In n done \/ In n (keys l)).
    { induction l as [|[n y] l IH]; intros done h1 d1 Hl Hnd Hdis HP1; cbn [foldM].
      - exists h1, d1, done. split; [auto|]. split; [auto|]. cbn. tauto.
      - change (keys ((n, y) :: l)) with (n :: keys l) in *. inversion Hnd as [|? ? Hni Hnd']; subst.
        assert (Ey : dict_get n (attrs d) = Some y) by (apply Hl; cbn; auto).
        assert (Hstep : exists h2 d2, match akind y, k with
             | Categorical, Categorical | Numerical, Numerical => f h1 d1 n (auniq y)
             | _, _ => Ok (h1, d1)
             end = Ok (h2, d2) /\ P (n :: done) h2 d2).
        { assert (Hd : ~ In n done). { intros Hin. apply (Hdis n Hin). cbn; auto. }
          assert (Hk : kind_of d n = Some (akind y)) by (unfold kind_of; rewrite Ey; auto).
          assert (Hu : uniques d n = Some (auniq y)) by (unfold uniques; rewrite Ey; auto).
          destruct (akind y), k; try (apply Hf; auto; fail); do 2 eexists; (split; [reflexivity|]);
            apply Hskip; auto; rewrite Hk; discriminate. }
        destruct Hstep as (h2 & d2 & E2 & P2). rewrite E2. cbn [bind].
        destruct (IH (n :: done) h2 d2) as (h' & d' & done' & E' & P' & Hd').
        + intros m z Hin. apply Hl. cbn; auto.
        + auto.
        + intros m [<-|Hin]; auto. intros Hin'. apply (Hdis m Hin). cbn; auto.
        + auto.
        + exists h', d', done'. split; [auto|]. split; [auto|]. intros m. rewrite Hd'. cbn [In]. tauto. }
    destruct (G (attrs d) [] h d) as (h' & d' & done & E & HP' & Hd); auto.
    - intros n y Hin. apply dict_In_get; auto.
    - exists h', d', done. split; [auto|]. split; [auto|]. intros n. rewrite Hd, has_attribute_In. cbn. tauto.
  Qed.

  (** ** label encoding *)
  Lemma enum_fold (pv : list V) : forall k m, NoDup pv -> (forall v, In v pv -> dict_get v m = None) ->
    forall v, dict_get v (fold_left (fun m '(v, i) => dict_set v i m) (combine pv (seq k (length pv))) m) =
      match find (fun p => eqb v (fst p)) (combine pv (seq k (length pv))) with
      | Some (_, i) => Some i
      | None => dict_get v m
      end.
  Proof.
    induction pv as [|w pv IH]; intros k m Hn Hm v; cbn [length seq combine fold_left find]; auto.
    inversion Hn; subst. rewrite IH; auto.
    - cbn [fst]. rewrite dict_get_set. destruct (eqb_ok v w) as [->|]; auto.
      destruct (find _ _) as [[u i]|] eqn:E; auto. apply find_some in E. destruct E as [Hin E]. cbn in E.
      apply (proj1 (eqb_eq _ _)) in E. subst u. apply in_combine_l in Hin. contradiction.
    - intros u Hu. rewrite dict_get_set. destruct (eqb_ok u w) as [->|]; [contradiction|]. apply Hm. cbn; auto.
  Qed.
  Lemma enum_fold_nth (pv : list V) k v : NoDup pv -> nth_error pv k = Some v ->
    dict_get v (fold_left (fun m '(v, i) => dict_set v i m) (combine pv (seq 0 (length pv))) []) = Some k.
  Proof.
    intros Hn E. rewrite enum_fold by auto.
    assert (G : forall pv k s v, NoDup pv -> nth_error pv k = Some v ->
      find (fun p : V * nat => eqb v (fst p)) (combine pv (seq s (length pv))) = Some (v, s + k)).
    { clear. induction pv as [|w pv IH]; intros k s v Hn E; [destruct k; discriminate|].
      inversion Hn; subst. cbn [length seq combine find fst]. destruct k; cbn in E.
      - injection E as ->. rewrite eqb_refl. f_equal. f_equal. lia.
      - destruct (eqb_ok v w) as [->|]; [apply nth_error_In in E; contradiction|]. rewrite (IH k) by auto.
        f_equal. f_equal. lia. }
    rewrite (G pv k 0 v Hn E). auto.
  Qed.
End T.

(*P C61 Encoders are faithful *)

(** Label encoding: if the values used for every categorical attribute can be
    sorted and cover the values in the dataset, then every categorical value
    is replaced by its position in the sorted list of values, whether or not
    the attribute was encoded already; numerical attributes, ids, targets,
    kinds and all other objects are unchanged. *)
Lemma C61_label_encoding : forall (I V T : Type) (EI : Base.Eq I) (EV : Base.Eq V) possible
    (sorted : list V -> result (list V)) (ofnat : nat -> V) (isbool : V -> bool) (h : heap I V T) (d : dataset V) it,
  history true h d -> Permutation it (insts d) ->
  (forall n us, kind_of d n = Some Categorical -> uniques d n = Some us ->
     exists s pv, range_of possible d n s /\ sorted s = Ok pv /\ Permutation pv s /\ NoDup s /\ incl us s) ->
  exists h' d', label_encode possible sorted ofnat isbool it h d = Ok (h', d') /\
    history true h' d' /\ insts d' = insts d /\ same_attributes d d' /\ only_features d h h' /\
    (forall a n, In a (insts d) -> kind_of d n = Some Numerical -> value h' a n = value h a n) /\
    (forall a n s pv, In a (insts d) -> kind_of d n = Some Categorical -> range_of possible d n s -> sorted s = Ok pv ->
       exists v k, value h a n = Some v /\ nth_error pv k = Some v /\ value h' a n = Some (ofnat k)).
Proof.
  intros I V T EI EV possible sorted ofnat isbool h d it Hh Hit Hsort.
  pose proof (history_inv _ _ _ Hh) as Hi.
  set (P := fun (done : list string) (h1 : heap I V T) (d1 : dataset V) =>
    history true h1 d1 /\ insts d1 = insts d /\ same_attributes d d1 /\ only_features d h h1 /\
    (forall a n, In a (insts d) -> (~ In n done \/ kind_of d n <> Some Categorical) -> value h1 a n = value h a n) /\
    (forall a n s pv, In a (insts d) -> In n done -> kind_of d n = Some Categorical -> range_of possible d n s -> sorted s = Ok pv ->
       exists v k, value h a n = Some v /\ nth_error pv k = Some v /\ value h1 a n = Some (ofnat k))).
  destruct (each_loop Categorical (label_attribute possible sorted ofnat isbool it) d P) with (h := h)
    as (h' & d' & done & E & (H1 & H2 & H3 & H4 & H5 & H6) & Hdone).
  - apply Hi.
  - intros done n us h1 d1 Hk Hu Hnd (H1 & H2 & H3 & H4 & H5 & H6).
    destruct (Hsort n us Hk Hu) as (s & pv & Hr & Es & Hp & Hs & Hincl).
    assert (Hcand : candidates possible sorted n us = Ok pv).
    { unfold candidates, range_of in *. destruct possible as [m|].
      - rewrite Hr. cbn. auto.
      - rewrite Hu in Hr. injection Hr as ->. auto. }
    assert (Hpv : NoDup pv) by (apply Permutation_NoDup with s; [apply Permutation_sym|]; auto).
    assert (Hha : has_attribute d n) by (unfold has_attribute; rewrite Hk; discriminate).
    assert (Hval : forall a, In a (insts d) -> exists v k, value h a n = Some v /\ nth_error pv k = Some v).
    { intros a Ha. destruct (value_some true h d a n Hh Ha Hha) as (v & us' & Ev & Eu & Hin).
      rewrite Hu in Eu. injection Eu as <-. apply Hincl in Hin. apply (Permutation_in _ (Permutation_sym Hp)) in Hin.
      apply In_nth_error in Hin. destruct Hin as [k Ek]. eauto. }
    assert (Huniq : forall s' pv', range_of possible d n s' -> sorted s' = Ok pv' -> pv' = pv).
    { intros s' pv' Hr' Es'. unfold range_of in *. destruct possible; congruence. }
    unfold label_attribute. rewrite Hcand. cbn [bind].
    destruct (match pv with [] => false | v :: _ => _ end) eqn:Eskip.
    + (* already encoded *)
      exists h1, d1. split; [auto|].
      assert (Epv : pv = map ofnat (seq 0 (length pv))).
      { destruct pv as [|v0 pv0]; [discriminate|]. apply andb_prop in Eskip. destruct Eskip as [Eskip _].
        destruct (list_eqb_ok (v0 :: pv0) (map ofnat (seq 0 (length (v0 :: pv0))))); [auto|discriminate]. }
      split; [auto|]. split; [auto|]. split; [auto|]. split; [auto|]. split.
      * intros a m Ha [Hm|Hm]; apply H5; auto. left. intros Hin. apply Hm. cbn; auto.
      * intros a m s' pv' Ha [<-|Hm] Hkm Hrm Esm; [|eapply H6; eauto].
        rewrite (Huniq s' pv' Hrm Esm). destruct (Hval a Ha) as (v & k & Ev & Ek). exists v, k.
        split; [auto|]. split; [auto|]. rewrite H5 by auto. rewrite Ev. f_equal.
        pose proof (nth_error_Some_lt _ _ _ Ek) as Hlt. rewrite Epv, nth_error_map in Ek.
        rewrite nth_error_nth' with (d:=0) in Ek by (rewrite seq_length; auto). rewrite seq_nth in Ek by auto.
        cbn in Ek. congruence.
    + cbv zeta.
      set (vm := fold_left (fun m '(v, i) => dict_set v i m) (combine pv (seq 0 (length pv))) []).
      destruct (mapM_some (fun a => do v <- getitem h1 n a ; of_option KeyError (dict_get v vm)) it) as (vs & Evs & Fvs).
      { intros a Ha. apply (Permutation_in _ Hit) in Ha. destruct (Hval a Ha) as (v & k & Ev & Ek).
        exists k. rewrite (getitem_value h1 a n v) by (rewrite H5; auto). cbn [bind].
        unfold vm. rewrite (enum_fold_nth pv k v Hpv Ek). auto. }
      rewrite Evs. cbn [bind].
      assert (Hit1 : Permutation it (insts d1)) by (rewrite H2; auto).
      assert (Hlen : length (map ofnat vs) = length it).
      { rewrite map_length. clear - Fvs. induction Fvs; cbn; auto. }
      destruct (replace_step h1 d1 it Categorical n (map ofnat vs) H1 Hit1) as (h2 & d2 & E2 & G1 & G2 & G3 & G4 & G5); auto.
      { unfold has_attribute. rewrite (H3 n), Hk. discriminate. }
      exists h2, d2. split; [exact E2|].
      assert (Hpos : forall a, In a (insts d) -> exists i v k, nth_error it i = Some a /\ value h a n = Some v /\
        nth_error pv k = Some v /\ nth_error (map ofnat vs) i = Some (ofnat k)).
      { intros a Ha. pose proof (Permutation_in _ (Permutation_sym Hit) Ha) as Ha'. apply In_nth_error in Ha'.
        destruct Ha' as [i Ei]. destruct (Forall2_nth_error_l _ _ _ Fvs i a Ei) as (k' & Ek' & Ef).
        destruct (Hval a Ha) as (v & k & Ev & Ek). rewrite (getitem_value h1 a n v) in Ef by (rewrite H5; auto).
        cbn [bind] in Ef. unfold vm in Ef. rewrite (enum_fold_nth pv k v Hpv Ek) in Ef. cbn in Ef. injection Ef as <-.
        exists i, v, k. rewrite nth_error_map, Ek'. auto. }
      split; [auto|]. split; [congruence|]. split; [|split; [|split]].
      * intros m. rewrite G3. destruct (eqb_ok m n) as [->|]; auto.
      * eapply only_features_trans; eauto.
      * intros a m Ha Hm. destruct (Hpos a Ha) as (i & v & k & Ei & Ev & Ek & Eo).
        rewrite (G4 i a _ Ei Eo). destruct (eqb_ok m n) as [->|Hne].
        -- exfalso. destruct Hm as [Hm|Hm]; [apply Hm; cbn; auto|auto].
        -- apply H5; auto. destruct Hm as [Hm|Hm]; auto. left. intros Hin. apply Hm. cbn; auto.
      * intros a m s' pv' Ha Hm Hkm Hrm Esm. destruct (Hpos a Ha) as (i & v & k & Ei & Ev & Ek & Eo).
        rewrite (G4 i a _ Ei Eo). destruct (eqb_ok m n) as [->|Hne].
        -- rewrite (Huniq s' pv' Hrm Esm). exists v, k. auto.
        -- destruct Hm as [Hm|Hm]; [congruence|]. eapply H6; eauto.
  - intros done n h1 d1 Hk (H1 & H2 & H3 & H4 & H5 & H6). split; [auto|]. split; [auto|]. split; [auto|]. split; [auto|]. split.
    + intros a m Ha [Hm|Hm]; apply H5; auto. left. intros Hin. apply Hm. cbn; auto.
    + intros a m s pv Ha [<-|Hm] Hkm; [contradiction|]. intros. eapply H6; eauto.
  - split; [auto|]. split; [auto|]. split; [intros m; auto|]. split; [apply only_features_refl|]. split; auto.
    intros a n s pv Ha [].
  - exists h', d'. split; [exact E|]. split; [auto|]. split; [auto|]. split; [auto|]. split; [auto|]. split.
    + intros a n Ha Hk. apply H5; auto. right. rewrite Hk. discriminate.
    + intros a n s pv Ha Hk Hr Es. eapply H6; eauto. apply Hdone. unfold has_attribute. rewrite Hk. discriminate.
Qed.
