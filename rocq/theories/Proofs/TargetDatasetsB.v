(** ClassificationDataset: every history (C84) *)
From Coq Require Import Permutation.
From Verif.Model Require Import Base Dataset TargetDatasets.
From Verif.Spec Require Import Lists DatasetSpec TargetSpec.
From Verif.Lib Require Import ListLib DictLib.
From Verif.Proofs Require PetriA.
From Verif.Proofs Require Import DatasetA DatasetB TargetDatasetsA.
Open Scope nat_scope.

Lemma look_count {K} `{Eq K} (k : K) d : fst (look k 0 d) = count_of k d /\
  (forall k', count_of k' (snd (look k 0 d)) = count_of k' d) /\
  (NoDup (keys d) -> NoDup (keys (snd (look k 0 d)))) /\
  (forall k', In k' (keys (snd (look k 0 d))) <-> k' = k \/ In k' (keys d)).
Proof.
  unfold look. destruct (dict_get k d) as [n|] eqn:E; cbn [fst snd].
  - unfold count_of at 1. rewrite E. split; [auto|]. split; [auto|]. split; [auto|].
    intros k'. split; auto. intros [->|]; auto. eapply dict_get_Some_key; eauto.
  - unfold count_of at 1. rewrite E. split; [auto|]. split; [|split].
    + intros k'. rewrite count_of_set. destruct (eqb_ok k k') as [<-|]; auto. unfold count_of. rewrite E. auto.
    + apply keys_dict_set_NoDup.
    + intros k'. apply keys_dict_set_In.
Qed.
Lemma ask_table {K} `{Eq K} n (k : K) (t : dict string (dict K nat)) :
  let '(inner, outer) := look (X := dict K nat) n [] t in
  let '(r, inner') := look k 0 inner in
  r = cell n k t /\ (forall m k', cell m k' (dict_set n inner' outer) = cell m k' t) /\
  (NoDup (keys t) -> NoDup (keys (dict_set n inner' outer))).
Proof.
  destruct (look (X := dict K nat) n [] t) as [inner outer] eqn:E1. destruct (look k 0 inner) as [r inner'] eqn:E2.
  pose proof (look_count k inner) as (A & B & _). rewrite E2 in A, B. cbn [fst snd] in A, B.
  assert (Ei : inner = fst (look (X := dict K nat) n [] t)) by (rewrite E1; auto).
  assert (Ho : outer = t \/ outer = dict_set (V := dict K nat) n [] t /\ dict_get n t = None).
  { unfold look in E1. destruct (dict_get n t) eqn:E; injection E1 as <- <-; auto. }
  split; [unfold cell; rewrite <- Ei; auto|]. split.
  - intros m k'. rewrite cell_set. destruct (eqb_ok n m) as [<-|Hne].
    + rewrite B, Ei. reflexivity.
    + destruct Ho as [->|[-> _]]; auto. rewrite cell_set. destruct (eqb_ok n m); congruence.
  - intros Hn. apply keys_dict_set_NoDup. destruct Ho as [->|[-> _]]; auto. apply keys_dict_set_NoDup; auto.
Qed.

Section C.
  Context {I V L : Type} {EI : Eq I} {EV : Eq V} {EL : Eq L}.
  Notation heap := (heap I V L).
  Lemma kept_untouched (d : dataset V) (h h' : heap) : members_kept d h h' -> untouched d h h'.
  Proof. intros Hk a x [Ha Ex]. exists x. rewrite (Hk a Ha). auto. Qed.
  Lemma not_cat (h : heap) d n : inv true h d -> ~ In n (keys (attrs d)) -> mem n (cats d) = false.
  Proof.
    intros Hi Hn. apply mem_not_In. intros Hc. apply Hn. apply (proj2 (v_fresh _ _ _ Hi eq_refl)). apply in_or_app; auto.
  Qed.
  Lemma class_history_inv (h : heap) D since asked :
    class_history h D since asked -> cinv h (fst D) (snd D) since asked.
  Proof.
    induction 1 as [h cs ns Hp Hn|h h' D since asked Hh IH Hp Hk|h D a D' since asked Hh IH E|
      h D it n h' D' e since asked Hh IH Hit E|h d c it k n vs h' d' since asked Hh IH Hit Hna E|
      h d c n v since asked Hh IH|h d c n v l since asked Hh IH|h d c l since asked Hh IH]; cbn [fst snd] in *.
    - apply cinv_new; auto.
    - eapply cinv_change; try exact IH; auto; try apply IH.
      + eapply hist_other; [apply IH|auto|]. apply kept_untouched; auto.
      + intros n. left. repeat (split; [auto|]). intros a x [Ha Ex]. exists x. rewrite (Hk a Ha). auto.
      + intros a x [Ha Ex]. exists x. rewrite (Hk a Ha). auto.
    - destruct D as [d c]. cbn [fst snd] in *. destruct (add_instance h d a) as [d'|] eqn:Ea.
      2:{ unfold class_add in E. cbn [fst] in E. rewrite Ea in E. discriminate. }
      destruct (class_add_ok h d c d' a since asked IH Ea) as (c' & E' & Hc). rewrite E in E'. injection E' as ->. auto.
    - destruct D as [d c]. cbn [fst snd] in *. unfold class_remove_attribute in E. cbn [fst snd] in E.
      pose proof (history_inv _ _ _ (c_hist _ _ _ _ _ IH)) as Hinv.
      destruct (dict_get n (attrs d)) as [y|] eqn:Ey.
      2:{ unfold remove_attribute in E. rewrite Ey in E. injection E as <- <- <-. auto. }
      destruct (remove_attribute_ok true h d it n y Hinv Hit Ey) as (h1 & d1 & E1 & F1 & F2 & F3 & F4 & F5).
      rewrite E1 in E. injection E as <- <- <-. cbn [fst snd].
      destruct (v_fresh _ _ _ Hinv eq_refl) as [Hnd Hin].
      assert (Hnc : NoDup (cats d)) by (eapply PetriA.NoDup_app_l; eauto).
      assert (Hcat : forall m, mem m (cats d1) = if eqb n m then false else mem m (cats d)).
      { intros m. rewrite F3. pose proof (v_lists _ _ _ Hinv n y Ey) as Hl. destruct (akind y).
        - destruct (eqb_ok n m) as [<-|Hne].
          + apply mem_not_In. rewrite remove_first_iff by auto. tauto.
          + destruct (mem m (cats d)) eqn:Em.
            * apply mem_In. apply remove_first_iff; auto. split; auto. apply mem_In; auto.
            * apply mem_not_In. rewrite remove_first_iff by auto. intros [_ Hm]. apply mem_not_In in Em. auto.
        - destruct (eqb_ok n m) as [<-|Hne]; auto. apply mem_not_In. intros Hc.
          clear -Hnd Hc Hl. induction (cats d) as [|z zs IHz]; cbn in *; [tauto|]. inversion Hnd; subst.
          destruct Hc as [->|Hc]; auto. apply H1. apply in_or_app; auto. }
      eapply cinv_change; try exact IH; auto.
      + eapply hist_remove; [apply IH|exact Hit|exact E1].
      + cbn. apply keys_dict_del_NoDup. apply IH.
      + cbn. apply keys_dict_del_NoDup. apply IH.
      + apply IH.
      + cbn [by_category by_category_and_class]. intros m. destruct (eqb_ok n m) as [<-|Hne]; [right|left].
        * split; [|split].
          -- intros v. rewrite cell_del by apply IH. rewrite eqb_refl. auto.
          -- intros v l. rewrite cell_del by apply IH. rewrite eqb_refl. auto.
          -- left. rewrite Hcat, eqb_refl. auto.
        * split; [|split; [|split; [|split; [auto|]]]].
          -- intros v. rewrite cell_del by apply IH. destruct (eqb_ok n m); congruence.
          -- intros v l. rewrite cell_del by apply IH. destruct (eqb_ok n m); congruence.
          -- rewrite Hcat. destruct (eqb_ok n m); congruence.
          -- intros a x [Ha Ex]. rewrite F5. rewrite Ex. cbn [option_map].
             destruct (existsb (Nat.eqb a) it); eexists; (split; [reflexivity|]); auto.
             cbn [with_feats feats]. rewrite dict_get_del by (eapply (v_proper _ _ _ Hinv); eauto).
             destruct (eqb_ok m n); congruence.
      + intros a x [Ha Ex]. rewrite F5, Ex. cbn [option_map]. destruct (existsb (Nat.eqb a) it); eauto.
    - pose proof (history_inv _ _ _ (c_hist _ _ _ _ _ IH)) as Hinv. rewrite has_attribute_In in Hna.
      assert (Hl : length (insts d) = length vs).
      { unfold add_attribute in E. destruct (Nat.eqb_spec (length (insts d)) (length vs)); auto. discriminate. }
      destruct (add_attribute_ok true h d it k n vs Hinv Hit Hl) as (h1 & d1 & E1 & F1 & F2 & F3 & F4 & F5 & F6).
      rewrite E1 in E. injection E as <- <-.
      assert (Hval : forall a x, member h d a x -> exists v, nth_error h1 a = Some (with_feats (dict_set n v (feats x)) x)).
      { intros a x [Ha Ex]. assert (Ha' : In a it) by (eapply Permutation_in; [apply Permutation_sym; exact Hit|auto]).
        apply In_nth_error in Ha'. destruct Ha' as [i Ei].
        assert (Hi : i < length vs).
        { rewrite <- Hl, <- (Permutation_length Hit). apply nth_error_Some. congruence. }
        destruct (nth_error vs i) as [v|] eqn:Ev; [|apply nth_error_None in Ev; lia].
        exists v. rewrite (F5 i a v Ei Ev), Ex. auto. }
      pose proof (not_cat h d n Hinv Hna) as Hnc.
      eapply cinv_change; try exact IH; auto; try apply IH.
      + exact (hist_attribute true h d it k n vs h1 d1 None (c_hist _ _ _ _ _ IH) Hit (fun _ Q => Hna (proj1 (has_attribute_In d n) Q)) E1).
      + intros m. destruct k; [|apply IH]. unfold joined. rewrite dict_get_set. destruct (eqb m n); auto. apply IH.
      + intros m. destruct (eqb_ok m n) as [->|Hne]; [right|left].
        * split; [|split].
          -- intros v. rewrite (c_cat _ _ _ _ _ IH), Hnc. auto.
          -- intros v l. rewrite (c_both _ _ _ _ _ IH), Hnc. auto.
          -- rewrite F3. destruct k; [right|left; auto]. unfold joined. rewrite dict_get_set, eqb_refl. auto.
        * split; [auto|]. split; [auto|]. split; [|split].
          -- rewrite F3. destruct k; auto. destruct (mem m (cats d)) eqn:Em.
             ++ apply mem_In. apply in_or_app. left. apply mem_In; auto.
             ++ apply mem_not_In. intros Hin. apply in_app_or in Hin. destruct Hin as [Hin|[->|[]]]; [|congruence].
                apply mem_not_In in Em. auto.
          -- destruct k; auto. unfold joined. rewrite dict_get_set. destruct (eqb_ok m n); congruence.
          -- intros a x Hm. destruct (Hval a x Hm) as [v Ev]. eexists; split; [exact Ev|]. cbn [with_feats feats].
             rewrite dict_get_set. destruct (eqb_ok m n); congruence.
      + intros a x Hm. destruct (Hval a x Hm) as [v Ev]. eexists; split; [exact Ev|]. auto.
    - pose proof (ask_table n v (by_category c)) as Q. unfold get_count_for_category.
      destruct (look (X := dict V nat) n [] (by_category c)) as [inner outer]. destruct (look v 0 inner) as [r inner']. destruct Q as (_ & Q1 & Q2).
      cbn [snd]. destruct IH. constructor; cbn [by_category by_category_and_class by_class]; auto.
      intros m w. rewrite Q1. auto.
    - pose proof (ask_table n (v, l) (by_category_and_class c)) as Q. unfold get_count_for_category_and_class.
      destruct (look (X := dict (V * L) nat) n [] (by_category_and_class c)) as [inner outer]. destruct (look (v, l) 0 inner) as [r inner']. destruct Q as (_ & Q1 & Q2).
      cbn [snd]. destruct IH. constructor; cbn [by_category by_category_and_class by_class]; auto.
      intros m w k. rewrite Q1. auto.
    - pose proof (look_count l (by_class c)) as (_ & Q1 & Q2 & Q3). unfold get_class_count.
      destruct (look l 0 (by_class c)) as [r outer]. cbn [snd] in *.
      destruct IH. constructor; cbn [by_category by_category_and_class by_class]; auto.
      + intros k. rewrite Q1. auto.
      + intros k. rewrite Q3, c_classes. cbn [In]. intuition.
  Qed.
End C.

(*P C84 ClassificationDataset counts *)
(** get_class_count is the number of instances with this class label. *)
Lemma C84_class_count : forall (I V L : Type) (EI : Eq I) (EV : Eq V) (EL : Eq L) (h : heap I V L) d c since asked l,
  class_history h (d, c) since asked ->
  fst (get_class_count c l) = tally h (insts d) (fun x => eqb (target x) l).
Proof.
  intros I V L EI EV EL h d c since asked l Hh. apply class_history_inv in Hh. cbn [fst snd] in Hh.
  rewrite <- (c_class _ _ _ _ _ Hh). pose proof (look_count l (by_class c)) as (A & _).
  unfold get_class_count. destruct (look l 0 (by_class c)); cbn [fst] in *. auto.
Qed.
(** get_count_for_category is the number of instances with this value among
    those that were added after the attribute: all instances for the
    attributes given to the constructor, and no instance for a name that is
    not a categorical attribute. *)
Lemma C84_category_count : forall (I V L : Type) (EI : Eq I) (EV : Eq V) (EL : Eq L) (h : heap I V L) d c since asked n v,
  class_history h (d, c) since asked ->
  fst (get_count_for_category c n v) =
    if mem n (cats d)
    then tally h (skipn (joined since n) (insts d)) (fun x => eqb (dict_get n (feats x)) (Some v))
    else 0.
Proof.
  intros I V L EI EV EL h d c since asked n v Hh. apply class_history_inv in Hh. cbn [fst snd] in Hh.
  pose proof (c_cat _ _ _ _ _ Hh n v) as G. unfold p_cat in G. rewrite <- G. pose proof (ask_table n v (by_category c)) as Q.
  unfold get_count_for_category. destruct (look (X := dict V nat) n [] (by_category c)); destruct (look v 0 d0); cbn [fst]. apply Q.
Qed.
Lemma C84_category_and_class_count : forall (I V L : Type) (EI : Eq I) (EV : Eq V) (EL : Eq L) (h : heap I V L) d c since asked n v l,
  class_history h (d, c) since asked ->
  fst (get_count_for_category_and_class c n v l) =
    if mem n (cats d)
    then tally h (skipn (joined since n) (insts d)) (fun x => eqb (dict_get n (feats x)) (Some v) && eqb (target x) l)
    else 0.
Proof.
  intros I V L EI EV EL h d c since asked n v l Hh. apply class_history_inv in Hh. cbn [fst snd] in Hh.
  pose proof (c_both _ _ _ _ _ Hh n v l) as G. unfold p_both in G. rewrite <- G. pose proof (ask_table n (v, l) (by_category_and_class c)) as Q.
  unfold get_count_for_category_and_class. destruct (look (X := dict (V * L) nat) n [] (by_category_and_class c)); destruct (look (v, l) 0 d0); cbn [fst]. apply Q.
Qed.
(** get_set_of_classes lists, each once, the classes of the instances and
    every label that get_class_count was ever asked for. *)
Lemma C84_set_of_classes : forall (I V L : Type) (EI : Eq I) (EV : Eq V) (EL : Eq L) (h : heap I V L) d c since asked,
  class_history h (d, c) since asked ->
  NoDup (get_set_of_classes c) /\
  forall l, In l (get_set_of_classes c) <-> In l asked \/ exists a x, member h d a x /\ target x = l.
Proof.
  intros I V L EI EV EL h d c since asked Hh. apply class_history_inv in Hh. cbn [fst snd] in Hh.
  split; [apply (c_nd3 _ _ _ _ _ Hh)|apply (c_classes _ _ _ _ _ Hh)].
Qed.
(** A sub-dataset (also the two parts of split, a random subset and the
    groups of group_by, which are built the same way) is a
    ClassificationDataset whose counts cover all its instances. *)
Lemma C84_subdataset : forall (I V L : Type) (EI : Eq I) (EV : Eq V) (EL : Eq L) (h : heap I V L) D since asked l,
  class_history h D since asked -> NoDup l -> incl l (insts (fst D)) ->
  exists s c, class_subdataset h D l = Ok (s, c) /\ get_subdataset h (fst D) l = Ok s /\ class_history h (s, c) [] [].
Proof.
  intros I V L EI EV EL h [d c] since asked l Hh Hn Hl. apply class_history_inv in Hh. cbn [fst snd] in *.
  pose proof (c_hist _ _ _ _ _ Hh) as Hd. pose proof (history_inv _ _ _ Hd) as Hinv.
  destruct (sub_part h d l Hd Hn Hl) as (s & Es & _). unfold class_subdataset, get_subdataset in *. cbn [fst].
  assert (G : forall l s0 c0 s, class_history h (s0, c0) [] [] -> foldM (add_instance h) l s0 = Ok s ->
     exists c, foldM (class_add h) l (s0, c0) = Ok (s, c) /\ class_history h (s, c) [] []).
  { clear - h. induction l as [|a l IH]; intros s0 c0 s Hs E; cbn [foldM] in *.
    - injection E as <-. eauto.
    - destruct (add_instance h s0 a) as [s1|] eqn:E1; cbn [bind] in E; [|discriminate].
      destruct (class_add_ok h s0 c0 s1 a [] [] (class_history_inv _ _ _ _ Hs) E1) as (c1 & E2 & _).
      rewrite E2. cbn [bind]. apply IH; auto. eapply cl_add; eauto. }
  destruct (G l (new (cats d) (nums d)) no_counts s) as (c' & E' & Hc'); auto.
  - apply (cl_new h (cats d) (nums d)); [apply Hinv|]. apply (v_fresh _ _ _ Hinv eq_refl).
  - exists s, c'. auto.
Qed.
