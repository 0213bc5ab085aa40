(** ClassificationDataset: counters (C84) *)
From Coq Require Import Permutation.
From Verif.Model Require Import Base Dataset TargetDatasets.
From Verif.Spec Require Import Lists DatasetSpec TargetSpec.
From Verif.Lib Require Import ListLib DictLib.
From Verif.Proofs Require PetriA.
From Verif.Proofs Require Import DatasetA DatasetB.
Open Scope nat_scope.

Lemma count_of_set {K} `{Eq K} (k k' : K) n d : count_of k' (dict_set k n d) = if eqb k k' then n else count_of k' d.
Proof. unfold count_of. rewrite dict_get_set. destruct (eqb_ok k k'), (eqb_ok k' k); congruence. Qed.
Lemma count_of_bump {K} `{Eq K} (k k' : K) d : count_of k' (bump k d) = count_of k' d + if eqb k k' then 1 else 0.
Proof. unfold bump. rewrite count_of_set. destruct (eqb_ok k k') as [->|]; lia. Qed.
Lemma keys_bump {K} `{Eq K} (k k' : K) (d : dict K nat) : In k' (keys (bump k d)) <-> k' = k \/ In k' (keys d).
Proof. unfold bump. rewrite keys_dict_set_In. tauto. Qed.
Lemma count_of_key {K} `{Eq K} (k : K) d : count_of k d <> 0 -> In k (keys d).
Proof. unfold count_of. destruct (dict_get k d) eqn:E; [|congruence]. intros _. eapply dict_get_Some_key; eauto. Qed.

(** a table of tables *)
Definition cell {K} `{Eq K} (n : string) (k : K) (t : dict string (dict K nat)) : nat := count_of k (fst (look (X := dict K nat) n [] t)).
Lemma cell_set {K} `{Eq K} n m (k : K) r t : cell n k (dict_set m r t) = if eqb m n then count_of k r else cell n k t.
Proof.
  unfold cell, look. rewrite dict_get_set. destruct (eqb_ok n m) as [->|Hn].
  - rewrite eqb_refl. auto.
  - destruct (eqb_ok m n); [congruence|]. destruct (dict_get n t); auto.
Qed.
Lemma cell_del {K} `{Eq K} n m (k : K) t : NoDup (keys t) -> cell n k (dict_del m t) = if eqb m n then 0 else cell n k t.
Proof.
  intros Hn. unfold cell, look. rewrite dict_get_del by auto. destruct (eqb_ok n m) as [->|Hne].
  - rewrite eqb_refl. auto.
  - destruct (eqb_ok m n); [congruence|]. destruct (dict_get n t); auto.
Qed.

Section T.
  Context {I V T : Type} `{Eq I} `{Eq V}.
  Notation heap := (heap I V T).
  Lemma tally_snoc (h : heap) l a x p : nth_error h a = Some x -> tally h (l ++ [a]) p = tally h l p + if p x then 1 else 0.
  Proof. intros E. unfold tally. rewrite filter_app, app_length. cbn [filter]. rewrite E. destruct (p x); auto. Qed.
  Lemma tally_ext (h h' : heap) l p q :
    (forall a, In a l -> match nth_error h a, nth_error h' a with Some x, Some y => p x = q y | None, None => True | _, _ => False end) ->
    tally h l p = tally h' l q.
  Proof.
    intros Hl. unfold tally. f_equal. apply filter_ext_in. intros a Ha. specialize (Hl a Ha).
    destruct (nth_error h a), (nth_error h' a); tauto.
  Qed.
  Lemma tally_zero (h : heap) l p : (forall a x, In a l -> nth_error h a = Some x -> p x = false) -> tally h l p = 0.
  Proof.
    intros Hl. unfold tally. induction l as [|a l IH]; cbn; auto. destruct (nth_error h a) as [x|] eqn:E.
    - rewrite (Hl a x) by (cbn; auto). apply IH. intros; eapply Hl; cbn; eauto.
    - apply IH. intros; eapply Hl; cbn; eauto.
  Qed.
  Lemma tally_pos (h : heap) l p : tally h l p <> 0 <-> exists a x, In a l /\ nth_error h a = Some x /\ p x = true.
  Proof.
    unfold tally. induction l as [|a l IH]; cbn.
    - split; [congruence|]. intros (? & ? & [] & _).
    - destruct (nth_error h a) as [x|] eqn:E; [destruct (p x) eqn:Ep|]; cbn; (split; [intros Hn|]).
      + exists a, x. auto.
      + congruence.
      + apply IH in Hn. destruct Hn as (b & y & ? & ?). exists b, y. auto.
      + intros (b & y & [<-|Hb] & Ey & Py); [congruence|]. apply IH. eauto.
      + apply IH in Hn. destruct Hn as (b & y & ? & ?). exists b, y. auto.
      + intros (b & y & [<-|Hb] & Ey & Py); [congruence|]. apply IH. eauto.
  Qed.
End T.

Section C.
  Context {I V L : Type} {EI : Eq I} {EV : Eq V} {EL : Eq L}.
  Notation heap := (heap I V L).

  Lemma count_attributes_ok (x : inst I V L) ns : forall c : counters V L, NoDup ns -> (forall n, In n ns -> In n (keys (feats x))) ->
    NoDup (keys (by_category c)) -> NoDup (keys (by_category_and_class c)) ->
    exists c', foldM (count_attribute x) ns c = Ok c' /\ by_class c' = by_class c /\
      NoDup (keys (by_category c')) /\ NoDup (keys (by_category_and_class c')) /\
      (forall n v, cell n v (by_category c') = cell n v (by_category c) +
         if mem n ns && eqb (dict_get n (feats x)) (Some v) then 1 else 0) /\
      (forall n v l, cell n (v, l) (by_category_and_class c') = cell n (v, l) (by_category_and_class c) +
         if mem n ns && (eqb (dict_get n (feats x)) (Some v) && eqb (target x) l) then 1 else 0).
  Proof.
    induction ns as [|n ns IH]; intros c Hn Hk Hn1 Hn2; cbn [foldM].
    - exists c. split; [auto|]. split; [auto|]. split; [auto|]. split; [auto|]. cbn. split; intros; lia.
    - inversion Hn as [|? ? Hni Hn']; subst. unfold count_attribute at 1.
      destruct (dict_get_key (feats x) n) as [w Ew]; [apply Hk; cbn; auto|]. rewrite Ew. cbn [of_option bind].
      destruct (IH {| by_category := dict_set n (bump w (fst (look (X := dict V nat) n [] (by_category c)))) (by_category c);
          by_category_and_class := dict_set n (bump (w, target x) (fst (look (X := dict (V * L) nat) n [] (by_category_and_class c)))) (by_category_and_class c);
          by_class := by_class c |}) as (c' & E & F1 & F2 & F3 & F4 & F5); auto.
      { intros m Hm. apply Hk. cbn; auto. }
      { cbn. apply keys_dict_set_NoDup; auto. }
      { cbn. apply keys_dict_set_NoDup; auto. }
      exists c'. split; [exact E|]. split; [exact F1|]. split; [auto|]. split; [auto|].
      assert (Hmem : mem n ns = false) by (apply mem_not_In; auto).
      split.
      + intros m v. rewrite F4. cbn [by_category]. rewrite cell_set. change (mem m (n :: ns)) with (eqb m n || mem m ns).
        destruct (eqb_ok n m) as [<-|Hne].
        * rewrite count_of_bump. unfold cell. rewrite Hmem, eqb_refl, Ew. cbn [orb andb].
          change (eqb (Some w) (Some v)) with (eqb w v). lia.
        * destruct (eqb_ok m n); [congruence|]. auto.
      + intros m v l. rewrite F5. cbn [by_category_and_class]. rewrite cell_set. change (mem m (n :: ns)) with (eqb m n || mem m ns).
        destruct (eqb_ok n m) as [<-|Hne].
        * rewrite count_of_bump. unfold cell. rewrite Hmem, eqb_refl, Ew. cbn [orb andb].
          change (eqb (Some w) (Some v)) with (eqb w v). change (eqb (w, target x) (v, l)) with (eqb w v && eqb (target x) l). lia.
        * destruct (eqb_ok m n); [congruence|]. auto.
  Qed.

  Definition p_cat (n : string) (v : V) (x : inst I V L) : bool := eqb (dict_get n (feats x)) (Some v).
  Definition p_both (n : string) (v : V) (l : L) (x : inst I V L) : bool := eqb (dict_get n (feats x)) (Some v) && eqb (target x) l.

  Record cinv (h : heap) (d : dataset V) (c : counters V L) (since : dict string nat) (asked : list L) : Prop := {
    c_hist : history true h d;
    c_since : forall n, joined since n <= length (insts d);
    c_nd1 : NoDup (keys (by_category c));
    c_nd2 : NoDup (keys (by_category_and_class c));
    c_nd3 : NoDup (keys (by_class c));
    c_class : forall l, count_of l (by_class c) = tally h (insts d) (fun x => eqb (target x) l);
    c_classes : forall l, In l (keys (by_class c)) <-> In l asked \/ exists a x, member h d a x /\ target x = l;
    c_cat : forall n v, cell n v (by_category c) =
      if mem n (cats d) then tally h (skipn (joined since n) (insts d)) (p_cat n v) else 0;
    c_both : forall n v l, cell n (v, l) (by_category_and_class c) =
      if mem n (cats d) then tally h (skipn (joined since n) (insts d)) (p_both n v l) else 0
  }.
  Lemma skipn_In {X} k (l : list X) x : In x (skipn k l) -> In x l.
  Proof. rewrite <- (firstn_skipn k l) at 2. intros; apply in_or_app; auto. Qed.
  Lemma cinv_new (h : heap) cs ns : proper h -> NoDup (cs ++ ns) -> cinv h (new cs ns) no_counts [] [].
  Proof.
    intros Hp Hn. destruct (new_ok (V:=V) cs ns) as (E1 & E2 & E3 & E4 & E5).
    constructor; cbn [no_counts by_category by_category_and_class by_class keys map]; rewrite ?E1, ?E2; try (apply NoDup_nil).
    - apply hist_new; auto.
    - intros n. apply Nat.le_0_l.
    - reflexivity.
    - intros l. split; [intros []|]. intros [[]|(a & x & [Ha _] & _)]. rewrite E1 in Ha. destruct Ha.
    - intros n v. destruct (mem n cs); auto.
    - intros n v l. destruct (mem n cs); auto.
  Qed.
  (** same members with, per attribute in use and target, the same values *)
  Lemma cinv_change (h h' : heap) d d' c c' since since' asked :
    cinv h d c since asked -> history true h' d' -> insts d' = insts d -> by_class c' = by_class c ->
    NoDup (keys (by_category c')) -> NoDup (keys (by_category_and_class c')) ->
    (forall n, joined since' n <= length (insts d)) ->
    (forall n, (forall v, cell n v (by_category c') = cell n v (by_category c)) /\
               (forall v l, cell n (v, l) (by_category_and_class c') = cell n (v, l) (by_category_and_class c)) /\
               mem n (cats d') = mem n (cats d) /\ joined since' n = joined since n /\
               (forall a x, member h d a x -> exists x', nth_error h' a = Some x' /\ dict_get n (feats x') = dict_get n (feats x)) \/
               (forall v, cell n v (by_category c') = 0) /\ (forall v l, cell n (v, l) (by_category_and_class c') = 0) /\
               (mem n (cats d') = false \/ joined since' n = length (insts d))) ->
    (forall a x, member h d a x -> exists x', nth_error h' a = Some x' /\ target x' = target x) ->
    cinv h' d' c' since' asked.
  Proof.
    intros Hc Hh Hi Hcl Hn1 Hn2 Hs Hv Ht. pose proof (history_inv _ _ _ (c_hist _ _ _ _ _ Hc)) as Hinv.
    assert (Hval : forall a, In a (insts d) -> exists x x', nth_error h a = Some x /\ nth_error h' a = Some x' /\ target x' = target x).
    { intros a Ha. destruct (v_valid _ _ _ Hinv a Ha) as [x Ex]. destruct (Ht a x (conj Ha Ex)) as (x' & Ex' & Et). eauto 6. }
    constructor; auto; rewrite ?Hi, ?Hcl; auto.
    - apply (c_nd3 _ _ _ _ _ Hc).
    - intros l. rewrite (c_class _ _ _ _ _ Hc). apply tally_ext. intros a Ha. destruct (Hval a Ha) as (x & x' & -> & -> & ->). auto.
    - intros l. rewrite (c_classes _ _ _ _ _ Hc). split; intros [?|(a & x & [Ha Ex] & El)]; auto; right.
      + destruct (Ht a x (conj Ha Ex)) as (x' & Ex' & Et). exists a, x'. split; [split; [rewrite Hi; auto|auto]|congruence].
      + rewrite Hi in Ha. destruct (Hval a Ha) as (y & y' & Ey & Ey' & Et). exists a, y. split; [split; auto|congruence].
    - intros n v. destruct (Hv n) as [(Ec & _ & Em & Ej & Ef)|(Ec & _ & Em)].
      + rewrite Ec, (c_cat _ _ _ _ _ Hc), Em, Ej. destruct (mem n (cats d)); auto. apply tally_ext. intros a Ha%skipn_In.
        destruct (Hval a Ha) as (x & x' & Ex & Ex' & _). rewrite Ex, Ex'. unfold p_cat.
        destruct (Ef a x (conj Ha Ex)) as (x2 & E2 & <-). congruence.
      + rewrite Ec. destruct Em as [->| ->]; auto. rewrite skipn_all. destruct (mem n (cats d')); auto.
    - intros n v l. destruct (Hv n) as [(_ & Ec & Em & Ej & Ef)|(_ & Ec & Em)].
      + rewrite Ec, (c_both _ _ _ _ _ Hc), Em, Ej. destruct (mem n (cats d)); auto. apply tally_ext. intros a Ha%skipn_In.
        destruct (Hval a Ha) as (x & x' & Ex & Ex' & Et). rewrite Ex, Ex'. unfold p_both. rewrite Et.
        destruct (Ef a x (conj Ha Ex)) as (x2 & E2 & <-). congruence.
      + rewrite Ec. destruct Em as [->| ->]; auto. rewrite skipn_all. destruct (mem n (cats d')); auto.
  Qed.
  Lemma class_add_ok (h : heap) d c d' a since asked :
    cinv h d c since asked -> add_instance h d a = Ok d' ->
    exists c', class_add h (d, c) a = Ok (d', c') /\ cinv h d' c' since asked.
  Proof.
    intros Hc E. pose proof (history_inv _ _ _ (c_hist _ _ _ _ _ Hc)) as Hinv.
    destruct (add_instance_Ok _ _ _ _ E) as (x & Ex & Hk & Hid).
    destruct (add_instance_ok h d a x Ex Hk Hid) as (d1 & E1 & F1 & F2 & F3 & F4 & F5).
    rewrite E in E1. injection E1 as <-.
    destruct (v_fresh _ _ _ Hinv eq_refl) as [Hnd Hin].
    destruct (count_attributes_ok x (cats d') {| by_category := by_category c; by_category_and_class := by_category_and_class c;
                by_class := bump (target x) (by_class c) |}) as (c' & Ec & G1 & G2 & G3 & G4 & G5); cbn.
    { rewrite F2. eapply PetriA.NoDup_app_l; eauto. }
    { intros n Hn. rewrite F2 in Hn. apply Hk. apply Hin. apply in_or_app; auto. }
    { apply (c_nd1 _ _ _ _ _ Hc). } { apply (c_nd2 _ _ _ _ _ Hc). }
    exists c'. unfold class_add. cbn [fst snd]. rewrite E. cbn [bind]. rewrite Ex. cbn [of_option bind]. cbv zeta. rewrite Ec. cbn [bind].
    split; [reflexivity|].
    assert (Hsk : forall n, skipn (joined since n) (insts d') = skipn (joined since n) (insts d) ++ [a]).
    { intros n. rewrite F1, skipn_app. pose proof (c_since _ _ _ _ _ Hc n).
      replace (joined since n - length (insts d)) with 0 by lia. auto. }
    constructor; auto.
    - eapply hist_add; [apply (c_hist _ _ _ _ _ Hc)|exact E].
    - intros n. rewrite F1, app_length. pose proof (c_since _ _ _ _ _ Hc n). lia.
    - rewrite G1. apply keys_dict_set_NoDup. apply (c_nd3 _ _ _ _ _ Hc).
    - intros l. rewrite G1. cbn [by_class]. rewrite count_of_bump, (c_class _ _ _ _ _ Hc), F1, (tally_snoc h _ a x) by auto. auto.
    - intros l. rewrite G1. cbn [by_class]. rewrite keys_bump, (c_classes _ _ _ _ _ Hc). split.
      + intros [->|[?|(b & y & [Hb Ey] & El)]]; auto; right.
        * exists a, x. split; auto. split; auto. rewrite F1. apply in_or_app; cbn; auto.
        * exists b, y. split; auto. split; auto. rewrite F1. apply in_or_app; auto.
      + intros [?|(b & y & [Hb Ey] & El)]; auto. rewrite F1 in Hb. apply in_app_or in Hb. destruct Hb as [Hb|[<-|[]]].
        * right; right. exists b, y. split; auto. split; auto.
        * left. congruence.
    - intros n v. rewrite G4. cbn [by_category]. rewrite (c_cat _ _ _ _ _ Hc), F2, Hsk, (tally_snoc h _ a x) by auto.
      destruct (mem n (cats d)); cbn [andb]; auto.
    - intros n v l. rewrite G5. cbn [by_category_and_class]. rewrite (c_both _ _ _ _ _ Hc), F2, Hsk, (tally_snoc h _ a x) by auto.
      destruct (mem n (cats d)); cbn [andb]; auto.
  Qed.
End C.
