(** Generic list lemmas. *)
From Verif.Model Require Import Base.
From Verif.Spec Require Import Lists.
From Coq Require Import Permutation.
From Coq Require Export ZifyBool ZifyNat.
Ltac Zify.zify_post_hook ::= Z.div_mod_to_equations.

Lemma eqb_refl {A} `{Eq A} x : eqb x x = true.
Proof. destruct (eqb_ok x x); congruence. Qed.
Lemma eqb_eq {A} `{Eq A} x y : eqb x y = true <-> x = y.
Proof. destruct (eqb_ok x y); split; congruence. Qed.
Lemma eqb_neq {A} `{Eq A} x y : eqb x y = false <-> x <> y.
Proof. destruct (eqb_ok x y); split; congruence. Qed.
Lemma eq_dec_of {A} `{Eq A} (x y : A) : {x = y} + {x <> y}.
Proof. destruct (eqb_ok x y); auto. Qed.

Lemma mem_In {A} `{Eq A} x l : mem x l = true <-> In x l.
Proof.
  unfold mem; rewrite existsb_exists; split.
  - intros [y [Hy E]]. destruct (eqb_ok x y) as [->|Hn]; [auto|discriminate].
  - intros Hx; exists x; split; auto. apply eqb_refl.
Qed.
Lemma mem_not_In {A} `{Eq A} x l : mem x l = false <-> ~ In x l.
Proof. rewrite <- mem_In. destruct (mem x l); split; congruence. Qed.

Lemma nth_error_ext {A} (l m : list A) :
  (forall i, nth_error l i = nth_error m i) -> l = m.
Proof.
  revert m; induction l as [|a l IH]; intros [|b m] E; auto.
  - specialize (E 0); discriminate.
  - specialize (E 0); discriminate.
  - pose proof (E 0) as E0; cbn in E0; injection E0 as ->. f_equal.
    apply IH; intros i; apply (E (S i)).
Qed.

Lemma nth_error_skipn {A} (l : list A) n i : nth_error (skipn n l) i = nth_error l (n + i).
Proof.
  revert l; induction n as [|n IH]; intros l; cbn; auto.
  destruct l as [|a l]; auto. destruct i; auto.
Qed.
Lemma nth_error_firstn {A} (l : list A) n i :
  nth_error (firstn n l) i = if i <? n then nth_error l i else None.
Proof.
  revert l i; induction n as [|n IH]; intros l i; cbn.
  - destruct i; reflexivity.
  - destruct l as [|a l]; cbn.
    + replace (nth_error (@nil A) i) with (@None A) by (destruct i; auto). destruct i as [|i]; auto. destruct (S i <=? n); auto.
    + destruct i as [|i]; cbn; auto. rewrite IH. reflexivity.
Qed.
Lemma nth_error_lt {A} (l : list A) i : i < length l -> exists x, nth_error l i = Some x.
Proof.
  intros Hi. destruct (nth_error l i) eqn:E; eauto.
  apply nth_error_None in E; lia.
Qed.
Lemma nth_error_Some_lt {A} (l : list A) i x : nth_error l i = Some x -> i < length l.
Proof. intros E. apply nth_error_Some. congruence. Qed.

Lemma occurs_at_iff {A} (s l : list A) k :
  occurs_at s l k <->
  k + length s <= length l /\ forall i, i < length s -> nth_error l (k + i) = nth_error s i.
Proof.
  split.
  - intros (pre & post & -> & <-). rewrite !app_length. split; [lia|].
    intros i Hi. rewrite nth_error_app2 by lia.
    replace (length pre + i - length pre) with i by lia.
    rewrite nth_error_app1 by lia; auto.
  - intros [Hlen Hn].
    exists (firstn k l), (skipn (k + length s) l). split.
    + apply nth_error_ext; intros i.
      destruct (lt_dec i k) as [Hi|Hi].
      { rewrite nth_error_app1 by (rewrite firstn_length; lia).
        rewrite nth_error_firstn. destruct (Nat.ltb_spec i k); auto; lia. }
      rewrite nth_error_app2 by (rewrite firstn_length; lia).
      rewrite firstn_length, Nat.min_l by lia.
      destruct (lt_dec (i - k) (length s)) as [Hj|Hj].
      { rewrite nth_error_app1 by lia. rewrite <- Hn by lia. f_equal; lia. }
      rewrite nth_error_app2 by lia. rewrite nth_error_skipn. f_equal; lia.
    + rewrite firstn_length; lia.
Qed.

Lemma occurs_at_nil {A} (l : list A) k : occurs_at [] l k <-> k <= length l.
Proof.
  rewrite occurs_at_iff; cbn. split; [lia|]. intros Hk; split; [lia|]. intros; lia.
Qed.
Lemma occurs_at_bound {A} (s l : list A) k : occurs_at s l k -> k + length s <= length l.
Proof. rewrite occurs_at_iff; tauto. Qed.
Lemma occurs_at_skipn {A} (s l : list A) n k :
  n <= length l -> occurs_at s (skipn n l) k <-> occurs_at s l (n + k).
Proof.
  intros Hn. rewrite !occurs_at_iff, skipn_length. split; intros [H1 H2]; split; try lia;
    intros i Hi; specialize (H2 i Hi); rewrite ?nth_error_skipn in *;
    rewrite <- H2; f_equal; lia.
Qed.

Lemma list_set_spec {A} (l : list A) i v :
  i < length l ->
  exists l', list_set l i v = Some l' /\ length l' = length l /\
    forall k, nth_error l' k = if k =? i then Some v else nth_error l k.
Proof.
  revert i; induction l as [|a l IH]; intros i Hi; cbn in *; [lia|].
  destruct i as [|i].
  - exists (v :: l); repeat split; auto. intros [|k]; auto.
  - destruct (IH i) as (l' & E & Hl & Hk); [lia|]. rewrite E; cbn.
    exists (a :: l'); repeat split; cbn; auto. intros [|k]; cbn; auto.
Qed.

Lemma slice_length {A} (l : list A) i j : length (slice l i j) = Nat.min (j - i) (length l - i).
Proof. unfold slice. rewrite firstn_length, skipn_length; auto. Qed.

Lemma dict_get_set {K V} `{Eq K} k k' (v : V) d :
  dict_get k (dict_set k' v d) = if eqb k k' then Some v else dict_get k d.
Proof.
  induction d as [|[k0 v0] d IH]; cbn.
  - reflexivity.
  - destruct (eqb_ok k' k0) as [->|Hn]; cbn.
    + destruct (eqb_ok k k0); auto.
    + rewrite IH. destruct (eqb_ok k k0) as [->|Hn']; auto.
      destruct (eqb_ok k0 k'); congruence.
Qed.

Lemma ascending_cons_iff x l : ascending (x :: l) <-> (forall y, In y l -> x < y) /\ ascending l.
Proof.
  revert x; induction l as [|z l IH]; intros x.
  - split; [intros _; split; [intros y []|constructor]|constructor].
  - split.
    + intros Hs; inversion Hs; subst. split; auto. intros y [->|Hy]; auto.
      apply IH in H3 as [H3 _]. specialize (H3 _ Hy). lia.
    + intros [H1 H2]. constructor; auto. apply H1; left; auto.
Qed.
Lemma ascending_app l m :
  ascending (l ++ m) <-> ascending l /\ ascending m /\ (forall x y, In x l -> In y m -> x < y).
Proof.
  induction l as [|a l IH]; cbn.
  - split; [intros; repeat split; auto; [constructor|intros; contradiction]|tauto].
  - rewrite !ascending_cons_iff, IH. split.
    + intros (H1 & H2 & H3 & H4). repeat split; auto.
      * intros y Hy; apply H1; apply in_or_app; auto.
      * intros x y [->|Hx] Hy; auto. apply H1; apply in_or_app; auto.
    + intros ((H1 & H2) & H3 & H4). repeat split; auto.
      intros y Hy; apply in_app_or in Hy as [Hy|Hy]; auto.
Qed.
Lemma ascending_seq a n : ascending (seq a n).
Proof.
  revert a; induction n as [|n IH]; intros a; cbn; [constructor|].
  apply ascending_cons_iff; split; auto. intros y Hy; apply in_seq in Hy; lia.
Qed.
Lemma ascending_NoDup l : ascending l -> NoDup l.
Proof.
  induction l as [|a l IH]; constructor.
  - apply ascending_cons_iff in H as [H _]. intros Hi; specialize (H _ Hi); lia.
  - apply IH. apply ascending_cons_iff in H; tauto.
Qed.
(** two ascending lists with the same elements are equal *)
Lemma ascending_ext l m :
  ascending l -> ascending m -> (forall x, In x l <-> In x m) -> l = m.
Proof.
  revert m; induction l as [|a l IH]; intros [|b m] Hl Hm E; auto.
  - exfalso; apply (proj2 (E b)); left; auto.
  - exfalso; apply (proj1 (E a)); left; auto.
  - apply ascending_cons_iff in Hl as [Hl1 Hl2]. apply ascending_cons_iff in Hm as [Hm1 Hm2].
    assert (a = b) as <-.
    { destruct (proj1 (E a) (or_introl eq_refl)) as [->|Ha]; auto.
      destruct (proj2 (E b) (or_introl eq_refl)) as [->|Hb]; auto.
      specialize (Hl1 _ Hb); specialize (Hm1 _ Ha); lia. }
    f_equal. apply IH; auto. intros x; split; intros Hx.
    + destruct (proj1 (E x) (or_intror Hx)) as [->|]; auto. specialize (Hl1 _ Hx); lia.
    + destruct (proj2 (E x) (or_intror Hx)) as [->|]; auto. specialize (Hm1 _ Hx); lia.
Qed.
