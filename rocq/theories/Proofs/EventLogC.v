(** Proofs about log equality, joining events and event durations *)
From Coq Require Import Permutation.
From Verif.Model Require Import Base EventLog.
From Verif.Spec Require Import Lists Logs EventLogSpec.
From Verif.Lib Require Import ListLib DictLib.
From Verif.Proofs Require Import Selection EventLogA EventLogB.

(** ** multisets up to a boolean equivalence *)
Section M.
  Context {X : Type} (E : X -> X -> bool) (W : X -> Prop).
  Hypothesis Erefl : forall x, W x -> E x x = true.
  Hypothesis Esym : forall x y, W x -> W y -> E x y = true -> E y x = true.
  Hypothesis Etrans : forall x y z, W x -> W y -> W z -> E x y = true -> E y z = true -> E x z = true.
  Definition cnt (t : X) (l : list X) : nat := length (filter (E t) l).
  Lemma E_ext x y z : W x -> W y -> W z -> E y z = true -> E x y = E x z.
  Proof.
    intros Hx Hy Hz Hyz. destruct (E x y) eqn:E1, (E x z) eqn:E2; auto.
    - rewrite (Etrans x y z) in E2 by auto. discriminate.
    - rewrite (Etrans x z y) in E1 by auto. discriminate.
  Qed.
  Lemma E_ext_l x y z : W x -> W y -> W z -> E x y = true -> E x z = E y z.
  Proof.
    intros Hx Hy Hz Hxy. destruct (E x z) eqn:E1, (E y z) eqn:E2; auto.
    - rewrite (Etrans y x z) in E2; auto.
    - rewrite (Etrans x y z) in E1 by auto. discriminate.
  Qed.
  Lemma cnt_cons t x l : cnt t (x :: l) = (if E t x then 1 else 0) + cnt t l.
  Proof. unfold cnt. cbn. destruct (E t x); auto. Qed.
  Lemma cnt_app t l m : cnt t (l ++ m) = cnt t l + cnt t m.
  Proof. unfold cnt. rewrite filter_app, app_length. auto. Qed.
  Lemma cnt_pos t l : 0 < cnt t l -> exists y, In y l /\ E t y = true.
  Proof.
    unfold cnt. destruct (filter (E t) l) as [|y r] eqn:Ef; cbn; [inversion 1|]. intros _.
    exists y. apply filter_In. rewrite Ef. cbn; auto.
  Qed.
  Lemma cnt_pos_In t y l : In y l -> E t y = true -> 0 < cnt t l.
  Proof.
    intros Hy Ey. unfold cnt. assert (Hin : In y (filter (E t) l)) by (apply filter_In; auto).
    destruct (filter (E t) l); [destruct Hin|cbn; lia].
  Qed.
  Lemma counts_multiset l m : Forall W l -> Forall W m ->
    (forall t, W t -> cnt t l = cnt t m) -> same_multiset (fun x y => E x y = true) l m.
  Proof.
    revert m; induction l as [|x l IH]; intros m Hl Hm Hc.
    - destruct m as [|y m]; [exists []; auto|]. inversion Hm; subst. specialize (Hc y H1).
      rewrite cnt_cons, Erefl in Hc by auto. discriminate.
    - inversion Hl as [|? ? Hx Hl']; subst. destruct (cnt_pos x m) as (y & Hy & Ey).
      { rewrite <- Hc by auto. rewrite cnt_cons, Erefl by auto. lia. }
      apply in_split in Hy. destruct Hy as (m1 & m2 & ->).
      assert (Hm' : Forall W (m1 ++ m2) /\ W y).
      { rewrite Forall_forall in *. split.
        - intros z Hz. apply Hm. rewrite in_app_iff in *. cbn. tauto.
        - apply Hm. rewrite in_app_iff. cbn; auto. }
      destruct Hm' as [Hm' Hy]. destruct (IH (m1 ++ m2)) as (m' & Hp & HF); auto.
      { intros t Ht. specialize (Hc t Ht). rewrite cnt_cons, cnt_app, cnt_cons in Hc. rewrite cnt_app.
        rewrite (E_ext t x y) in Hc by auto. lia. }
      exists (y :: m'). split; [|constructor; auto].
      rewrite <- Hp. symmetry. apply Permutation_middle.
  Qed.
  Lemma multiset_counts l m : Forall W l -> Forall W m ->
    same_multiset (fun x y => E x y = true) l m -> forall t, W t -> cnt t l = cnt t m.
  Proof.
    intros Hl Hm (m' & Hp & HF) t Ht.
    assert (Em : cnt t m = cnt t m').
    { unfold cnt. apply Permutation_length. clear HF. induction Hp; cbn; auto.
      - inversion Hm; subst. destruct (E t x); auto.
      - destruct (E t x), (E t y); auto. apply perm_swap.
      - rewrite IHHp1; auto. apply IHHp2. eapply Permutation_Forall; eauto. }
    rewrite Em. assert (Hm' : Forall W m') by (eapply Permutation_Forall; eauto). clear Em Hp Hm.
    induction HF as [|x y l m' Exy HF IH]; auto. inversion Hl; inversion Hm'; subst.
    rewrite !cnt_cons, (E_ext t x y), IH by auto. auto.
  Qed.
End M.

Lemma Forall2_impl {X Y} (R S : X -> Y -> Prop) l m :
  (forall x y, In x l -> In y m -> R x y -> S x y) -> Forall2 R l m -> Forall2 S l m.
Proof.
  intros HRS HF. induction HF; constructor; auto.
  - apply HRS; cbn; auto.
  - apply IHHF. intros; apply HRS; cbn; auto.
Qed.

Section EL.
  Context {A V I : Type} `{Eq A} `{Eq V}.
  Notation event := (event A V).
  Notation trace := (trace A V I).
  Notation log := (log A V I).

  Lemma attrs_eqb_iff (d e : attrs V) : proper_attrs d -> proper_attrs e ->
    attrs_eqb d e = true <-> same_attrs d e.
  Proof.
    intros Hd He. unfold attrs_eqb. rewrite andb_true_iff, Nat.eqb_eq, forallb_forall. split.
    - intros [El Hf] k.
      assert (Hsub : forall k v, dict_get k d = Some v -> dict_get k e = Some v).
      { intros k' v E. apply dict_get_In in E. specialize (Hf _ E). cbn in Hf.
        destruct (dict_get k' e) as [v'|]; [|discriminate]. apply (proj1 (eqb_eq _ _)) in Hf. congruence. }
      destruct (dict_get k d) as [v|] eqn:E; [symmetry; auto|].
      symmetry. apply dict_get_None. apply dict_get_None in E. intros Hk. apply E.
      assert (Hincl : incl (keys d) (keys e)).
      { intros k' Hk'. destruct (dict_get_key d k' Hk') as [v Ev]. eapply dict_get_Some_key; eauto. }
      apply (NoDup_length_incl (l:=keys d) (l':=keys e)); auto. unfold keys. rewrite !map_length. lia.
    - intros Hs. split.
      + assert (Hp : Permutation (keys d) (keys e)).
        { apply NoDup_Permutation; auto. intros k. specialize (Hs k). 
          rewrite <- !dict_has_In. unfold dict_has. rewrite Hs. tauto. }
        apply Permutation_length in Hp. unfold keys in Hp. rewrite !map_length in Hp. auto.
      + intros [k v] Hin. cbn. rewrite <- Hs, (dict_In_get d k v) by auto. apply eqb_refl.
  Qed.
  Lemma event_eqb_iff (e f : event) : proper_attrs (ev_attrs e) -> proper_attrs (ev_attrs f) ->
    event_eqb e f = true <-> same_event e f.
  Proof.
    intros He Hf. unfold event_eqb, same_event. rewrite !andb_true_iff, !eqb_eq, attrs_eqb_iff by auto. tauto.
  Qed.
  Lemma events_eqb_iff (l m : list event) :
    Forall (fun e => proper_attrs (ev_attrs e)) l -> Forall (fun e => proper_attrs (ev_attrs e)) m ->
    events_eqb l m = true <-> Forall2 same_event l m.
  Proof.
    revert m; induction l as [|e l IH]; intros [|f m] Hl Hm; cbn.
    - split; [constructor|auto].
    - split; [discriminate|intros Hx; inversion Hx].
    - split; [discriminate|intros Hx; inversion Hx].
    - inversion Hl; inversion Hm; subst. rewrite andb_true_iff, event_eqb_iff, IH by auto. split.
      + intros []; constructor; auto.
      + intros Hx; inversion Hx; auto.
  Qed.
  Lemma same_key_iff hash (t u : trace) : proper_trace t -> proper_trace u ->
    same_key hash t u = true <-> same_trace hash t u.
  Proof.
    intros [Ht Ht'] [Hu Hu']. unfold same_key, trace_eqb, same_trace.
    rewrite !andb_true_iff, Z.eqb_eq, events_eqb_iff, attrs_eqb_iff by auto. tauto.
  Qed.
  Lemma same_event_refl (e : event) : same_event e e.
  Proof. unfold same_event, same_attrs. auto. Qed.
  Lemma same_event_sym (e f : event) : same_event e f -> same_event f e.
  Proof. unfold same_event, same_attrs. intuition. Qed.
  Lemma same_event_trans (e f g : event) : same_event e f -> same_event f g -> same_event e g.
  Proof. unfold same_event, same_attrs. intros (?&?&Ha) (?&?&Hb). split; [congruence|]. split; [congruence|]. intros k; rewrite Ha; auto. Qed.
  Lemma F2_refl (l : list event) : Forall2 same_event l l.
  Proof. induction l; constructor; auto using same_event_refl. Qed.
  Lemma F2_sym (l m : list event) : Forall2 same_event l m -> Forall2 same_event m l.
  Proof. intros Hx; induction Hx; constructor; auto using same_event_sym. Qed.
  Lemma F2_trans (l m n : list event) : Forall2 same_event l m -> Forall2 same_event m n -> Forall2 same_event l n.
  Proof.
    intros Hx. revert n. induction Hx; intros n Hn; inversion Hn; subst; constructor; eauto using same_event_trans.
  Qed.
  Lemma key_refl hash (t : trace) : proper_trace t -> same_key hash t t = true.
  Proof. intros Ht. apply same_key_iff; auto. split; [auto|]. split; [apply F2_refl|]. intros k; auto. Qed.
  Lemma key_sym hash (t u : trace) : proper_trace t -> proper_trace u ->
    same_key hash t u = true -> same_key hash u t = true.
  Proof.
    intros Ht Hu. rewrite !same_key_iff by auto. intros (E & HF & Ha). split; [auto|].
    split; [apply F2_sym; auto|]. intros k; auto.
  Qed.
  Lemma key_trans hash (t u v : trace) : proper_trace t -> proper_trace u -> proper_trace v ->
    same_key hash t u = true -> same_key hash u v = true -> same_key hash t v = true.
  Proof.
    intros Ht Hu Hv. rewrite !same_key_iff by auto. intros (E & HF & Ha) (E' & HF' & Ha'). split; [congruence|].
    split; [eapply F2_trans; eauto|]. intros k; rewrite Ha; auto.
  Qed.

  Section Counter.
    Variable hash : I -> Z.
    Notation E := (same_key (A:=A) (V:=V) hash).
    Notation W := (proper_trace (A:=A) (V:=V) (I:=I)).
    Notation ext_r := (E_ext E W (key_sym hash) (key_trans hash)).
    Notation ext_l := (E_ext_l E W (key_sym hash) (key_trans hash)).

    Lemma tc_inc_get u t c : W u -> W t -> Forall (fun vn => W (fst vn)) c ->
      tc_get hash t (tc_inc hash u c) = (if E t u then 1 else 0) + tc_get hash t c.
    Proof.
      intros Hu Ht. induction c as [|[v n] c IH]; intros Hc; cbn [tc_inc tc_get].
      - destruct (E t u); auto.
      - inversion Hc as [|? ? Hv Hc']; subst. cbn in Hv. destruct (E u v) eqn:Euv; cbn [tc_get].
        + rewrite (ext_r t u v) by auto. destruct (E t v); auto.
        + destruct (E t v) eqn:Etv.
          * destruct (E t u) eqn:Etu; auto.
            rewrite (key_trans hash u t v) in Euv; auto; try discriminate. apply key_sym; auto.
          * apply IH; auto.
    Qed.
    Lemma tc_inc_keys (u : trace) c v : In v (map fst (tc_inc hash u c)) -> v = u \/ In v (map fst c).
    Proof.
      induction c as [|[w n] c IH]; cbn [tc_inc map].
      - intros [<-|[]]; auto.
      - destruct (E u w); cbn; [tauto|]. intros [|Hin]; auto. destruct (IH Hin); auto.
    Qed.
    Lemma tc_inc_mono (u : trace) c v : In v (map fst c) -> In v (map fst (tc_inc hash u c)).
    Proof.
      induction c as [|[w n] c IH]; cbn [tc_inc map]; [intros []|].
      destruct (E u w); cbn; [tauto|]. intros [|]; auto.
    Qed.
    Lemma tc_inc_found (u : trace) c : W u -> exists v, In v (map fst (tc_inc hash u c)) /\ E u v = true.
    Proof.
      intros Hu. induction c as [|[w n] c IH]; cbn [tc_inc map].
      - exists u. split; [cbn; auto|]. apply key_refl; auto.
      - destruct (E u w) eqn:Euw; [exists w; cbn; auto|]. destruct IH as (v & Hv & Ev). exists v. cbn; auto.
    Qed.
    Lemma counter_inv (l : log) : Forall W l ->
      let c := trace_counter hash l in
      (forall v, In v (map fst c) -> In v l) /\
      (forall t, In t l -> exists v, In v (map fst c) /\ E t v = true) /\
      (forall t, W t -> tc_get hash t c = cnt E t l).
    Proof.
      unfold trace_counter. induction l as [|u l IH] using rev_ind; intros Hl.
      - cbn. split; [tauto|]. split; [tauto|]. auto.
      - apply Forall_app in Hl. destruct Hl as [Hl Hu]. inversion Hu; subst. rewrite fold_left_app; cbn [fold_left].
        destruct (IH Hl) as (H1' & H2' & H3'). clear IH.
        set (c := fold_left (fun c t => tc_inc hash t c) l []) in *. cbv zeta.
        assert (Hc : Forall (fun vn => W (fst vn)) c).
        { apply Forall_forall. intros vn Hin. apply (in_map fst) in Hin. rewrite Forall_forall in Hl. auto. }
        split; [|split].
        + intros v Hv. apply tc_inc_keys in Hv. rewrite in_app_iff. cbn. destruct Hv as [->|]; auto.
        + intros t Ht. rewrite in_app_iff in Ht. destruct Ht as [Ht|[<-|[]]].
          * destruct (H2' t Ht) as (v & Hv & Ev). exists v. split; auto. apply tc_inc_mono; auto.
          * apply tc_inc_found; auto.
        + intros t Ht. rewrite tc_inc_get by auto. rewrite H3', cnt_app by auto. unfold cnt at 3. cbn.
          destruct (E t u); cbn; lia.
    Qed.
    Lemma log_eqb_counts (l m : log) : Forall W l -> Forall W m ->
      log_eqb hash l m = true <-> forall t, W t -> cnt E t l = cnt E t m.
    Proof.
      intros Hl Hm. unfold log_eqb.
      destruct (counter_inv l Hl) as (K1 & F1 & G1). destruct (counter_inv m Hm) as (K2 & F2 & G2).
      set (c := trace_counter hash l) in *. set (d := trace_counter hash m) in *.
      rewrite andb_true_iff, !forallb_forall. rewrite Forall_forall in Hl, Hm. split.
      - intros [Hc Hd] t Ht.
        assert (Hkey : forall v, W v -> E t v = true -> cnt E v l = cnt E v m -> cnt E t l = cnt E t m).
        { intros v Hv Ev Ec. unfold cnt in *.
          assert (Heq : forall k, (forall x, In x k -> W x) -> filter (E t) k = filter (E v) k).
          { intros k Hk. apply filter_ext_in. intros x Hx. apply ext_l; auto. }
          rewrite !Heq by auto. auto. }
        destruct (le_lt_dec (cnt E t l) 0) as [Hz|Hp]; [destruct (le_lt_dec (cnt E t m) 0) as [Hz'|Hp']|].
        + lia.
        + destruct (cnt_pos E t m Hp') as (y & Hy & Ey). destruct (F2 y Hy) as (v & Hv & Ev).
          pose proof (K2 v Hv) as Hvm. apply (Hkey v); auto.
          { apply (key_trans hash t y v); auto. }
          apply in_map_iff in Hv. destruct Hv as ([v' n] & E' & Hin). cbn in E'; subst v'.
          specialize (Hd _ Hin). apply Nat.eqb_eq in Hd. cbn in Hd. rewrite G1, G2 in Hd by auto. auto.
        + destruct (cnt_pos E t l Hp) as (y & Hy & Ey). destruct (F1 y Hy) as (v & Hv & Ev).
          pose proof (K1 v Hv) as Hvm. apply (Hkey v); auto.
          { apply (key_trans hash t y v); auto. }
          apply in_map_iff in Hv. destruct Hv as ([v' n] & E' & Hin). cbn in E'; subst v'.
          specialize (Hc _ Hin). apply Nat.eqb_eq in Hc. cbn in Hc. rewrite G1, G2 in Hc by auto. auto.
      - intros Hc. split; intros [v n] Hin; apply Nat.eqb_eq; cbn [fst]; apply (in_map fst) in Hin; cbn in Hin;
          rewrite G1, G2; auto.
    Qed.
    Lemma log_eqb_ok (l m : log) : Forall W l -> Forall W m ->
      log_eqb hash l m = true <-> same_multiset (same_trace hash) l m.
    Proof.
      intros Hl Hm. rewrite log_eqb_counts by auto. split.
      - intros Hc. destruct (counts_multiset E W (key_refl hash) (key_sym hash) (key_trans hash) l m Hl Hm Hc) as (m' & Hp & HF).
        exists m'. split; auto. pose proof (Permutation_Forall Hp Hm) as Hm'. rewrite Forall_forall in Hl, Hm'.
        eapply Forall2_impl; [|exact HF]. intros x y Hx Hy Exy. apply same_key_iff; auto.
      - intros (m' & Hp & HF). apply (multiset_counts E W (key_sym hash) (key_trans hash) l m Hl Hm).
        exists m'. split; auto. pose proof (Permutation_Forall Hp Hm) as Hm'. rewrite Forall_forall in Hl, Hm'.
        eapply Forall2_impl; [|exact HF]. intros x y Hx Hy Exy. apply same_key_iff; auto.
    Qed.
  End Counter.
End EL.
