(** Label sets, multisets and target sequences (C85, C86) *)
From Coq Require Import Permutation Sorted.
From Verif.Model Require Import Base Sort Dataset TargetDatasets.
From Verif.Spec Require Import Lists DatasetSpec TargetSpec.
From Verif.Lib Require Import ListLib DictLib SortLib.
From Verif.Proofs Require PetriA Transactions.
From Verif.Proofs Require Import DatasetA DatasetB TargetDatasetsA TargetDatasetsB.
Open Scope nat_scope.

Section S.
  Context {I V T X : Type} {EI : Eq I} {EV : Eq V}.
  Notation heap := (heap I V T).
  Variables (x0 : X) (upd : T -> X -> X).
  Definition target_at (h : heap) (a : nat) (t : T) : Prop := exists i, nth_error h a = Some i /\ target i = t.
  Lemma sub_history_ok (h : heap) D : sub_history x0 upd h D ->
    history true h (fst D) /\
    exists ts, Forall2 (target_at h) (insts (fst D)) ts /\ snd D = fold_left (fun x t => upd t x) ts x0.
  Proof.
    induction 1 as [h cs ns Hp Hn|h h' D Hh [IH (ts & Ht & Hx)] Hp Hk|h D a D' Hh [IH (ts & Ht & Hx)] E|
      h d x it n h' d' e Hh [IH (ts & Ht & Hx)] Hit E|h d x it k n vs h' d' e Hh [IH (ts & Ht & Hx)] Hit Hna E]; cbn [fst snd] in *.
    - split; [apply hist_new; auto|]. exists []. rewrite (proj1 (new_ok (V:=V) cs ns)). split; [constructor|auto].
    - split.
      + eapply hist_other; eauto. intros a x [Ha Ex]. exists x. rewrite (Hk a Ha). auto.
      + exists ts. split; auto. clear -Ht Hk. revert Hk. unfold members_kept. induction Ht as [|a t l ts (i & E & Et) _ IH]; intros Hk; constructor.
        * exists i. rewrite (Hk a); cbn; auto.
        * apply IH. intros b Hb. apply Hk. cbn; auto.
    - destruct D as [d x]. unfold sub_add in E. cbn [fst snd] in *. destruct (add_instance h d a) as [d1|] eqn:Ea; cbn [bind] in E; [|discriminate].
      destruct (nth_error h a) as [i|] eqn:Ei; cbn [of_option bind] in E; [|discriminate]. injection E as <-. cbn [fst snd].
      split; [eapply hist_add; eauto|]. exists (ts ++ [target i]). rewrite fold_left_app. cbn. rewrite <- Hx. split; auto.
      destruct (add_instance_Ok _ _ _ _ Ea) as (y & Ey & Hk & Hid).
      destruct (add_instance_ok h d a y Ey Hk Hid) as (d2 & E2 & F1 & _). rewrite Ea in E2. injection E2 as <-.
      rewrite F1. apply Forall2_app; auto. constructor; [|constructor]. exists i. auto.
    - pose proof (hist_remove true h d it n h' d' e IH Hit E) as Hh'. split; auto. exists ts. split; auto.
      destruct (C59_remove_attribute _ _ _ _ _ true h d it n IH Hit) as [[_ E1]|(_ & h1 & d1 & E1 & F1 & _ & F2 & _)]; rewrite E in E1.
      + injection E1 as -> -> _. auto.
      + injection E1 as -> -> _. rewrite F1.
        assert (G : forall a t, In a (insts d) -> target_at h a t -> target_at h1 a t).
        { intros a t Ha (i & Ei & Et). destruct (F2 a i (conj Ha Ei)) as (x' & Ex' & _ & Et' & _). exists x'. split; auto. congruence. }
        clear -Ht G. induction Ht as [|a t l ts Hat _ IHt]; constructor; [apply G; cbn; auto|]. apply IHt. intros; apply G; cbn; auto.
    - assert (Hh' : history true h' d').
      { eapply (hist_attribute true); [exact IH|exact Hit|intros _; exact Hna|exact E]. }
      split; auto. exists ts. split; auto.
      destruct (C59_add_attribute _ _ _ _ _ true h d it k n vs IH Hit) as [[_ E1]|(Hl & h1 & d1 & E1 & F1 & _ & F2 & _)]; rewrite E in E1.
      + injection E1 as -> -> _. auto.
      + injection E1 as -> -> _. rewrite F1.
        assert (G : forall a t, In a (insts d) -> target_at h a t -> target_at h1 a t).
        { intros a t Ha (i & Ei & Et). assert (Ha' : In a it) by (eapply Permutation_in; [apply Permutation_sym; exact Hit|auto]).
          apply In_nth_error in Ha'. destruct Ha' as [j Ej].
          assert (Hj : j < length vs). { rewrite Hl, <- (Permutation_length Hit). apply nth_error_Some. congruence. }
          destruct (nth_error vs j) as [v|] eqn:Ev; [|apply nth_error_None in Ev; lia].
          destruct (F2 j a v i Ej Ev Ei) as (x' & Ex' & _ & Et' & _). exists x'. split; auto. congruence. }
        clear -Ht G. induction Ht as [|a t l ts Hat _ IHt]; constructor; [apply G; cbn; auto|]. apply IHt. intros; apply G; cbn; auto.
  Qed.
  Lemma targets_in (h : heap) (d : dataset V) ts t : Forall2 (target_at h) (insts d) ts ->
    In t ts <-> exists a x, member h d a x /\ target x = t.
  Proof.
    intros Ht. unfold member. split.
    - intros Hin. revert Hin. induction Ht as [|a u l us (i & Ei & Eu) _ IH]; [intros []|]. intros [<-|Hin].
      + exists a, i. cbn. auto.
      + destruct (IH Hin) as (b & x & [Hb Ex] & Ext). exists b, x. cbn. auto.
    - intros (a & x & [Ha Ex] & Ext). revert Ha. induction Ht as [|b u l us (i & Ei & Eu) _ IH]; [intros []|]. intros [<-|Hin]; cbn; auto.
      left. congruence.
  Qed.
  Lemma sub_subdataset_ok (h : heap) D l : sub_history x0 upd h D -> NoDup l -> incl l (insts (fst D)) ->
    exists s x, sub_subdataset x0 upd h D l = Ok (s, x) /\ get_subdataset h (fst D) l = Ok s /\ sub_history x0 upd h (s, x).
  Proof.
    intros Hh Hn Hl. destruct (sub_history_ok h D Hh) as [Hd _]. pose proof (history_inv _ _ _ Hd) as Hinv.
    destruct (sub_part h (fst D) l Hd Hn Hl) as (s & Es & _). unfold sub_subdataset, get_subdataset in *.
    assert (G : forall l s0 y0 s, sub_history x0 upd h (s0, y0) -> foldM (add_instance h) l s0 = Ok s ->
       exists x, foldM (sub_add upd h) l (s0, y0) = Ok (s, x) /\ sub_history x0 upd h (s, x)).
    { clear - h. induction l as [|a l IH]; intros s0 y0 s Hs E; cbn [foldM] in *.
      - injection E as <-. eauto.
      - destruct (add_instance h s0 a) as [s1|] eqn:E1; cbn [bind] in E; [|discriminate].
        destruct (add_instance_Ok _ _ _ _ E1) as (y & Ey & _).
        assert (E2 : sub_add upd h (s0, y0) a = Ok (s1, upd (target y) y0)).
        { unfold sub_add. cbn [fst snd]. rewrite E1. cbn [bind]. rewrite Ey. auto. }
        rewrite E2. cbn [bind]. apply IH; auto. eapply sub_added; eauto. }
    destruct (G l (new (cats (fst D)) (nums (fst D))) x0 s) as (x' & E' & Hx'); auto.
    - apply sub_new; [apply Hinv|]. apply (v_fresh _ _ _ Hinv eq_refl).
    - exists s, x'. auto.
  Qed.
End S.

Section L.
  Context {L : Type} {EL : Eq L}.
  Lemma collect_In (ls s : list L) l : In l (collect ls s) <-> In l ls \/ In l s.
  Proof. unfold collect. rewrite (set_adds_In (fun y => y)), map_id. tauto. Qed.
  Lemma collect_NoDup (ls s : list L) : NoDup s -> NoDup (collect ls s).
  Proof. apply (set_adds_NoDup (fun y => y)). Qed.
  Lemma collects (tss : list (list L)) : forall s, NoDup s ->
    NoDup (fold_left (fun x t => collect t x) tss s) /\
    forall l, In l (fold_left (fun x t => collect t x) tss s) <-> In l s \/ exists ts, In ts tss /\ In l ts.
  Proof.
    induction tss as [|ts tss IH]; intros s Hs; cbn [fold_left].
    - split; auto. intros l. split; auto. intros [?|(? & [] & _)]; auto.
    - destruct (IH (collect ts s)) as [A B]; [apply collect_NoDup; auto|]. split; auto. intros l. rewrite B, collect_In. split.
      + intros [[?|?]|(t & ? & ?)]; [right; exists ts; cbn; auto|auto|right; exists t; cbn; auto].
      + intros [?|(t & [<-|?] & ?)]; auto. right. eauto.
  Qed.
  Definition m_inv (x : dict L nat * dict L nat) := NoDup (keys (fst x)).
  Lemma sum_keys (m : dict L nat) : forall s, NoDup (keys s) ->
    let r := fold_left (fun (s : dict L nat) '(l, n) => dict_set l (n + count_of l s) s) m s in
    NoDup (keys r) /\ forall l, In l (keys r) <-> In l (keys m) \/ In l (keys s).
  Proof.
    induction m as [|[k n] m IH]; intros s Hs; cbn [fold_left].
    - cbv zeta. split; [auto|]. intros l. cbn. tauto.
    - destruct (IH (dict_set k (n + count_of k s) s)) as [A B]; [apply keys_dict_set_NoDup; auto|]. split; auto.
      intros l. rewrite B, keys_dict_set_In. unfold keys at 3. cbn [map fst In]. fold (keys m). intuition.
  Qed.
  Lemma multisets (ms : list (dict L nat)) : forall x, NoDup (keys (fst x)) ->
    NoDup (multiset_classes (fold_left (fun x t => count_multiset t x) ms x)) /\
    forall l, In l (multiset_classes (fold_left (fun x t => count_multiset t x) ms x)) <-> In l (keys (fst x)) \/ exists m, In m ms /\ In l (keys m).
  Proof.
    induction ms as [|m ms IH]; intros x Hx; cbn [fold_left].
    - split; auto. intros l. split; auto. intros [?|(? & [] & _)]; auto.
    - destruct (sum_keys m (fst x) Hx) as [A B]. destruct (IH (count_multiset m x)) as [C D]; auto. split; auto.
      intros l. rewrite D. unfold count_multiset at 1. cbn [fst]. rewrite B. split.
      + intros [[?|?]|(t & ? & ?)]; [right; exists m; cbn; auto|auto|right; exists t; cbn; auto].
      + intros [?|(t & [<-|?] & ?)]; auto. right. eauto.
  Qed.
End L.

(*P C85 Label sets of MultiLabelDataset, MultisetDataset and TargetSequenceDataset *)
(** The labels of a MultiLabelDataset are exactly the labels of its instances. *)
Lemma C85_labels : forall (I V L : Type) (EI : Eq I) (EV : Eq V) (EL : Eq L) (h : heap I V (list L)) d labels,
  sub_history [] collect h (d, labels) ->
  NoDup labels /\ forall l, In l labels <-> exists a x, member h d a x /\ In l (target x).
Proof.
  intros I V L EI EV EL h d labels Hh. destruct (sub_history_ok _ _ _ _ Hh) as [_ (ts & Ht & E)]. cbn [fst snd] in *.
  destruct (collects ts [] (NoDup_nil _)) as [A B]. rewrite <- E in A, B. split; auto. intros l. rewrite B. split.
  - intros [[]|(t & Hin & Hl)]. apply (targets_in h d ts t Ht) in Hin. destruct Hin as (a & x & Hm & <-). eauto.
  - intros (a & x & Hm & Hl). right. exists (target x). split; auto. apply (targets_in h d ts _ Ht). eauto.
Qed.
(** The symbols of a TargetSequenceDataset are exactly the symbols of the
    target sequences, as long as no sequence is replaced. *)
Lemma C85_sequence_symbols : forall (I V L : Type) (EI : Eq I) (EV : Eq V) (EL : Eq L) (h : heap I V (list L)) d symbols,
  sub_history [] collect h (d, symbols) ->
  NoDup symbols /\ forall s, In s symbols <-> exists a x, member h d a x /\ In s (target x).
Proof. exact C85_labels. Qed.
(** The classes of a MultisetDataset are the elements listed in the multisets
    of its instances, also those listed with count 0. *)
Lemma C85_multiset_classes : forall (I V L : Type) (EI : Eq I) (EV : Eq V) (EL : Eq L) (h : heap I V (dict L nat)) d counts,
  sub_history no_multisets count_multiset h (d, counts) ->
  NoDup (multiset_classes counts) /\
  forall l, In l (multiset_classes counts) <-> exists a x, member h d a x /\ In l (keys (target x)).
Proof.
  intros I V L EI EV EL h d counts Hh. destruct (sub_history_ok _ _ _ _ Hh) as [_ (ts & Ht & E)]. cbn [fst snd] in *.
  destruct (multisets ts no_multisets (NoDup_nil _)) as [A B]. rewrite <- E in A, B. split; auto. intros l. rewrite B. cbn [no_multisets fst keys map]. split.
  - intros [[]|(t & Hin & Hl)]. apply (targets_in h d ts t Ht) in Hin. destruct Hin as (a & x & Hm & <-). eauto.
  - intros (a & x & Hm & Hl). right. exists (target x). split; auto. apply (targets_in h d ts _ Ht). eauto.
Qed.
(** Sub-datasets are of the same class and have the labels of their own
    instances only. *)
Lemma C85_subdataset : forall (I V T X : Type) (EI : Eq I) (EV : Eq V) (x0 : X) (upd : T -> X -> X) (h : heap I V T) D l,
  sub_history x0 upd h D -> NoDup l -> incl l (insts (fst D)) ->
  exists s x, sub_subdataset x0 upd h D l = Ok (s, x) /\ get_subdataset h (fst D) l = Ok s /\ sub_history x0 upd h (s, x).
Proof. exact @sub_subdataset_ok. Qed.
(** Replacing a target sequence (set_target_sequence, as the noise
    transformers do) leaves the set of symbols as it was. *)
Lemma C85_replaced_sequence_witness :
  exists (h h' : heap nat nat (list nat)) d symbols,
    sub_history [] collect h (d, symbols) /\ insts d = [0] /\
    (exists x x', h = [x] /\ h' = [x'] /\ iid x' = iid x /\ feats x' = feats x /\ target x = [1] /\ target x' = [2]) /\
    symbols = [1] /\
    ~ (forall s, In s symbols <-> exists a x, member h' d a x /\ In s (target x)).
Proof.
  exists [ {| iid := 0; feats := []; target := [1] |} ], [ {| iid := 0; feats := []; target := [2] |} ],
    {| insts := [0]; attrs := []; cats := []; nums := [] |}, [1].
  split; [|split; [reflexivity|split; [do 2 eexists; repeat split|split; [reflexivity|]]]].
  2: { intros G. destruct (proj1 (G 1)) as (a & x & [Ha Hx] & Hin); [cbn; auto|]. destruct Ha as [<-|[]]. injection Hx as <-. destruct Hin as [E|[]]. discriminate. }
  eapply (sub_added [] collect _ (new [] [], []) 0); [|reflexivity].
  apply (sub_new [] collect _ [] []); [|constructor]. intros a x E. destruct a as [|[|a]]; try discriminate. injection E as <-. constructor.
Qed.

(** ** sequences by frequency *)
Section Q.
  Context {I V L : Type} {EL : Eq L}.
  Notation heap := (heap I V (list L)).
  Lemma sequences_ok (h : heap) it : (forall a, In a it -> exists x, nth_error h a = Some x) ->
    exists ss, sequences h it = Ok ss /\ Forall2 (target_at h) it ss.
  Proof.
    induction it as [|a it IH]; intros Hv; cbn [sequences mapM].
    - exists []. split; [reflexivity|constructor].
    - destruct (Hv a) as [x Ex]; [cbn; auto|]. destruct IH as (ss & Es & Hs); [intros; apply Hv; cbn; auto|].
      unfold sequences in *. cbn [mapM]. rewrite Ex. cbn [of_option bind]. rewrite Es. cbn [bind].
      exists (target x :: ss). split; auto. constructor; auto. exists x. auto.
  Qed.
  Lemma bumps {K} `{Eq K} (l : list K) : forall d, NoDup (keys d) ->
    let r := fold_left (fun d s => bump s d) l d in
    NoDup (keys r) /\ (forall k, In k (keys r) <-> In k l \/ In k (keys d)) /\
    forall k, count_of k r = length (filter (eqb k) l) + count_of k d.
  Proof.
    induction l as [|s l IH]; intros d Hd; cbn [fold_left].
    - cbv zeta. split; [auto|]. split; [intros k; cbn; tauto|auto].
    - destruct (IH (bump s d)) as (A & B & C); [apply keys_dict_set_NoDup; auto|]. split; [auto|]. split.
      + intros k. rewrite B, keys_bump. cbn. intuition.
      + intros k. rewrite C, count_of_bump. cbn [filter]. destruct (eqb_ok k s) as [->|Hne].
        * rewrite eqb_refl. cbn [length]. lia.
        * destruct (eqb_ok s k); [congruence|]. lia.
  Qed.
  Lemma event_bumps (ss : list (list L)) : forall d e,
    count_of e (fold_left (fun d s => fold_left (fun d e => bump e d) s d) ss d) =
      list_sum (map (fun s => length (filter (eqb e) s)) ss) + count_of e d.
  Proof.
    induction ss as [|s ss IH]; intros d e; cbn [fold_left map list_sum fold_right]; auto.
    rewrite IH. assert (G : forall s d, count_of e (fold_left (fun d e => bump e d) s d) = length (filter (eqb e) s) + count_of e d).
    { clear. induction s as [|x s IH]; intros d; cbn [fold_left filter]; auto. rewrite IH, count_of_bump.
      destruct (eqb_ok e x) as [->|Hne]; [rewrite eqb_refl; cbn [length]; lia|]. destruct (eqb_ok x e); [congruence|]. lia. }
    rewrite G. unfold list_sum. cbn [fold_right]. lia.
  Qed.
  Lemma freq_ok (h : heap) it ss s : Forall2 (target_at h) it ss -> length (filter (eqb s) ss) = frequency h it s.
  Proof.
    unfold frequency, tally. induction 1 as [|a t it ss (x & Ex & Et) _ IH]; auto. cbn [filter]. rewrite Ex, Et.
    destruct (eqb_ok s t) as [->|Hne]; [rewrite eqb_refl; cbn [length]; lia|]. destruct (eqb_ok t s); [congruence|]. auto.
  Qed.
  Lemma occ_ok (h : heap) it ss e : Forall2 (target_at h) it ss ->
    list_sum (map (fun s => length (filter (eqb e) s)) ss) = occurrences h it e.
  Proof.
    unfold occurrences. induction 1 as [|a t it ss (x & Ex & Et) _ IH]; auto. cbn [map]. rewrite Ex, Et.
    unfold list_sum in *. cbn [fold_right]. lia.
  Qed.
End Q.

Lemma Permutation_tally {I V T} (h : heap I V T) l l' p : Permutation l l' -> tally h l p = tally h l' p.
Proof.
  intros Hp. unfold tally. apply Permutation_length. induction Hp; cbn; auto.
  - destruct (nth_error h x) as [y|]; auto. destruct (p y); auto.
  - destruct (nth_error h y) as [z|], (nth_error h x) as [z'|]; auto; try destruct (p z); try destruct (p z'); auto. apply perm_swap.
  - etransitivity; eauto.
Qed.
Lemma Permutation_occ {I V L} {EL : Eq L} (h : heap I V (list L)) l l' e : Permutation l l' -> occurrences h l e = occurrences h l' e.
Proof.
  intros Hp. unfold occurrences, list_sum. induction Hp; cbn [map fold_right]; try lia.
Qed.

(*P C86 Target sequences of a TargetSequenceDataset *)
(** compute_set_of_unique_sequences returns the target sequences of the
    instances, each once. *)
Lemma C86_unique_sequences : forall (I V L : Type) (EI : Eq I) (EV : Eq V) (EL : Eq L) (h : heap I V (list L)) d it,
  history true h d -> Permutation it (insts d) ->
  exists r, compute_set_of_unique_sequences h it = Ok r /\ NoDup r /\
    forall s, In s r <-> exists a x, member h d a x /\ target x = s.
Proof.
  intros I V L EI EV EL h d it Hh Hit. apply history_inv in Hh.
  destruct (sequences_ok h it) as (ss & Es & Hs). { intros a Ha. apply (v_valid _ _ _ Hh). eapply Permutation_in; eauto. }
  exists (set_of ss). unfold compute_set_of_unique_sequences. rewrite Es. cbn [bind]. split; [reflexivity|].
  split; [apply set_of_NoDup|]. intros s. rewrite set_of_In.
  rewrite (targets_in h {| insts := it; attrs := attrs d; cats := []; nums := [] |} ss s Hs). unfold member. cbn [insts].
  split; intros (a & x & [Ha Ex] & E); exists a, x; (split; [split; auto|auto]); (eapply Permutation_in; [|exact Ha]); auto using Permutation_sym.
Qed.
(** get_sequences_ordered_by_frequency returns the same sequences, each once,
    rarest first; equally frequent ones in the order of the summed
    frequencies of their events. *)
Lemma C86_by_frequency : forall (I V L : Type) (EI : Eq I) (EV : Eq V) (EL : Eq L) (h : heap I V (list L)) d it,
  history true h d -> Permutation it (insts d) ->
  exists r, get_sequences_ordered_by_frequency h it = Ok r /\ NoDup r /\
    (forall s, In s r <-> exists a x, member h d a x /\ target x = s) /\
    StronglySorted (fun s t =>
      frequency h (insts d) s < frequency h (insts d) t \/
      frequency h (insts d) s = frequency h (insts d) t /\ weight h (insts d) s <= weight h (insts d) t) r.
Proof.
  intros I V L EI EV EL h d it Hh Hit. apply history_inv in Hh.
  destruct (sequences_ok h it) as (ss & Es & Hs). { intros a Ha. apply (v_valid _ _ _ Hh). eapply Permutation_in; eauto. }
  unfold get_sequences_ordered_by_frequency. rewrite Es. cbn [bind].
  destruct (bumps ss [] (NoDup_nil _)) as (A & B & C). cbv zeta.
  set (freqs := fold_left (fun d s => bump s d) ss []) in *.
  set (evs := fold_left (fun d s => fold_left (fun d e => bump e d) s d) ss []).
  set (g := fun '(s, f) => (s, (f, list_sum (map (fun e => count_of e evs) s)))).
  eexists. split; [reflexivity|].
  assert (Hkeys : map fst (map g freqs) = keys freqs).
  { rewrite map_map. unfold keys. apply map_ext. intros [s f]. auto. }
  assert (Hperm : Permutation (map fst (stable_sort key_le (map g freqs))) (keys freqs)).
  { rewrite <- Hkeys. apply Permutation_map. apply sort_perm. }
  split; [eapply Permutation_NoDup; [apply Permutation_sym; exact Hperm|auto]|]. split.
  - intros s. assert (E : In s (map fst (stable_sort key_le (map g freqs))) <-> In s ss).
    { split; intros Hin.
      - eapply Permutation_in in Hin; [|exact Hperm]. apply B in Hin. destruct Hin as [|[]]; auto.
      - eapply Permutation_in; [apply Permutation_sym; exact Hperm|]. apply B. auto. }
    rewrite E. rewrite (targets_in h {| insts := it; attrs := attrs d; cats := []; nums := [] |} ss s Hs). unfold member. cbn [insts].
    split; intros (a & x & [Ha Ex] & Et); exists a, x; (split; [split; auto|auto]); (eapply Permutation_in; [|exact Ha]); auto using Permutation_sym.
  - assert (Hval : forall p, In p (stable_sort key_le (map g freqs)) ->
      snd p = (frequency h (insts d) (fst p), weight h (insts d) (fst p))).
    { intros p Hp. apply sort_In in Hp. apply in_map_iff in Hp. destruct Hp as ([s f] & <- & Hin). cbn [g fst snd].
      assert (Ef : f = frequency h (insts d) s).
      { apply (dict_In_get freqs s f A) in Hin. specialize (C s). unfold count_of in C at 1. rewrite Hin in C.
        rewrite C, (freq_ok h it ss s Hs). cbn. unfold frequency. rewrite (Permutation_tally h it (insts d)) by auto. lia. }
      rewrite Ef. f_equal. unfold weight. f_equal. apply map_ext. intros e. unfold evs. rewrite event_bumps, (occ_ok h it ss e Hs).
      cbn. rewrite (Permutation_occ h it (insts d)) by auto. lia. }
    assert (Htot : forall x y, key_le (L := L) x y = true \/ key_le y x = true).
    { intros [? [a b]] [? [c e]]. unfold key_le. cbn [snd]. rewrite !orb_true_iff, !andb_true_iff, !Nat.ltb_lt, !Nat.eqb_eq, !Nat.leb_le. lia. }
    assert (Htr : forall x y z, key_le (L := L) x y = true -> key_le y z = true -> key_le x z = true).
    { intros [? [a b]] [? [c e]] [? [f g0]]. unfold key_le. cbn [snd]. rewrite !orb_true_iff, !andb_true_iff, !Nat.ltb_lt, !Nat.eqb_eq, !Nat.leb_le. lia. }
    pose proof (sort_sorted key_le Htot Htr (map g freqs)) as Hsort.
    assert (G : forall l, StronglySorted (fun a b => key_le a b = true) l ->
      (forall p, In p l -> snd p = (frequency h (insts d) (fst p), weight h (insts d) (fst p))) ->
      StronglySorted (fun s t => frequency h (insts d) s < frequency h (insts d) t \/
        frequency h (insts d) s = frequency h (insts d) t /\ weight h (insts d) s <= weight h (insts d) t) (map fst l)).
    { induction 1 as [|p l Hl IH Hp]; intros Hsnd; cbn [map]; constructor.
      - apply IH. intros; apply Hsnd; cbn; auto.
      - apply Forall_map. apply Forall_forall. intros q Hq. rewrite Forall_forall in Hp. specialize (Hp q Hq).
        unfold key_le in Hp. rewrite (Hsnd p), (Hsnd q) in Hp by (cbn; auto).
        apply orb_true_iff in Hp. rewrite andb_true_iff, Nat.ltb_lt, Nat.eqb_eq, Nat.leb_le in Hp. auto. }
    apply G; auto.
Qed.
