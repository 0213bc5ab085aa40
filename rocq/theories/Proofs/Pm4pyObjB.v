(** Event logs exchanged with pm4py, as objects: C148 *)
From Coq Require Import String ZArith QArith Permutation Lia.
From Verif.Model Require Import Base EventLog LogNoise LogObjects Pm4py Pm4pyObjects.
From Verif.Spec Require Import LogObjectSpec Pm4pyObjectSpec.
From Verif.Lib Require Import ListLib.
From Verif.Proofs Require Import LogObjA LogObjB LogObjC LogObjD Pm4pyObjA.
From Verif.Proofs Require Pm4pyG.
Open Scope list_scope.
Open Scope nat_scope.

Section E.
  Context {V : Type}.
  Notation py_store := (store string (pyvalue V) (pyvalue V)).
  Implicit Types (s : py_store).

  Lemma edit_all_ok : forall xs s l, fine s l -> let '(s', l') := edit_all xs s l in
    view_log s' l' = edited_all xs (view_log s l) /\ keeps s s'.
  Proof.
    unfold edit_all, edited_all. induction xs as [|x xs IH]; intros s l Hf; cbn [fold_left]; [split; auto; apply keeps_refl|].
    assert (Hf' : fine s (l ++ [])) by (rewrite app_nil_r; auto).
    pose proof (edit_good x l [] s Hf') as G. pose proof (keeps_edit x s l) as K. destruct (do_edit x s l) as [s1 l1]. cbn [fst] in K.
    destruct G as (G1 & G2 & _). rewrite app_nil_r in G1. specialize (IH s1 l1 G1).
    destruct (fold_left (fun '(s0, l0) x0 => do_edit x0 s0 l0) xs (s1, l1)) as [s2 l2]. destruct IH as [I1 I2]. rewrite <- G2. split; auto. eapply keeps_trans; eauto.
  Qed.

  Lemma imported_in s s1 l c : imported s s1 l c -> forall u, In u c -> exists t, In t l /\ made s s1 t u.
  Proof.
    intros [M _ _ _]. induction M as [|t u l c Hm M IH]; intros y []; [subst; exists t; cbn; auto|]. destruct (IH y) as (q & Hq & Hm'); auto. exists q. cbn; auto.
  Qed.
  Lemma imported_fine s s1 l c : ext s s1 -> pm_exists s l -> imported s s1 l c -> fine s1 c.
  Proof.
    intros X He Hi. split; [|split; apply Hi]. intros u Hu. destruct (imported_in _ _ _ _ Hi u Hu) as (t & Ht & [M1 M2 M3 M4 M5]).
    pose proof (ex_next _ _ X). destruct (He t Ht) as [Ha _]. rewrite M3. repeat split; try lia; destruct (M4 e H0); lia.
  Qed.
  Lemma imported_dicts s s1 l c : imported s s1 l c -> forall d, In d (flat_map (dicts_of s1) c) -> next s <= d.
  Proof.
    intros Hi d Hd. apply in_flat_map in Hd. destruct Hd as (u & Hu & Hd). destruct (imported_in _ _ _ _ Hi u Hu) as (t & _ & M).
    unfold dicts_of, dict_of in Hd. apply in_map_iff in Hd. destruct Hd as (e & <- & He). destruct (ma_events _ _ _ _ M e He) as [_ Q]. lia.
  Qed.
  Lemma imported_own s s1 l c : pm_exists s l -> own_attrs l -> imported s s1 l c -> own_dicts s1 c.
  Proof.
    intros He Ho Hi. apply own_dicts_iff.
    assert (E : map (fun u => o_tattrs (trs s1 u)) c = map po_attrs l).
    { destruct Hi as [M _ _ _]. clear - M. induction M as [|t u l c Hm M IH]; cbn [map]; auto. f_equal; auto. apply Hm. }
    rewrite E. apply NoDup_app_disjoint'; auto; [apply Hi|]. intros d Hd Hd2. apply (imported_dicts _ _ _ _ Hi) in Hd2.
    apply in_map_iff in Hd. destruct Hd as (t & <- & Ht). destruct (He t Ht) as [Ha _]. lia.
  Qed.
  Lemma pm_same s s1 s2 l : ext s s1 -> pm_exists s l -> (forall d, d < next s -> dcts s2 d = dcts s1 d) -> view_pm_log s2 l = view_pm_log s l.
  Proof.
    intros X He Hd. unfold view_pm_log, view_pm. apply map_ext_in. intros t Ht. destruct (He t Ht) as [Ha Hb].
    rewrite Hd, (ex_dcts _ _ X) by auto. f_equal. apply map_ext_in. intros e Hin. rewrite Hd, (ex_dcts _ _ X) by auto. auto.
  Qed.

  Lemma export_events_ok : forall es s, (forall e, In e es -> e < next s) -> let '(s1, ds) := export_events s es in
    ext s s1 /\ map (dcts s1) ds = map (fun e => [(concept_name, PStr (o_act (evs s e)))]) es /\ Forall (fun d => next s <= d < next s1) ds.
  Proof.
    induction es as [|e es IH]; intros s He; cbn [export_events].
    - split; [apply ext_refl|]. split; constructor.
    - set (x := [(concept_name, PStr (o_act (evs s e)))]). pose proof (ext_alloc_dct x s) as X. unfold alloc_dct in *. cbn [fst] in X. set (s1 := Store _ _ _ _ _) in *.
      assert (He1 : forall y, In y es -> y < next s1) by (intros y Hy; assert (y < next s) by (apply He; cbn; auto); cbn; lia).
      specialize (IH s1 He1). destruct (export_events s1 es) as [s2 ds]. destruct IH as (X2 & E & F).
      pose proof (ex_next _ _ X2) as L. cbn [s1 next] in L. split; [eapply ext_trans; eauto|]. split.
      + cbn [map]. rewrite E. f_equal. rewrite (ex_dcts _ _ X2) by (cbn; lia). cbn. apply put_same.
      + constructor; [lia|]. eapply Forall_impl; [|exact F]. cbn. intros d Hd. lia.
  Qed.
  Definition fresh_pm s s1 (p : pm_obj) : Prop := forall d, d = po_attrs p \/ In d (po_events p) -> next s <= d < next s1.
  Lemma export_trace_ok s t : live1 s t -> let '(s1, p) := export_trace s t in
    ext s s1 /\ view_pm s1 p = convert_trace_to_pm4py (view_trace s t) /\ fresh_pm s s1 p.
  Proof.
    intros (L1 & L2 & L3 & L4). unfold export_trace. set (x := fold_left _ _ _).
    pose proof (ext_alloc_dct x s) as X. unfold alloc_dct in *. cbn [fst] in X. set (s1 := Store _ _ _ _ _) in *.
    assert (He : forall e, In e (contents s t) -> e < next s1) by (intros e Hin; destruct (L4 e Hin); cbn; lia).
    pose proof (export_events_ok (contents s t) s1 He) as G. destruct (export_events s1 (contents s t)) as [s2 ds]. destruct G as (X2 & E & F).
    pose proof (ex_next _ _ X2) as L. cbn [s1 next] in L. split; [eapply ext_trans; eauto|]. split.
    - unfold view_pm, convert_trace_to_pm4py. cbn [po_attrs po_events view_trace tr_attrs tid events]. rewrite E. f_equal.
      + rewrite (ex_dcts _ _ X2) by (cbn; lia). cbn. apply put_same.
      + rewrite map_map. reflexivity.
    - intros d [->|Hd]; [cbn; lia|]. cbn [po_events] in Hd. rewrite Forall_forall in F. specialize (F d Hd). cbn in F. lia.
  Qed.
  Lemma pm_ext s0 s s1 s2 p : next s0 <= next s -> ext s1 s2 -> fresh_pm s s1 p -> fresh_pm s0 s2 p /\ view_pm s2 p = view_pm s1 p.
  Proof.
    intros L X F. pose proof (ex_next _ _ X). split.
    - intros d Hd. specialize (F d Hd). lia.
    - unfold view_pm. rewrite (ex_dcts _ _ X) by (apply F; auto). f_equal. apply map_ext_in. intros e He. apply X. apply F. auto.
  Qed.
  Lemma export_ok : forall l s, exists_in s l -> let '(s1, ps) := export_log s l in
    ext s s1 /\ view_pm_log s1 ps = convert_eventlog_to_pm4py (view_log s l) /\ Forall (fresh_pm s s1) ps.
  Proof.
    induction l as [|t l IH]; intros s He; cbn [export_log].
    - split; [apply ext_refl|]. split; constructor.
    - assert (Ht : live1 s t) by (apply He; cbn; auto). pose proof (export_trace_ok s t Ht) as G. destruct (export_trace s t) as [s1 p]. destruct G as (X & E & F).
      assert (Hl : exists_in s l) by (intros y Hy; apply He; cbn; auto).
      assert (Hl1 : exists_in s1 l) by (intros y Hy; apply (ext_live s s1 y X); apply Hl; auto).
      assert (Vl : view_log s1 l = view_log s l) by (unfold view_log; apply map_ext_in; intros y Hy; apply (ext_live s s1 y X); apply Hl; auto).
      specialize (IH s1 Hl1). destruct (export_log s1 l) as [s2 ps]. destruct IH as (X2 & E2 & F2). rewrite Vl in E2.
      destruct (pm_ext s s s1 s2 p (le_n _) X2 F) as [F3 E3]. split; [eapply ext_trans; eauto|]. split.
      + cbn [view_pm_log convert_eventlog_to_pm4py view_log map]. rewrite E3, E. f_equal. exact E2.
      + constructor; auto. eapply Forall_impl; [|exact F2]. intros q Fq. apply (pm_ext s s1 s2 s2); auto; [apply X|apply ext_refl].
  Qed.
End E.

(*P C148 Which attributes event logs share with pm4py *)
(** from pm4py: the pm4py log stays as it is, and the new log is the one that
    C109 describes *)
Lemma C148_import : forall V a i (s s1 : store string (pyvalue V) (pyvalue V)) l r,
  pm_exists s l -> import_log a i s l = (s1, r) ->
  view_pm_log s1 l = view_pm_log s l /\
  match convert_pm4py_log a i (view_pm_log s l) with
  | Ok v => exists c, r = Ok c /\ view_log s1 c = v
  | Err x => r = Err x
  end.
Proof.
  intros V a i s s1 l r He E. pose proof (import_ok a i l s He) as G. rewrite E in G. destruct G as [X G].
  split; [apply (keeps_pm s s1 l); auto; apply keeps_ext; auto|]. rewrite Pm4pyG.read_mapM.
  destruct (mapM (Pm4pyG.read_trace a i) (view_pm_log s l)) as [v|x]; auto. destruct G as (c & -> & Vc & _). eauto.
Qed.
(** a trace of the new log and the trace it was made from have the same
    attributes for good: whatever one of them gets, the other one gets *)
Lemma C148_trace_attributes : forall V a i (s s1 : store string (pyvalue V) (pyvalue V)) l c j t u,
  pm_exists s l -> import_log a i s l = (s1, Ok c) -> nth_error l j = Some t -> nth_error c j = Some u ->
  (forall x, pmt_attrs (view_pm (set_dct (o_tattrs (trs s1 u)) x s1) t) = x) /\
  (forall x, tr_attrs (view_trace (set_dct (po_attrs t) x s1) u) = x).
Proof.
  intros V a i s s1 l c j t u He E Ht Hu. pose proof (import_ok a i l s He) as G. rewrite E in G. destruct G as [X G].
  destruct (mapM (Pm4pyG.read_trace a i) (view_pm_log s l)) as [v|x]; [|discriminate]. destruct G as (c' & Ec & _ & [M _ _ _]). injection Ec as <-.
  assert (Em : made s s1 t u).
  { clear - M Ht Hu. revert j Ht Hu. induction M as [|t0 u0 l c Hm M IH]; intros [|j] Ht Hu; cbn in Ht, Hu; try discriminate; eauto. congruence. }
  destruct Em as [_ _ Ea _ _]. split; intros x; cbn; rewrite Ea; apply put_same.
Qed.
(** events have attributes of their own *)
Lemma C148_event_attributes : forall V a i (s s1 : store string (pyvalue V) (pyvalue V)) l c,
  pm_exists s l -> import_log a i s l = (s1, Ok c) ->
  (forall u e x, In u c -> In e (contents s1 u) ->
     view_pm_log (set_dct (o_attrs (evs s1 e)) x s1) l = view_pm_log s l) /\
  (forall d x, in_pm_log l d -> map (@events _ _ _) (view_log (set_dct d x s1) c) = map (@events _ _ _) (view_log s1 c)).
Proof.
  intros V a i s s1 l c He E. pose proof (import_ok a i l s He) as G. rewrite E in G. destruct G as [X G].
  destruct (mapM (Pm4pyG.read_trace a i) (view_pm_log s l)) as [v|x]; [|discriminate]. destruct G as (c' & Ec & _ & Hi). injection Ec as <-. split.
  - intros u e x Hu Hin. apply (pm_same s s1); auto. intros d Hd. cbn. apply put_other.
    destruct (imported_in _ _ _ _ Hi u Hu) as (t & _ & M). destruct (ma_events _ _ _ _ M e Hin) as [_ Q]. lia.
  - intros d x (t & Ht & Hd). assert (L : d < next s) by (destruct (He t Ht) as [H1 H2]; destruct Hd as [->|Hd]; auto).
    unfold view_log. rewrite !map_map. apply map_ext_in. intros u Hu. cbn [view_trace events]. unfold contents. cbn [set_dct trs lsts].
    apply map_ext_in. intros e Hin. unfold view_event. cbn [set_dct evs dcts]. rewrite put_other; auto.
    destruct (imported_in _ _ _ _ Hi u Hu) as (q & _ & M). destruct (ma_events _ _ _ _ M e Hin) as [_ Q]. lia.
Qed.
(** so no method of the new log disturbs the pm4py log *)
Lemma C148_edits : forall V a i (s s1 s2 : store string (pyvalue V) (pyvalue V)) l c c' xs,
  pm_exists s l -> import_log a i s l = (s1, Ok c) -> edit_all xs s1 c = (s2, c') ->
  view_log s2 c' = edited_all xs (view_log s1 c) /\ view_pm_log s2 l = view_pm_log s l.
Proof.
  intros V a i s s1 s2 l c c' xs He E Es. pose proof (import_ok a i l s He) as G. rewrite E in G. destruct G as [X G].
  destruct (mapM (Pm4pyG.read_trace a i) (view_pm_log s l)) as [v|x]; [|discriminate]. destruct G as (c0 & Ec & _ & Hi). injection Ec as <-.
  pose proof (edit_all_ok xs s1 c (imported_fine _ _ _ _ X He Hi)) as G. rewrite Es in G. destruct G as [G1 [_ G2]]. split; auto.
  apply (pm_same s s1); auto. intros d Hd. apply G2. pose proof (ex_next _ _ X). lia.
Qed.
Lemma C148_derive : forall V minus negative start_attr end_attr dur_attr a i (s s1 s2 : store string (pyvalue V) (pyvalue V)) l c r,
  pm_exists s l -> own_attrs l -> import_log a i s l = (s1, Ok c) ->
  derive_obj minus negative start_attr end_attr dur_attr s1 c = (s2, r) ->
  view_pm_log s2 l = view_pm_log s l /\
  match derive_event_duration minus negative start_attr end_attr dur_attr (view_log s1 c) with
  | Ok v => r = Ok tt /\ view_log s2 c = v
  | Err x => r = Err x
  end.
Proof.
  intros V minus negative sa ea da a i s s1 s2 l c r He Ho E Es. pose proof (import_ok a i l s He) as G. rewrite E in G. destruct G as [X G].
  destruct (mapM (Pm4pyG.read_trace a i) (view_pm_log s l)) as [v|x]; [|discriminate]. destruct G as (c0 & Ec & _ & Hi). injection Ec as <-.
  pose proof (derive_ok minus negative sa ea da c s1 (imported_own _ _ _ _ He Ho Hi)) as G. rewrite Es in G. destruct G as [S G]. split; auto.
  apply (pm_same s s1); auto. intros d Hd. apply S. intros Hin. apply (imported_dicts _ _ _ _ Hi) in Hin. lia.
Qed.
Lemma C148_join : forall V (EV : Eq (pyvalue V)) minus plus ord start_attr end_attr dur_attr raise_error blacklist a i (s s1 s2 : store string (pyvalue V) (pyvalue V)) l c r,
  pm_exists s l -> own_attrs l -> import_log a i s l = (s1, Ok c) ->
  join_obj minus plus ord start_attr end_attr dur_attr raise_error blacklist s1 c = (s2, r) ->
  view_pm_log s2 l = view_pm_log s l /\
  match join_successive minus plus ord start_attr end_attr dur_attr raise_error blacklist (view_log s1 c) with
  | Ok v => r = Ok tt /\ view_log s2 c = v
  | Err x => r = Err x
  end.
Proof.
  intros V EV minus plus ord sa ea da re bl a i s s1 s2 l c r He Ho E Es. pose proof (import_ok a i l s He) as G. rewrite E in G. destruct G as [X G].
  destruct (mapM (Pm4pyG.read_trace a i) (view_pm_log s l)) as [v|x]; [|discriminate]. destruct G as (c0 & Ec & _ & Hi). injection Ec as <-.
  pose proof (imported_fine _ _ _ _ X He Hi) as [Hf _].
  pose proof (join_ok minus plus ord sa ea da re bl c s1 (imported_own _ _ _ _ He Ho Hi) (im_nodup _ _ _ _ Hi)) as G. rewrite Es in G.
  destruct G as [S G]; [intros t Ht; apply Hf; auto|]. split.
  - apply (pm_same s s1); auto. intros d Hd. apply S. intros Hin. apply (imported_dicts _ _ _ _ Hi) in Hin. lia.
  - destruct (join_successive _ _ _ _ _ _ _ _ _) as [v0|x]; auto. tauto.
Qed.
(** to pm4py: the pm4py log has the content that C109 describes, in
    dictionaries of its own; neither of the two logs sees what happens to the
    attributes of the other one *)
Lemma C148_export : forall V (s s1 : store string (pyvalue V) (pyvalue V)) l ps,
  exists_in s l -> export_log s l = (s1, ps) ->
  view_log s1 l = view_log s l /\ view_pm_log s1 ps = convert_eventlog_to_pm4py (view_log s l) /\
  (forall d x, in_pm_log ps d -> view_log (set_dct d x s1) l = view_log s l) /\
  (forall d x, in_log s1 l d -> view_pm_log (set_dct d x s1) ps = view_pm_log s1 ps).
Proof.
  intros V s s1 l ps He E. pose proof (export_ok l s He) as G. rewrite E in G. destruct G as (X & Ev & F).
  assert (Vl : view_log s1 l = view_log s l) by (unfold view_log; apply map_ext_in; intros y Hy; apply (ext_live s s1 y X); apply He; auto).
  rewrite Forall_forall in F. split; auto. split; auto. split; intros d x.
  - intros (p & Hp & Hd). specialize (F p Hp d Hd). rewrite <- Vl. unfold view_log. apply map_ext_in. intros t Ht.
    destruct (ext_live s s1 t X (He t Ht)) as (_ & Et & Ec & _ & Ee). destruct (He t Ht) as (_ & _ & H3 & H4).
    unfold view_trace. rewrite <- Et in H3. change (contents (set_dct d x s1) t) with (contents s1 t). cbn [set_dct trs dcts]. rewrite put_other by lia. f_equal.
    apply map_ext_in. intros e Hin. rewrite Ec in Hin. unfold view_event. cbn [set_dct evs dcts]. rewrite put_other; auto. rewrite (Ee e Hin). destruct (H4 e Hin). lia.
  - intros (t & Ht & Hd). assert (L : d < next s).
    { destruct (ext_live s s1 t X (He t Ht)) as (_ & Et & Ec & _ & Ee). destruct (He t Ht) as (_ & _ & H3 & H4).
      destruct Hd as [->|(e & Hin & ->)]; [rewrite Et; auto|]. rewrite Ec in Hin. rewrite (Ee e Hin). apply H4. auto. }
    unfold view_pm_log, view_pm. apply map_ext_in. intros p Hp. cbn [set_dct dcts]. specialize (F p Hp). rewrite put_other by (specialize (F (po_attrs p) (or_introl eq_refl)); lia).
    f_equal. apply map_ext_in. intros e Hin. apply put_other. specialize (F e (or_intror Hin)). lia.
Qed.
