(** Event logs exchanged with pm4py, as objects: C148 *)
From Coq Require Import String ZArith QArith Permutation Lia.
From Verif.Model Require Import Base EventLog LogNoise LogObjects Pm4py Pm4pyObjects.
From Verif.Spec Require Import LogObjectSpec Pm4pyObjectSpec.
From Verif.Lib Require Import ListLib.
From Verif.Proofs Require Import LogObjA LogObjB LogObjC LogObjD.
From Verif.Proofs Require Pm4pyG.
Open Scope list_scope.
Open Scope nat_scope.

(** edits never change a dictionary *)
Section K.
  Context {A V I : Type} `{EA : Eq A}.
  Implicit Types (s : store A V I) (l : list nat).
  Definition keeps s s' : Prop := next s <= next s' /\ forall x, x < next s -> dcts s' x = dcts s x.
  Lemma keeps_refl s : keeps s s.
  Proof. split; auto. Qed.
  Lemma keeps_trans s1 s2 s3 : keeps s1 s2 -> keeps s2 s3 -> keeps s1 s3.
  Proof. intros [A1 A2] [B1 B2]. split; [lia|]. intros x Hx. rewrite B2, A2 by lia. auto. Qed.
  Lemma keeps_rebind f s t : keeps s (rebind f s t).
  Proof. split; cbn; auto. Qed.
  Lemma keeps_lst a x s : keeps s (set_lst a x s).
  Proof. split; cbn; auto. Qed.
  Lemma keeps_new a s : keeps s (fst (new_event_obj a s)).
  Proof. split; cbn; [lia|]. intros x Hx. apply put_other. lia. Qed.
  Lemma keeps_traces {X} (step : X -> store A V I -> nat -> store A V I * X) : (forall x s t, keeps s (fst (step x s t))) ->
    forall l x s, keeps s (for_traces step x s l).
  Proof.
    intros H. induction l as [|t l IH]; intros x s; cbn [for_traces]; [apply keeps_refl|].
    pose proof (H x s t) as K. destruct (step x s t) as [s1 x1]. cbn [fst] in K. apply (keeps_trans s s1); auto.
  Qed.
  Lemma keeps_each step : (forall s t, keeps s (step s t)) -> forall l s, keeps s (for_each step s l).
  Proof. intros H l s. apply keeps_traces. intros x s' t. apply H. Qed.
  Lemma keeps_add a p us s t : keeps s (add_on_trace_obj a p us s t).
  Proof.
    unfold add_on_trace_obj. match goal with |- context [fold_left ?f _ _] => set (F := f) end.
    assert (G : forall xs st, keeps (fst st) (fst (fold_left F xs st))).
    { induction xs as [|[e u] xs IH]; intros [s1 out]; cbn [fold_left]; [apply keeps_refl|].
      eapply keeps_trans; [|apply IH]. unfold F. destruct (Qlt_bool u p); [|apply keeps_refl].
      pose proof (keeps_new a s1) as K. destruct (new_event_obj a s1); auto. }
    pose proof (G (combine (contents s t) us) (s, [])) as K. destruct (fold_left F _ (s, [])) as [s1 es]. cbn [fst] in K.
    eapply keeps_trans; [exact K|]. apply keeps_rebind.
  Qed.
  Lemma keeps_noise : forall n s l, keeps s (fst (apply_obj n s l)).
  Proof.
    fix IH 1. intros [a p rand|p rand|p rand|ns] s l; cbn [apply_obj].
    1-3: destruct (Qlt_bool 0 p); cbn [fst]; [|apply keeps_refl]; apply keeps_traces; intros x s' t; cbn [fst].
    - apply keeps_add.
    - apply keeps_rebind.
    - apply keeps_lst.
    - revert s l. induction ns as [|n ns IHn]; intros s l; cbn [fold_left]; [apply keeps_refl|].
      pose proof (IH n s l) as K. destruct (apply_obj n s l) as [s1 l1]. eapply keeps_trans; [exact K|apply IHn].
  Qed.
  Lemma keeps_edit x s l : keeps s (fst (do_edit x s l)).
  Proof.
    destruct x as [a b|a b|a|a| |n]; cbn [do_edit].
    - unfold cut_traces_obj. cbn [fst]. destruct a as [a|], b as [b|]; try apply keeps_refl;
        repeat (first [eapply keeps_trans; [|apply keeps_each; intros; apply keeps_rebind] | apply keeps_refl]).
    - unfold filter_activities_obj. cbn [fst]. apply keeps_each. intros. apply keeps_rebind.
    - cbn [fst]. apply keeps_each. intros s' t. pose proof (keeps_new a s') as K. destruct (new_event_obj a s') as [s1 e]. eapply keeps_trans; [exact K|apply keeps_lst].
    - cbn [fst]. apply keeps_each. intros s' t. pose proof (keeps_new a s') as K. destruct (new_event_obj a s') as [s1 e]. eapply keeps_trans; [exact K|apply keeps_lst].
    - cbn [fst]. apply keeps_each. intros. apply keeps_rebind.
    - apply keeps_noise.
  Qed.
  Lemma keeps_run : forall h s l m, keeps s (fst (fst (run h s l m))).
  Proof.
    induction h as [|[w x] h IH]; intros s l m; cbn [run]; [apply keeps_refl|]. destruct w.
    - pose proof (keeps_edit x s l) as K. destruct (do_edit x s l) as [s1 l1]. eapply keeps_trans; [exact K|apply IH].
    - pose proof (keeps_edit x s m) as K. destruct (do_edit x s m) as [s1 l1]. eapply keeps_trans; [exact K|apply IH].
  Qed.
End K.

Section I.
  Context {V : Type}.
  Notation py_store := (store string (pyvalue V) (pyvalue V)).
  Implicit Types (s : py_store).

  Lemma keeps_ext s s' : ext s s' -> keeps s s'.
  Proof. intros [A1 A2 A3 A4 A5]. split; auto. Qed.
  Lemma keeps_pm s s' l : keeps s s' -> pm_exists s l -> view_pm_log s' l = view_pm_log s l /\ pm_exists s' l.
  Proof.
    intros [K1 K2] He. split.
    - unfold view_pm_log, view_pm. apply map_ext_in. intros t Ht. destruct (He t Ht) as [H1 H2]. rewrite K2 by auto. f_equal.
      apply map_ext_in. auto.
    - intros t Ht. destruct (He t Ht) as [H1 H2]. split; [lia|]. intros e Hin. specialize (H2 e Hin). lia.
  Qed.
  Lemma ext_alloc_dct x s : ext s (fst (alloc_dct x s)).
  Proof. constructor; cbn; auto. intros y Hy. apply put_other. lia. Qed.
  Lemma ext_alloc_ev x s : ext s (fst (alloc_ev x s)).
  Proof. constructor; cbn; auto. intros y Hy. apply put_other. lia. Qed.
  Lemma ext_alloc_lst x s : ext s (fst (alloc_lst x s)).
  Proof. constructor; cbn; auto. intros y Hy. apply put_other. lia. Qed.
  Lemma ext_alloc_tr x s : ext s (fst (alloc_tr x s)).
  Proof. constructor; cbn; auto. intros y Hy. apply put_other. lia. Qed.

  Definition fresh_event s s1 (e : nat) : Prop := next s <= e < next s1 /\ next s <= o_attrs (evs s1 e) < next s1.
  Lemma fresh_event_ext s0 s s1 s2 e : next s0 <= next s -> ext s1 s2 -> fresh_event s s1 e -> fresh_event s0 s2 e /\ evs s2 e = evs s1 e /\ view_event s2 e = view_event s1 e.
  Proof.
    intros L [A1 A2 A3 A4 A5] [H1 H2]. unfold fresh_event. rewrite A2 by lia. split; [lia|]. split; auto. unfold view_event. rewrite A2, A5 by lia. auto.
  Qed.
  Lemma import_events_ok a : forall es s, (forall e, In e es -> e < next s) -> let '(s1, r) := import_events a s es in
    ext s s1 /\ match mapM (convert_event a) (map (dcts s) es) with
    | Ok v => exists ns, r = Ok ns /\ map (view_event s1) ns = v /\ Forall (fresh_event s s1) ns /\ NoDup (map (fun e => o_attrs (evs s1 e)) ns)
    | Err x => r = Err x
    end.
  Proof.
    induction es as [|e es IH]; intros s He; cbn [import_events map mapM bind].
    - split; [apply ext_refl|]. exists []. cbn. split; auto. split; auto. split; constructor.
    - unfold convert_event at 1. destruct (dict_get a (dcts s e)) as [v|]; cbn [of_option bind]; [|split; auto; apply ext_refl].
      pose proof (ext_alloc_dct (dcts s e) s) as X1. unfold alloc_dct in *. cbn [fst] in X1. set (s1 := Store _ _ _ _ _) in *.
      destruct v as [n|v]; cbn [bind]; [|split; auto].
      pose proof (ext_alloc_ev (Ev n (next s) None) s1) as X2. unfold alloc_ev in *. cbn [fst] in X2. set (s2 := Store (put (evs s1) _ _) _ _ _ _) in *.
      assert (X3 : ext s s2) by (eapply ext_trans; eauto).
      assert (He2 : forall y, In y es -> y < next s2).
      { intros y Hy. assert (y < next s) by (apply He; cbn; auto). pose proof (ex_next _ _ X3). lia. }
      specialize (IH s2 He2). destruct (import_events a s2 es) as [s3 r]. destruct IH as [X4 IH].
      assert (X5 : ext s s3) by (eapply ext_trans; eauto).
      assert (Em : map (dcts s2) es = map (dcts s) es).
      { apply map_ext_in. intros y Hy. apply X3. apply He. cbn. auto. }
      rewrite Em in IH. destruct (mapM (convert_event a) (map (dcts s) es)) as [w|x]; cbn [bind]; [|subst r; split; auto].
      destruct IH as (ns & -> & <- & F & N). split; auto. eexists. split; [reflexivity|].
      assert (Ee : evs s2 (next s1) = Ev n (next s) None) by apply put_same.
      assert (Fe : fresh_event s s2 (next s1)).
      { unfold fresh_event. rewrite Ee. cbn. lia. }
      destruct (fresh_event_ext s s s2 s3 (next s1)) as (F1 & F2 & F3); auto.
      split; [|split].
      + cbn [map]. f_equal. rewrite F3. unfold view_event. rewrite Ee. cbn [o_act o_attrs o_trans]. cbn. rewrite put_same. auto.
      + constructor; auto. eapply Forall_impl; [|exact F]. intros y [Hy Hz]. pose proof (ex_next _ _ X3). split; lia.
      + cbn [map]. constructor; auto. rewrite F2, Ee. cbn [o_attrs]. intros Hin. apply in_map_iff in Hin. destruct Hin as (y & Ey & Hy).
        rewrite Forall_forall in F. destruct (F y Hy) as [_ Hz]. rewrite Ey in Hz. revert Hz. cbn. lia.
  Qed.

  Record made s s1 (t : pm_obj) (u : nat) : Prop := {
    ma_tr : next s <= u < next s1;
    ma_lst : next s <= o_events (trs s1 u) < next s1;
    ma_attrs : o_tattrs (trs s1 u) = po_attrs t;
    ma_events : forall e, In e (contents s1 u) -> fresh_event s s1 e;
    ma_dicts : NoDup (dicts_of s1 u) }.
  Lemma made_ext s0 s s1 s2 t u : next s0 <= next s -> ext s1 s2 -> made s s1 t u ->
    made s0 s2 t u /\ trs s2 u = trs s1 u /\ contents s2 u = contents s1 u /\ dicts_of s2 u = dicts_of s1 u /\
    (po_attrs t < next s1 -> view_trace s2 u = view_trace s1 u).
  Proof.
    intros L X [M1 M2 M3 M4 M5]. pose proof X as [A1 A2 A3 A4 A5].
    assert (Et : trs s2 u = trs s1 u) by (apply A3; lia).
    assert (Ec : contents s2 u = contents s1 u) by (unfold contents; rewrite Et; apply A4; lia).
    assert (Fe : forall e, In e (contents s1 u) -> fresh_event s0 s2 e /\ evs s2 e = evs s1 e /\ view_event s2 e = view_event s1 e).
    { intros e He. apply (fresh_event_ext s0 s s1); auto. }
    assert (Ed : dicts_of s2 u = dicts_of s1 u).
    { unfold dicts_of, dict_of. rewrite Ec. apply map_ext_in. intros e He. destruct (Fe e He) as (_ & -> & _). auto. }
    split; [|split; [|split; [|split]]]; auto.
    - constructor; rewrite ?Et, ?Ec, ?Ed; auto; try lia. intros e He. apply Fe. auto.
    - intros Hlt. unfold view_trace. rewrite Et, Ec, A5 by lia. f_equal. apply map_ext_in. intros e He. apply Fe. auto.
  Qed.
  Lemma import_trace_ok a i s t : pm_exists s [t] -> let '(s1, r) := import_trace a i s t in
    ext s s1 /\ match Pm4pyG.read_trace a i (view_pm s t) with
    | Ok v => exists u, r = Ok u /\ view_trace s1 u = v /\ made s s1 t u
    | Err x => r = Err x
    end.
  Proof.
    intros He. destruct (He t) as [H1 H2]; [cbn; auto|]. unfold import_trace, Pm4pyG.read_trace. cbn [view_pm pmt_attrs pmt_events].
    destruct (dict_get i (dcts s (po_attrs t))) as [v|]; cbn [of_option bind]; [|split; auto; apply ext_refl].
    pose proof (import_events_ok a (po_events t) s H2) as G. destruct (import_events a s (po_events t)) as [s1 r]. destruct G as [X G].
    destruct (mapM (convert_event a) (map (dcts s) (po_events t))) as [w|x]; cbn [bind]; [|subst r; split; auto].
    destruct G as (ns & -> & <- & F & N).
    pose proof (ext_alloc_lst ns s1) as X2. unfold alloc_lst in *. cbn [fst] in X2. set (s2 := Store _ _ (put _ _ _) _ _) in *.
    destruct ns as [|n ns]; cbn [map new_trace].
    - split; auto. eapply ext_trans; eauto.
    - pose proof (ext_alloc_tr (Tr v (next s1) (po_attrs t)) s2) as X3. unfold alloc_tr in *. cbn [fst] in X3. set (s3 := Store _ (put (trs s2) _ _) _ _ _) in *.
      assert (X4 : ext s1 s3) by (eapply ext_trans; eauto).
      split; [eapply ext_trans; eauto|]. exists (next s2). split; auto.
      assert (Et : trs s3 (next s2) = Tr v (next s1) (po_attrs t)) by (cbn; apply put_same).
      assert (Ec : contents s3 (next s2) = n :: ns) by (unfold contents; rewrite Et; cbn [s3 s2 lsts o_events]; apply put_same).
      assert (Fe : forall e, In e (n :: ns) -> fresh_event s s3 e /\ evs s3 e = evs s1 e /\ view_event s3 e = view_event s1 e).
      { intros e Hin. rewrite Forall_forall in F. apply (fresh_event_ext s s s1); auto. }
      pose proof (ex_next _ _ X) as L1. split.
      + unfold view_trace. rewrite Et, Ec. cbn [o_tid o_tattrs].
        rewrite <- (ex_dcts _ _ X (po_attrs t) H1), <- (ex_dcts _ _ X4 (po_attrs t)) by lia.
        assert (E : map (view_event s3) (n :: ns) = map (view_event s1) (n :: ns)) by (apply map_ext_in; intros e Hin; apply Fe; auto). rewrite E. reflexivity.
      + constructor.
        * cbn. lia.
        * rewrite Et. cbn. lia.
        * rewrite Et. auto.
        * rewrite Ec. intros e Hin. apply Fe. auto.
        * unfold dicts_of, dict_of. rewrite Ec. erewrite map_ext_in; [exact N|]. intros e Hin. destruct (Fe e Hin) as (_ & -> & _). auto.
  Qed.
  Record imported s s1 l c : Prop := {
    im_made : Forall2 (made s s1) l c;
    im_nodup : NoDup c;
    im_lists : NoDup (map (fun u => o_events (trs s1 u)) c);
    im_dicts : NoDup (flat_map (dicts_of s1) c) }.
  Lemma import_ok a i : forall l s, pm_exists s l -> let '(s1, r) := import_log a i s l in
    ext s s1 /\ match mapM (Pm4pyG.read_trace a i) (view_pm_log s l) with
    | Ok v => exists c, r = Ok c /\ view_log s1 c = v /\ imported s s1 l c
    | Err x => r = Err x
    end.
  Proof.
    induction l as [|t l IH]; intros s He; cbn [import_log view_pm_log map mapM bind].
    - split; [apply ext_refl|]. exists []. split; auto. split; auto. constructor; constructor.
    - assert (Ht : pm_exists s [t]) by (intros y [<-|[]]; apply He; cbn; auto).
      pose proof (import_trace_ok a i s t Ht) as G. clear Ht. destruct (import_trace a i s t) as [s1 r]. destruct G as [X G].
      destruct (Pm4pyG.read_trace a i (view_pm s t)) as [v|x]; cbn [bind]; [|subst r; split; auto].
      destruct G as (u & -> & Vu & M).
      assert (Hl : pm_exists s l) by (intros y Hy; apply He; cbn; auto).
      destruct (keeps_pm s s1 l (keeps_ext _ _ X) Hl) as [Vl Hl1].
      specialize (IH s1 Hl1). destruct (import_log a i s1 l) as [s2 r]. destruct IH as [X2 IH]. rewrite Vl in IH.
      fold (view_pm_log s l). assert (X3 : ext s s2) by (eapply ext_trans; eauto).
      destruct (mapM (Pm4pyG.read_trace a i) (view_pm_log s l)) as [w|x]; cbn [bind]; [|subst r; split; auto].
      destruct IH as (c & -> & Vc & [I1 I2 I3 I4]). split; auto.
      destruct (made_ext s s s1 s2 t u (le_n _) X2 M) as (M2 & Et & Ec & Ed & Ev).
      assert (Hc : forall y, In y c -> exists q, made s1 s2 q y).
      { intros y Hy. clear - I1 Hy. induction I1; [destruct Hy|]. destruct Hy as [<-|Hy]; eauto. }
      pose proof (ex_next _ _ X) as L1.
      exists (u :: c). split; auto. split; [|constructor].
      + cbn [view_log map]. rewrite Ev, Vu; [f_equal; exact Vc|]. destruct (He t) as [Ht _]; [cbn; auto|]. lia.
      + constructor; auto. clear - I1 L1. induction I1 as [|q y l c Hm I1 IH]; constructor; auto. apply (made_ext s s1 s2 s2); auto. apply ext_refl.
      + constructor; auto. intros Hin. destruct (Hc u Hin) as [q Hm]. pose proof (ma_tr _ _ _ _ Hm). pose proof (ma_tr _ _ _ _ M). lia.
      + cbn [map]. constructor; auto. intros Hin. apply in_map_iff in Hin. destruct Hin as (y & Ey & Hy). destruct (Hc y Hy) as [q Hm].
        pose proof (ma_lst _ _ _ _ Hm) as Q1. pose proof (ma_lst _ _ _ _ M) as Q2. rewrite Ey, Et in Q1. lia.
      + cbn [flat_map]. rewrite Ed. apply NoDup_app_disjoint'; auto; [apply M|]. intros d Hd Hin.
        apply in_flat_map in Hin. destruct Hin as (y & Hy & Hd2). destruct (Hc y Hy) as [q Hm].
        unfold dicts_of, dict_of in Hd, Hd2. apply in_map_iff in Hd, Hd2. destruct Hd as (e & <- & Hin), Hd2 as (e2 & E2 & Hin2).
        destruct (ma_events _ _ _ _ M e Hin) as [_ Q1]. destruct (ma_events _ _ _ _ Hm e2 Hin2) as [_ Q2]. rewrite E2 in Q2. lia.
  Qed.
End I.
