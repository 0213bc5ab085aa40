(** Event logs as objects: edits of the events of traces (C136 - C138) *)
From Coq Require Import ZArith QArith Permutation.
From Verif.Model Require Import Base EventLog LogNoise LogObjects.
From Verif.Spec Require Import LogObjectSpec.
From Verif.Lib Require Import ListLib.
Open Scope list_scope.
Open Scope nat_scope.

Lemma put_same {X} (f : nat -> X) a x : put f a x a = x.
Proof. unfold put. rewrite Nat.eqb_refl. auto. Qed.
Lemma put_other {X} (f : nat -> X) a b x : b <> a -> put f a x b = f b.
Proof. intros N. unfold put. rewrite (proj2 (Nat.eqb_neq _ _)); auto. Qed.

Lemma app_inj_len {X} (a b c d : list X) : a ++ b = c ++ d -> length a = length c -> a = c /\ b = d.
Proof.
  revert c. induction a as [|x a IH]; intros [|y c] E L; cbn in *; try discriminate; auto.
  injection E as -> E. destruct (IH c E) as [-> ->]; auto.
Qed.

Lemma cons_inj {X} (x y : X) l m : x :: l = y :: m -> x = y /\ l = m.
Proof. intros E. injection E. auto. Qed.

Section O.
  Context {A V I : Type} `{EA : Eq A}.
  Implicit Types (s : store A V I) (l m : list nat) (t : nat).
  Notation store := (store A V I).

  Definition live1 s t : Prop := t < next s /\ o_events (trs s t) < next s /\ o_tattrs (trs s t) < next s /\
    forall e, In e (contents s t) -> e < next s /\ o_attrs (evs s e) < next s.

  (** [s'] comes from [s] by changes of trace [t] and of its list only *)
  Record touched s s' t : Prop := {
    to_next : next s <= next s';
    to_evs : forall x, x < next s -> evs s' x = evs s x;
    to_dcts : forall x, x < next s -> dcts s' x = dcts s x;
    to_trs : forall x, x < next s -> x <> t -> trs s' x = trs s x;
    to_tid : o_tid (trs s' t) = o_tid (trs s t);
    to_tattrs : o_tattrs (trs s' t) = o_tattrs (trs s t);
    to_lsts : forall x, x < next s -> x <> o_events (trs s t) -> lsts s' x = lsts s x;
    to_list : o_events (trs s' t) = o_events (trs s t) \/ next s <= o_events (trs s' t) }.
  (** ... and makes the events of [t] those that [f] gives *)
  Definition acts_as (f : list (event A V) -> list (event A V)) s s' t : Prop :=
    touched s s' t /\ live1 s' t /\ map (view_event s') (contents s' t) = f (map (view_event s) (contents s t)).

  Lemma view_event_same s s' e : e < next s -> o_attrs (evs s e) < next s ->
    (forall x, x < next s -> evs s' x = evs s x) -> (forall x, x < next s -> dcts s' x = dcts s x) -> view_event s' e = view_event s e.
  Proof. intros H1 H2 He Hd. unfold view_event. rewrite He, Hd by auto. auto. Qed.
  Lemma touched_other s s' t u : touched s s' t -> live1 s u -> u <> t -> o_events (trs s u) <> o_events (trs s t) ->
    trs s' u = trs s u /\ contents s' u = contents s u /\ live1 s' u /\ view_trace s' u = view_trace s u.
  Proof.
    intros Ht (L1 & L2 & L3 & L4) N1 N2. pose proof (to_next _ _ _ Ht) as Hn.
    assert (Et : trs s' u = trs s u) by (apply (to_trs _ _ _ Ht); auto).
    assert (Ec : contents s' u = contents s u) by (unfold contents; rewrite Et; apply (to_lsts _ _ _ Ht); auto).
    split; auto. split; auto. split.
    - unfold live1. rewrite Et, Ec. split; [lia|]. split; [lia|]. split; [lia|]. intros e He. destruct (L4 e He) as [E1 E2].
      rewrite (to_evs _ _ _ Ht) by auto. lia.
    - unfold view_trace. rewrite Et, Ec, (to_dcts _ _ _ Ht) by auto. f_equal. apply map_ext_in. intros e He. destruct (L4 e He).
      apply view_event_same; auto; apply Ht.
  Qed.
  Lemma acts_view f s s' t : live1 s t -> acts_as f s s' t -> view_trace s' t = with_events (view_trace s t) (f (events (view_trace s t))).
  Proof.
    intros (L1 & L2 & L3 & L4) (Ht & _ & E). unfold view_trace, with_events. cbn [tid events tr_attrs].
    rewrite E, (to_tid _ _ _ Ht), (to_tattrs _ _ _ Ht), (to_dcts _ _ _ Ht) by auto. auto.
  Qed.

  (** loops over logs *)
  Definition fine s l : Prop := exists_in s l /\ own_lists s l.
  Lemma fine_perm s l m : Permutation l m -> fine s l -> fine s m.
  Proof.
    intros P [He [H1 H2]]. split; [|split].
    - intros t Ht. apply He. eapply Permutation_in; [apply Permutation_sym|]; eauto.
    - eapply Permutation_NoDup; eauto.
    - eapply Permutation_NoDup; [apply Permutation_map|]; eauto.
  Qed.
  Lemma acts_fine f s s' t l : acts_as f s s' t -> fine s (t :: l) ->
    fine s' (t :: l) /\ view_log s' l = view_log s l /\ view_trace s' t = with_events (view_trace s t) (f (events (view_trace s t))).
  Proof.
    intros Ha [He [H1 H2]]. cbn [map] in H2. apply NoDup_cons_iff in H1, H2. destruct H1 as [N1 H1], H2 as [N2 H2].
    assert (Lt : live1 s t) by (apply He; cbn; auto).
    assert (Ho : forall u, In u l -> trs s' u = trs s u /\ contents s' u = contents s u /\ live1 s' u /\ view_trace s' u = view_trace s u).
    { intros u Hu. apply (touched_other s s' t); [apply Ha|apply He; cbn; auto|intros ->; auto|]. intros E. apply N2. rewrite <- E.
      apply (in_map (fun t => o_events (trs s t))). auto. }
    assert (Em : map (fun t => o_events (trs s' t)) l = map (fun t => o_events (trs s t)) l).
    { apply map_ext_in. intros u Hu. destruct (Ho u Hu) as [-> _]. auto. }
    split; [split; [|split]|split].
    - intros u [<-|Hu]; [apply Ha|apply Ho; auto].
    - constructor; auto.
    - cbn [map]. rewrite Em. constructor; auto. destruct Ha as (Ht & _). destruct (to_list _ _ _ Ht) as [->|Hl]; auto.
      rewrite in_map_iff. intros (u & E & Hu). assert (o_events (trs s u) < next s) by (apply He; cbn; auto). lia.
    - unfold view_log. apply map_ext_in. intros u Hu. apply Ho. auto.
    - apply (acts_view f); auto.
  Qed.

  Fixpoint mapped {X} (F : X -> list (event A V) -> list (event A V) * X) (x : X) (vs : log A V I) : log A V I :=
    match vs with
    | [] => []
    | v :: vs' => with_events v (fst (F x (events v))) :: mapped F (snd (F x (events v))) vs'
    end.
  Lemma for_traces_ok {X} (step : X -> store -> nat -> store * X) (F : X -> list (event A V) -> list (event A V) * X) :
    (forall x s t, live1 s t -> acts_as (fun es => fst (F x es)) s (fst (step x s t)) t /\
       snd (step x s t) = snd (F x (events (view_trace s t)))) ->
    forall l m x s, fine s (l ++ m) -> let s' := for_traces step x s l in
      fine s' (l ++ m) /\ view_log s' l = mapped F x (view_log s l) /\ view_log s' m = view_log s m.
  Proof.
    intros Hstep. induction l as [|t l IH]; intros m x s Hf; cbn [for_traces].
    - auto.
    - cbn [app] in Hf. assert (Lt : live1 s t) by (apply Hf; cbn; auto).
      destruct (Hstep x s t Lt) as [Ha Ex]. destruct (step x s t) as [s1 x1]. cbn [fst snd] in *.
      destruct (acts_fine _ _ _ _ _ Ha Hf) as (Hf1 & Ev & Et).
      assert (P : Permutation (t :: l ++ m) (l ++ t :: m)) by apply Permutation_middle.
      destruct (IH (t :: m) x1 s1 (fine_perm _ _ _ P Hf1)) as (Hf2 & E2 & E3).
      split; [apply (fine_perm _ _ _ (Permutation_sym P)); auto|]. unfold view_log in *. cbn [map] in *. rewrite map_app in Ev. rewrite map_app in Ev.
      apply app_inj_len in Ev; [|rewrite !map_length; auto]. destruct Ev as [Ev1 Ev2]. apply cons_inj in E3. destruct E3 as [E3 E4].
      split.
      + cbn [mapped]. rewrite E2, E3, Et, Ev1, <- Ex. auto.
      + rewrite E4. auto.
  Qed.
  Lemma for_each_ok (step : store -> nat -> store) (F : list (event A V) -> list (event A V)) :
    (forall s t, live1 s t -> acts_as F s (step s t) t) ->
    forall l m s, fine s (l ++ m) -> let s' := for_each step s l in
      fine s' (l ++ m) /\ view_log s' l = map (fun v => with_events v (F (events v))) (view_log s l) /\ view_log s' m = view_log s m.
  Proof.
    intros Hs l m s Hf. unfold for_each.
    destruct (for_traces_ok (fun (_ : unit) s t => (step s t, tt)) (fun _ es => (F es, tt)) (fun _ s t L => conj (Hs s t L) eq_refl) l m tt s Hf) as (H1 & H2 & H3).
    split; auto. split; auto. cbn zeta in H2. rewrite H2. clear. induction (view_log s l) as [|v vs IH]; cbn [mapped map fst snd]; auto. rewrite IH. auto.
  Qed.

  (** single steps *)
  Lemma rebind_acts (g : list nat -> list nat) s t : live1 s t -> incl (g (contents s t)) (contents s t) ->
    forall F, map (view_event s) (g (contents s t)) = F (map (view_event s) (contents s t)) -> acts_as F s (rebind g s t) t.
  Proof.
    intros (L1 & L2 & L3 & L4) Hi F E. unfold rebind, alloc_lst. cbn [fst snd].
    assert (Ec : contents (set_events t (next s) (Store (evs s) (trs s) (put (lsts s) (next s) (g (contents s t))) (dcts s) (S (next s)))) t = g (contents s t)).
    { unfold contents at 1. unfold set_events. cbn [trs lsts]. rewrite put_same. cbn [o_events]. rewrite put_same. auto. }
    split; [|split].
    - constructor; unfold set_events; cbn [evs trs lsts dcts next]; auto; try lia.
      + intros x Hx N. apply put_other. auto.
      + rewrite put_same. auto.
      + rewrite put_same. auto.
      + intros x Hx _. apply put_other. lia.
      + rewrite put_same. cbn. right. lia.
    - unfold live1. rewrite Ec. unfold set_events. cbn [evs trs lsts dcts next]. rewrite put_same. cbn [o_events o_tattrs].
      split; [lia|]. split; [lia|]. split; [lia|]. intros e He. destruct (L4 e (Hi e He)). lia.
    - rewrite Ec. rewrite <- E. auto.
  Qed.
  Lemma set_lst_acts x s t : live1 s t -> (forall e, In e x -> e < next s /\ o_attrs (evs s e) < next s) ->
    forall F, map (view_event s) x = F (map (view_event s) (contents s t)) -> acts_as F s (set_lst (o_events (trs s t)) x s) t.
  Proof.
    intros (L1 & L2 & L3 & L4) Hx F E.
    assert (Ec : contents (set_lst (o_events (trs s t)) x s) t = x).
    { unfold contents, set_lst. cbn [trs lsts]. apply put_same. }
    split; [|split].
    - constructor; unfold set_lst; cbn [evs trs lsts dcts next]; auto. intros y Hy N. apply put_other. auto.
    - unfold live1. rewrite Ec. cbn [set_lst evs trs lsts dcts next]. auto.
    - rewrite Ec, <- E. auto.
  Qed.
  (** allocation of objects first *)
  Record grown s s' : Prop := {
    gr_next : next s <= next s';
    gr_evs : forall x, x < next s -> evs s' x = evs s x;
    gr_trs : trs s' = trs s;
    gr_lsts : forall x, x < next s -> lsts s' x = lsts s x;
    gr_dcts : forall x, x < next s -> dcts s' x = dcts s x }.
  Lemma grown_refl s : grown s s.
  Proof. constructor; auto. Qed.
  Lemma grown_trans s1 s2 s3 : grown s1 s2 -> grown s2 s3 -> grown s1 s3.
  Proof.
    intros [A1 A2 A3 A4 A5] [B1 B2 B3 B4 B5]. constructor; try lia; [|congruence| |]; intros x Hx.
    - rewrite B2, A2 by lia. auto.
    - rewrite B4, A4 by lia. auto.
    - rewrite B5, A5 by lia. auto.
  Qed.
  Lemma grown_live s s' t : grown s s' -> live1 s t -> live1 s' t /\ contents s' t = contents s t /\ view_trace s' t = view_trace s t.
  Proof.
    intros [A1 A2 A3 A4 A5] (L1 & L2 & L3 & L4).
    assert (Ec : contents s' t = contents s t) by (unfold contents; rewrite A3, A4; auto).
    split; [|split; auto].
    - unfold live1. rewrite Ec, A3. split; [lia|]. split; [lia|]. split; [lia|]. intros e He. destruct (L4 e He). rewrite A2 by auto. lia.
    - unfold view_trace. rewrite Ec, A3, A5 by auto. f_equal. apply map_ext_in. intros e He. destruct (L4 e He). apply view_event_same; auto.
  Qed.
  Lemma grown_acts F s s1 s2 t : grown s s1 -> live1 s t -> acts_as F s1 s2 t -> acts_as F s s2 t.
  Proof.
    intros G L (Ht & L2 & E). pose proof (grown_live _ _ _ G L) as (L1 & Ec & Ev). destruct G as [A1 A2 A3 A4 A5], Ht as [B1 B2 B3 B4 B5 B6 B7 B8].
    split; [|split]; auto.
    - constructor; try lia.
      + intros x Hx. rewrite B2, A2 by lia. auto.
      + intros x Hx. rewrite B3, A5 by lia. auto.
      + intros x Hx N. rewrite B4, A3 by (auto; lia). auto.
      + rewrite B5, A3. auto.
      + rewrite B6, A3. auto.
      + intros x Hx N. rewrite B7, A4 by (rewrite ?A3; auto; lia). auto.
      + rewrite A3 in B8. destruct B8; [auto|right; lia].
    - rewrite E. f_equal. unfold view_trace in Ev. injection Ev as _ Ev _. auto.
  Qed.
  Lemma new_event_ok a s : let '(s1, e) := new_event_obj a s in
    grown s s1 /\ next s <= e < next s1 /\ o_attrs (evs s1 e) < next s1 /\ view_event s1 e = new_event a.
  Proof.
    unfold new_event_obj, alloc_dct, alloc_ev. cbn [evs trs lsts dcts next]. split; [constructor; cbn [evs trs lsts dcts next]; auto|].
    - intros x Hx. apply put_other. lia.
    - intros x Hx. apply put_other. lia.
    - split; [lia|]. unfold view_event. cbn [evs dcts]. rewrite put_same. cbn [o_act o_attrs o_trans]. rewrite put_same. split; [lia|auto].
  Qed.

  Lemma map_slice_from {X Y} (f : X -> Y) (l : list X) z : map f (slice_from l z) = slice_from (map f l) z.
  Proof. unfold slice_from. rewrite map_length, skipn_map. auto. Qed.
  Lemma map_slice_to {X Y} (f : X -> Y) (l : list X) z : map f (slice_to l z) = slice_to (map f l) z.
  Proof. unfold slice_to. rewrite map_length, firstn_map. auto. Qed.
  Lemma incl_slice_from {X} (l : list X) z : incl (slice_from l z) l.
  Proof. intros x Hx. unfold slice_from in Hx. rewrite <- (firstn_skipn (Z.to_nat (if (z <? 0)%Z then Z.of_nat (length l) + z else z)) l). apply in_app_iff. auto. Qed.
  Lemma incl_slice_to {X} (l : list X) z : incl (slice_to l z) l.
  Proof. intros x Hx. unfold slice_to in Hx. rewrite <- (firstn_skipn (Z.to_nat (if (z <? 0)%Z then Z.of_nat (length l) + z else z)) l). apply in_app_iff. auto. Qed.

  Lemma step_filter allowed s t : live1 s t ->
    acts_as (filter (fun e => mem (activity e) allowed)) s (rebind (filter (fun e => mem (o_act (evs s e)) allowed)) s t) t.
  Proof.
    intros L. apply rebind_acts; auto.
    - apply incl_filter.
    - induction (contents s t) as [|e es IH]; cbn [map filter]; auto. cbn [view_event activity]. destruct (mem (o_act (evs s e)) allowed); cbn [map]; rewrite IH; auto.
  Qed.
  Lemma step_cut_start acts s t : live1 s t ->
    acts_as (fun es => slice_from es (first_match 0 es acts)) s
      (rebind (fun es => slice_from es (get_first_index (view_trace s t) acts)) s t) t.
  Proof. intros L. apply rebind_acts; auto; [apply incl_slice_from|]. rewrite map_slice_from. auto. Qed.
  Lemma step_cut_end acts s t : live1 s t ->
    acts_as (fun es => slice_to es (last_match (ListUtils.enumerate_reversed es) acts + 1)) s
      (rebind (fun es => slice_to es (get_last_index (view_trace s t) acts + 1)) s t) t.
  Proof. intros L. apply rebind_acts; auto; [apply incl_slice_to|]. rewrite map_slice_to. auto. Qed.
  Lemma step_keep s t : live1 s t ->
    acts_as keep_first_events s (rebind (fun es =>
      snd (fold_left (fun '(seen, out) e =>
             if mem (o_act (evs s e)) seen then (seen, out)
             else (set_add (o_act (evs s e)) seen, out ++ [e])) es ([], []))) s t) t.
  Proof.
    intros L.
    assert (G : forall es seen out, incl out (contents s t) -> incl es (contents s t) ->
      let r := fold_left (fun '(seen, out) e => if mem (o_act (evs s e)) seen then (seen, out) else (set_add (o_act (evs s e)) seen, out ++ [e])) es (seen, out) in
      incl (snd r) (contents s t) /\
      map (view_event s) (snd r) =
      snd (fold_left (fun '(seen, out) e => if mem (activity e) seen then (seen, out) else (set_add (activity e) seen, out ++ [e]))
        (map (view_event s) es) (seen, map (view_event s) out))).
    { induction es as [|e es IH]; intros seen out Ho He; cbn [fold_left map snd]; auto. cbn [view_event activity].
      destruct (mem (o_act (evs s e)) seen).
      - apply IH; auto. intros x Hx. apply He. cbn; auto.
      - destruct (IH (set_add (o_act (evs s e)) seen) (out ++ [e])) as [H1 H2].
        + intros x Hx. apply in_app_iff in Hx. destruct Hx as [Hx|[<-|[]]]; auto. apply He. cbn; auto.
        + intros x Hx. apply He. cbn; auto.
        + split; auto. rewrite H2, map_app. auto. }
    destruct (G (contents s t) [] []) as [G1 G2]; [intros x []|intros x Hx; auto|].
    apply rebind_acts; auto.
  Qed.
  Lemma step_start a s t : live1 s t ->
    acts_as (fun es => new_event a :: es) s
      (let '(s1, e) := new_event_obj a s in set_lst (o_events (trs s1 t)) (e :: contents s1 t) s1) t.
  Proof.
    intros L. pose proof (new_event_ok a s) as G. destruct (new_event_obj a s) as [s1 e]. destruct G as (G & He & Ha & Ev).
    destruct (grown_live _ _ _ G L) as ((L1 & L2 & L3 & L4) & Ec & _).
    apply (grown_acts _ s s1); auto. apply set_lst_acts; [split; auto| |].
    - intros x [<-|Hx]; [split; [lia|auto]|auto].
    - cbn [map]. rewrite Ev. auto.
  Qed.
  Lemma step_end a s t : live1 s t ->
    acts_as (fun es => es ++ [new_event a]) s
      (let '(s1, e) := new_event_obj a s in set_lst (o_events (trs s1 t)) (contents s1 t ++ [e]) s1) t.
  Proof.
    intros L. pose proof (new_event_ok a s) as G. destruct (new_event_obj a s) as [s1 e]. destruct G as (G & He & Ha & Ev).
    destruct (grown_live _ _ _ G L) as ((L1 & L2 & L3 & L4) & Ec & _).
    apply (grown_acts _ s s1); auto. apply set_lst_acts; [split; auto| |].
    - intros x Hx. apply in_app_iff in Hx. destruct Hx as [Hx|[<-|[]]]; [auto|split; [lia|auto]].
    - rewrite map_app. cbn [map]. rewrite Ev. auto.
  Qed.
  Lemma step_remove p us s t : live1 s t -> acts_as (remove_on_trace p us) s (remove_on_trace_obj p us s t) t.
  Proof.
    intros L. unfold remove_on_trace_obj. apply rebind_acts; auto.
    - intros x Hx. apply in_map_iff in Hx. destruct Hx as ([y u] & <- & Hx). apply filter_In in Hx. destruct Hx as [Hx _]. apply in_combine_l in Hx. auto.
    - unfold remove_on_trace. revert us. induction (contents s t) as [|e es IH]; intros [|u us]; cbn [map combine filter]; auto.
      destruct (Qle_bool p u); cbn [map fst]; rewrite IH; auto.
  Qed.
  Lemma map_swap_at {X Y} (f : X -> Y) (l : list X) i : map f (swap_at l i) = swap_at (map f l) i.
  Proof. unfold swap_at. rewrite map_app, firstn_map, skipn_map. f_equal. destruct (skipn i l) as [|x [|y r]]; auto. Qed.
  Lemma map_swap_loop {X Y} (f : X -> Y) p us : forall i (l : list X), map f (swap_loop p us i l) = swap_loop p us i (map f l).
  Proof. induction us as [|u us IH]; intros i l; cbn [swap_loop]; auto. rewrite IH. destruct (Qlt_bool u p); rewrite ?map_swap_at; auto. Qed.
  Lemma swap_at_perm {X} (l : list X) i : Permutation (swap_at l i) l.
  Proof.
    unfold swap_at. rewrite <- (firstn_skipn i l) at 3. apply Permutation_app_head. destruct (skipn i l) as [|x [|y r]]; auto. apply perm_swap.
  Qed.
  Lemma swap_loop_perm {X} p us : forall i (l : list X), Permutation (swap_loop p us i l) l.
  Proof. induction us as [|u us IH]; intros i l; cbn [swap_loop]; auto. rewrite IH. destruct (Qlt_bool u p); auto. apply swap_at_perm. Qed.
  Lemma step_swap p us s t : live1 s t -> acts_as (swap_on_trace p us) s (swap_on_trace_obj p us s t) t.
  Proof.
    intros L. apply set_lst_acts; auto.
    - intros e He. apply L. eapply Permutation_in; [apply swap_loop_perm|]. exact He.
    - apply map_swap_loop.
  Qed.
  Lemma step_add a p us s t : live1 s t -> acts_as (add_on_trace a p us) s (add_on_trace_obj a p us s t) t.
  Proof.
    intros L. unfold add_on_trace_obj.
    assert (G : forall xs s1 out, grown s s1 -> (forall e, In e out -> e < next s1 /\ o_attrs (evs s1 e) < next s1) ->
      (forall e u, In (e, u) xs -> In e (contents s t)) ->
      let '(s2, es) := fold_left (fun '(s, out) '(e, u) =>
        if Qlt_bool u p then let '(s', n) := new_event_obj a s in (s', out ++ [e; n]) else (s, out ++ [e])) xs (s1, out) in
      grown s s2 /\ (forall e, In e es -> e < next s2 /\ o_attrs (evs s2 e) < next s2) /\
      map (view_event s2) es = map (view_event s1) out ++
        flat_map (fun '(e, u) => if Qlt_bool u p then [view_event s e; new_event a] else [view_event s e]) xs).
    { clear us. induction xs as [|[e u] xs IH]; intros s1 out G Ho Hx; cbn [fold_left flat_map].
      - rewrite app_nil_r. auto.
      - assert (Lo : e < next s /\ o_attrs (evs s e) < next s) by (apply L; apply (Hx e u); cbn; auto).
        assert (Le : forall s', grown s s' -> e < next s' /\ o_attrs (evs s' e) < next s').
        { intros s' [A1 A2 A3 A4 A5]. rewrite A2 by tauto. lia. }
        assert (Ve : forall s', grown s s' -> view_event s' e = view_event s e).
        { intros s' [A1 A2 A3 A4 A5]. apply view_event_same; tauto. }
        destruct (Qlt_bool u p).
        + pose proof (new_event_ok a s1) as N. destruct (new_event_obj a s1) as [s' n]. destruct N as (N & Hn & Hd & Ev).
          pose proof (grown_trans _ _ _ G N) as G'.
          assert (Ho' : forall x, In x out -> (x < next s' /\ o_attrs (evs s' x) < next s') /\ view_event s' x = view_event s1 x).
          { intros x Hin. destruct (Ho x Hin) as [B1 B2]. destruct N as [A1 A2 A3 A4 A5]. split; [rewrite A2 by auto; lia|]. apply view_event_same; auto. }
          specialize (IH s' (out ++ [e; n]) G').
          destruct (fold_left _ xs (s', out ++ [e; n])) as [s2 es].
          destruct IH as (I1 & I2 & I3).
          * intros x Hin. apply in_app_iff in Hin. destruct Hin as [Hin|[<-|[<-|[]]]]; [apply Ho'; auto|apply Le; auto|split; [lia|auto]].
          * intros x v Hin. apply (Hx x v). cbn. auto.
          * split; auto. split; auto. rewrite I3, map_app. cbn [map]. rewrite Ve, Ev by auto. rewrite <- app_assoc. f_equal.
            apply map_ext_in. intros x Hin. apply Ho'. auto.
        + specialize (IH s1 (out ++ [e]) G). destruct (fold_left _ xs (s1, out ++ [e])) as [s2 es].
          destruct IH as (I1 & I2 & I3).
          * intros x Hin. apply in_app_iff in Hin. destruct Hin as [Hin|[<-|[]]]; auto.
          * intros x v Hin. apply (Hx x v). cbn. auto.
          * split; auto. split; auto. rewrite I3, map_app. cbn [map]. rewrite Ve by auto. rewrite <- app_assoc. auto. }
    specialize (G (combine (contents s t) us) s [] (grown_refl s)).
    destruct (fold_left _ (combine (contents s t) us) (s, [])) as [s1 es].
    destruct G as (G & Hl & Ev); [intros x []|intros x v Hin; apply in_combine_l in Hin; auto|].
    destruct (grown_live _ _ _ G L) as ((L1 & L2 & L3 & L4) & Ec & Et).
    apply (grown_acts _ s s1); auto. cbn [map app] in Ev.
    unfold rebind, alloc_lst. cbn [fst snd].
    set (s2 := set_events t (next s1) (Store (evs s1) (trs s1) (put (lsts s1) (next s1) es) (dcts s1) (S (next s1)))).
    assert (Ec2 : contents s2 t = es).
    { unfold contents, s2, set_events. cbn [trs lsts]. rewrite put_same. cbn [o_events]. apply put_same. }
    split; [|split].
    - constructor; unfold s2, set_events; cbn [evs trs lsts dcts next]; auto; try lia.
      + intros x Hx N. apply put_other. auto.
      + rewrite put_same. auto.
      + rewrite put_same. auto.
      + intros x Hx _. apply put_other. lia.
      + rewrite put_same. cbn. right. lia.
    - unfold live1. rewrite Ec2. unfold s2, set_events. cbn [evs trs lsts dcts next]. rewrite put_same. cbn [o_events o_tattrs].
      split; [lia|]. split; [lia|]. split; [lia|]. intros e He. destruct (Hl e He). lia.
    - rewrite Ec2. change (map (view_event s2) es) with (map (view_event s1) es). rewrite Ev.
      unfold view_trace in Et. injection Et as _ Et _. rewrite Et. unfold add_on_trace. clear. revert us.
      induction (contents s t) as [|e es IH]; intros [|u us]; cbn [map combine flat_map]; auto. rewrite IH. auto.
  Qed.
End O.
