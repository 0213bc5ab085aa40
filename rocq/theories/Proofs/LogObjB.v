(** Event logs as objects: whole edits, copies and splits (C136 - C138) *)
From Coq Require Import ZArith QArith Permutation.
From Verif.Model Require Import Base EventLog LogNoise LogObjects.
From Verif.Spec Require Import LogObjectSpec.
From Verif.Lib Require Import ListLib.
From Verif.Proofs Require Import LogObjA.
Open Scope list_scope.
Open Scope nat_scope.

Lemma NoDup_map_sub {X Y} (f : X -> Y) L L' : NoDup (map f L) -> incl L' L -> NoDup L' -> NoDup (map f L').
Proof.
  intros Hn. induction L' as [|x L' IH]; intros Hi Hd; cbn [map]; constructor; apply NoDup_cons_iff in Hd; destruct Hd as [Hx Hd].
  - intros Hin. apply in_map_iff in Hin. destruct Hin as (y & E & Hy). apply Hx.
    assert (Ey : y = x); [|subst; auto]. assert (In y L /\ In x L) by (split; apply Hi; cbn; auto). clear - Hn E H.
    induction L as [|z L IH]; [destruct H as [[] _]|]. cbn [map] in Hn. apply NoDup_cons_iff in Hn. destruct Hn as [Hz Hn]. destruct H as [[->|Hy] [->|Hx]]; auto.
    + exfalso. apply Hz. rewrite E. apply in_map. auto.
    + exfalso. apply Hz. rewrite <- E. apply in_map. auto.
  - apply IH; auto. intros y Hy. apply Hi. cbn. auto.
Qed.

Lemma NoDup_app_disjoint' {X} (l m : list X) : NoDup l -> NoDup m -> (forall x, In x l -> In x m -> False) -> NoDup (l ++ m).
Proof.
  induction l as [|x l IH]; cbn [app]; auto. intros Hl Hm Hd. apply NoDup_cons_iff in Hl. destruct Hl as [Hx Hl]. constructor.
  - rewrite in_app_iff. intros [|]; auto. apply (Hd x); cbn; auto.
  - apply IH; auto. intros y Hy. apply Hd. cbn. auto.
Qed.

Section O.
  Context {A V I : Type} `{EA : Eq A}.
  Implicit Types (s : store A V I) (l m : list nat) (t : nat).
  Notation store := (store A V I).

  Lemma fine_sub s L L' : incl L' L -> NoDup L' -> fine s L -> fine s L'.
  Proof.
    intros Hi Hn [He [H1 H2]]. split; [|split; auto].
    - intros t Ht. apply He. auto.
    - eapply NoDup_map_sub; eauto.
  Qed.
  Lemma filter_app_incl (p : nat -> bool) l m : incl (filter p l ++ m) (l ++ m).
  Proof. intros x Hx. apply in_app_iff in Hx. apply in_app_iff. destruct Hx as [Hx|]; auto. apply filter_In in Hx. tauto. Qed.
  Lemma NoDup_filter_app (p : nat -> bool) l m : NoDup (l ++ m) -> NoDup (filter p l ++ m).
  Proof.
    induction l as [|x l IH]; cbn [filter app]; auto. intros Hn. apply NoDup_cons_iff in Hn. destruct Hn as [Hx Hn].
    destruct (p x); cbn [app]; auto. constructor; auto. intros Hin. apply Hx. apply (filter_app_incl p l m). auto.
  Qed.
  Lemma view_filled s l : view_log s (filter (filled s) l) = filter non_empty (view_log s l).
  Proof.
    unfold view_log. induction l as [|t l IH]; cbn [filter map]; auto. unfold filled at 1, non_empty at 1. cbn [view_trace events].
    destruct (contents s t) as [|e es] eqn:E; cbn [length Nat.eqb negb map]; auto. rewrite IH. unfold view_trace. rewrite E. auto.
  Qed.

  Definition good (dd : store -> list nat -> store * list nat) (F : log A V I -> log A V I) : Prop :=
    forall l m s, fine s (l ++ m) -> let '(s', l') := dd s l in
      fine s' (l' ++ m) /\ view_log s' l' = F (view_log s l) /\ view_log s' m = view_log s m /\ incl l' l /\ (forall t, In t l' -> In t l).
  Lemma good_filter (f : store -> list nat -> store) F : good (fun s l => (f s l, l)) F ->
    good (fun s l => (f s l, filter (filled (f s l)) l)) (fun v => filter non_empty (F v)).
  Proof.
    intros G l m s Hf. specialize (G l m s Hf). cbv beta iota in G. destruct G as (G1 & G2 & G3 & _). split; [|split; [|split; [auto|]]].
    - apply (fine_sub _ (l ++ m)); auto; [apply filter_app_incl|]. apply NoDup_filter_app. apply G1.
    - rewrite view_filled, G2. auto.
    - split; [apply incl_filter|]. intros t Ht. apply filter_In in Ht. tauto.
  Qed.
  Lemma good_each step F : (forall s t, live1 s t -> acts_as F s (step s t) t) ->
    good (fun s l => (for_each step s l, l)) (map (fun v => with_events v (F (events v)))).
  Proof.
    intros Hs l m s Hf. destruct (for_each_ok step F Hs l m s Hf) as (G1 & G2 & G3). split; auto. split; auto. split; auto. split; auto. apply incl_refl.
  Qed.
  Lemma good_random rand draws f (F : list Q -> list (event A V) -> list (event A V)) :
    (forall us s t, live1 s t -> acts_as (F us) s (f us s t) t) ->
    good (fun s l => (for_traces_random rand draws f s l, l)) (on_traces rand 0 (fun es => draws (length es)) F).
  Proof.
    intros Hs l m s Hf. unfold for_traces_random.
    destruct (for_traces_ok (fun k s t => (f (draw rand k (draws (length (contents s t)))) s t, k + draws (length (contents s t))))
      (fun k es => (F (draw rand k (draws (length es))) es, k + draws (length es)))) with (l := l) (m := m) (x := 0) (s := s) as (G1 & G2 & G3); auto.
    - intros k s0 t L. cbn [fst snd]. split.
      + destruct (Hs (draw rand k (draws (length (contents s0 t)))) s0 t L) as (H1 & H2 & H3). split; auto. split; auto. rewrite H3, map_length. auto.
      + cbn [view_trace events]. rewrite map_length. auto.
    - split; auto. split; [|split; auto; split; auto; apply incl_refl]. cbn zeta in G2. rewrite G2.
      clear. generalize 0. induction (view_log s l) as [|v vs IH]; intros k; cbn [mapped on_traces fst snd]; auto. rewrite IH. auto.
  Qed.
  Lemma on_traces_draws rand k d d' (F : list Q -> list (event A V) -> list (event A V)) (v : log A V I) :
    (forall es, d es = d' es) -> on_traces rand k d F v = on_traces rand k d' F v.
  Proof. intros E. revert k. induction v as [|t v IH]; intros k; cbn [on_traces]; auto. rewrite E, IH. auto. Qed.
  Lemma noise_good : forall n, good (apply_obj n) (LogNoise.apply (V:=V) (I:=I) n).
  Proof.
    fix IH 1. intros [a p rand|p rand|p rand|ns].
    - intros l m s Hf. cbn [apply_obj LogNoise.apply]. destruct (Qlt_bool 0 p).
      + exact (good_random rand (fun n => n) (add_on_trace_obj a p) (add_on_trace a p) (fun us s t => step_add a p us s t) l m s Hf).
      + split; auto. split; auto. split; auto. split; auto. apply incl_refl.
    - intros l m s Hf. cbn [apply_obj LogNoise.apply]. destruct (Qlt_bool 0 p).
      + exact (good_filter _ _ (good_random rand (fun n => n) (remove_on_trace_obj p) (remove_on_trace p) (fun us s t => step_remove p us s t)) l m s Hf).
      + split; auto. split; auto. split; auto. split; auto. apply incl_refl.
    - intros l m s Hf. cbn [apply_obj LogNoise.apply]. destruct (Qlt_bool 0 p).
      + exact (good_random rand (fun n => n - 1) (swap_on_trace_obj p) (swap_on_trace p) (fun us s t => step_swap p us s t) l m s Hf).
      + split; auto. split; auto. split; auto. split; auto. apply incl_refl.
    - cbn [apply_obj LogNoise.apply]. induction ns as [|n ns IHns]; intros l m s Hf; cbn [fold_left].
      + split; auto. split; auto. split; auto. split; auto. apply incl_refl.
      + pose proof (IH n l m s Hf) as G. destruct (apply_obj n s l) as [s1 l1]. destruct G as (G1 & G2 & G3 & G4 & G5).
        specialize (IHns l1 m s1 G1). cbn beta in IHns. destruct (fold_left _ ns (s1, l1)) as [s2 l2]. destruct IHns as (K1 & K2 & K3 & K4 & K5).
        split; auto. split; [rewrite K2, G2; auto|]. split; [congruence|]. split; [eapply incl_tran; eauto|auto].
  Qed.
  Lemma edit_good : forall x, good (do_edit x) (edited x).
  Proof.
    intros [a b|a b|a|a| |n]; cbn [do_edit edited].
    - unfold cut_traces_obj, cut_traces.
      assert (G1 : good (fun s l => (match a with None => s | Some acts => for_each (fun s t =>
                  rebind (fun es => slice_from es (get_first_index (view_trace s t) acts)) s t) s l end, l))
        (fun (l : log A V I) => match a with None => l | Some q => map (fun v => with_events v (slice_from (events v) (get_first_index v q))) l end)).
      { destruct a as [acts|].
        - apply (good_each _ (fun es => slice_from es (first_match 0 es acts))). intros s t. apply step_cut_start.
        - intros l m s Hf. split; auto. split; auto. split; auto. split; auto. apply incl_refl. }
      assert (G2 : good (fun s l => (match b with None => s | Some acts => for_each (fun s t =>
                  rebind (fun es => slice_to es (get_last_index (view_trace s t) acts + 1)) s t) s l end, l))
        (fun (l : log A V I) => match b with None => l | Some q => map (fun v => with_events v (slice_to (events v) (get_last_index v q + 1))) l end)).
      { destruct b as [acts|].
        - apply (good_each _ (fun es => slice_to es (last_match (ListUtils.enumerate_reversed es) acts + 1))). intros s t. apply step_cut_end.
        - intros l m s Hf. split; auto. split; auto. split; auto. split; auto. apply incl_refl. }
      intros l m s Hf. specialize (G1 l m s Hf). cbv beta iota in G1. destruct G1 as (K1 & K2 & K3 & _).
      set (s1 := match a with None => s | Some acts => for_each (fun s t =>
                  rebind (fun es => slice_from es (get_first_index (view_trace s t) acts)) s t) s l end) in *.
      pose proof (good_filter _ _ G2 l m s1 K1) as K. cbv beta iota in K. destruct K as (J1 & J2 & J3 & J4 & J5).
      split; [exact J1|]. split; [etransitivity; [exact J2|]; cbv beta; rewrite K2; reflexivity|]. split; [etransitivity; [exact J3|exact K3]|]. split; [exact J4|exact J5].
    - unfold filter_activities_obj, filter_activities.
      pose proof (good_each _ _ (fun s t => step_filter a s t)) as G. destruct b; [|exact G]. exact (good_filter _ _ G).
    - exact (good_each _ _ (fun s t => step_start a s t)).
    - exact (good_each _ _ (fun s t => step_end a s t)).
    - exact (good_each _ _ (fun s t => step_keep s t)).
    - apply noise_good.
  Qed.

  (** two logs *)
  Lemma run_ok : forall h s l m, fine s (l ++ m) -> let '(s', l', m') := run h s l m in
    fine s' (l' ++ m') /\ view_log s' l' = edited_all (edits_of First h) (view_log s l) /\
    view_log s' m' = edited_all (edits_of Second h) (view_log s m).
  Proof.
    induction h as [|[w x] h IH]; intros s l m Hf; cbn [run]; auto.
    destruct w.
    - pose proof (edit_good x l m s Hf) as G. destruct (do_edit x s l) as [s1 l1]. destruct G as (G1 & G2 & G3 & _).
      specialize (IH s1 l1 m G1). destruct (run h s1 l1 m) as [[s' l'] m']. destruct IH as (K1 & K2 & K3).
      split; auto. cbn [edits_of flat_map app edited_all fold_left]. rewrite <- G2, <- G3. auto.
    - assert (Hf' : fine s (m ++ l)) by (apply (fine_perm _ (l ++ m)); auto; apply Permutation_app_comm).
      pose proof (edit_good x m l s Hf') as G. destruct (do_edit x s m) as [s1 m1]. destruct G as (G1 & G2 & G3 & _).
      assert (G1' : fine s1 (l ++ m1)) by (apply (fine_perm _ (m1 ++ l)); auto; apply Permutation_app_comm).
      specialize (IH s1 l m1 G1'). destruct (run h s1 l m1) as [[s' l'] m']. destruct IH as (K1 & K2 & K3).
      split; auto. cbn [edits_of flat_map app edited_all fold_left]. rewrite <- G2, <- G3. auto.
  Qed.

  (** new objects *)
  Record ext s s' : Prop := {
    ex_next : next s <= next s';
    ex_evs : forall x, x < next s -> evs s' x = evs s x;
    ex_trs : forall x, x < next s -> trs s' x = trs s x;
    ex_lsts : forall x, x < next s -> lsts s' x = lsts s x;
    ex_dcts : forall x, x < next s -> dcts s' x = dcts s x }.
  Lemma ext_refl s : ext s s.
  Proof. constructor; auto. Qed.
  Lemma ext_trans s1 s2 s3 : ext s1 s2 -> ext s2 s3 -> ext s1 s3.
  Proof.
    intros [A1 A2 A3 A4 A5] [B1 B2 B3 B4 B5]. constructor; try lia; intros x Hx.
    - rewrite B2, A2 by lia. auto.
    - rewrite B3, A3 by lia. auto.
    - rewrite B4, A4 by lia. auto.
    - rewrite B5, A5 by lia. auto.
  Qed.
  Lemma ext_live s s' t : ext s s' -> live1 s t ->
    live1 s' t /\ trs s' t = trs s t /\ contents s' t = contents s t /\ view_trace s' t = view_trace s t /\
    forall e, In e (contents s t) -> evs s' e = evs s e.
  Proof.
    intros [A1 A2 A3 A4 A5] (L1 & L2 & L3 & L4).
    assert (Et : trs s' t = trs s t) by auto.
    assert (Ec : contents s' t = contents s t) by (unfold contents; rewrite Et, A4; auto).
    split; [|split; [auto|split; [auto|split]]].
    - unfold live1. rewrite Ec, Et. split; [lia|]. split; [lia|]. split; [lia|]. intros e He. destruct (L4 e He). rewrite A2 by auto. lia.
    - unfold view_trace. rewrite Ec, Et, A5 by auto. f_equal. apply map_ext_in. intros e He. destruct (L4 e He). apply view_event_same; auto.
    - intros e He. apply A2. apply L4. auto.
  Qed.
  Lemma ext_fine s s' l : ext s s' -> fine s l -> fine s' l /\ view_log s' l = view_log s l.
  Proof.
    intros X [He [H1 H2]]. split; [split; [|split; auto]|].
    - intros t Ht. apply (ext_live s s' t X). apply He. auto.
    - erewrite map_ext_in; [exact H2|]. intros t Ht. destruct (ext_live s s' t X) as (_ & -> & _); auto. apply He. auto.
    - unfold view_log. apply map_ext_in. intros t Ht. apply (ext_live s s' t X). apply He. auto.
  Qed.
  Lemma copy_trace_ok s t : live1 s t -> let '(s1, r) := copy_trace s t in
    ext s s1 /\ match r with
    | Err x => x = ValueError /\ contents s t = []
    | Ok u => contents s t <> [] /\ next s <= u /\ live1 s1 u /\ view_trace s1 u = view_trace s t /\ contents s1 u = contents s t /\
        next s <= o_events (trs s1 u) /\ next s <= o_tattrs (trs s1 u)
    end.
  Proof.
    intros (L1 & L2 & L3 & L4). unfold copy_trace, alloc_lst, alloc_dct, alloc_tr. cbn [evs trs lsts dcts next].
    destruct (filled s t) eqn:Ef.
    2: { split.
      - constructor; cbn [evs trs lsts dcts next]; try lia; auto; intros x Hx; apply put_other; lia.
      - split; auto. unfold filled in Ef. destruct (contents s t); auto. discriminate. }
    assert (Ne : contents s t <> []) by (intros E; unfold filled in Ef; rewrite E in Ef; discriminate).
    set (s1 := Store _ _ _ _ _).
    assert (X : ext s s1).
    { constructor; cbn [s1 evs trs lsts dcts next]; try lia; auto; intros x Hx; apply put_other; lia. }
    assert (Et : trs s1 (S (S (next s))) = Tr (o_tid (trs s t)) (next s) (S (next s))) by (cbn [s1 trs]; apply put_same).
    assert (Ec : contents s1 (S (S (next s))) = contents s t).
    { unfold contents at 1. rewrite Et. cbn [s1 lsts o_events]. apply put_same. }
    assert (Ed : dcts s1 (S (next s)) = dcts s (o_tattrs (trs s t))).
    { cbn [s1 dcts]. apply put_same. }
    split; auto. split; auto. split; [lia|]. split; [|split; [|split; [auto|]]].
    - unfold live1. rewrite Ec, Et. cbn [o_events o_tattrs]. change (next s1) with (S (S (S (next s)))). split; [lia|]. split; [lia|]. split; [lia|].
      intros e He. destruct (L4 e He). rewrite (ex_evs _ _ X) by auto. lia.
    - unfold view_trace. rewrite Ec, Et. cbn [o_tid o_tattrs]. rewrite Ed. f_equal. apply map_ext_in. intros e He. destruct (L4 e He).
      apply view_event_same; auto; apply X.
    - rewrite Et. cbn. lia.
  Qed.
  Definition no_empty s l : Prop := forall t, In t l -> contents s t <> [].
  Lemma copy_ok : forall l s, exists_in s l -> let '(s1, r) := copy s l in ext s s1 /\ match r with
    | Err x => x = ValueError /\ ~ no_empty s l
    | Ok c => no_empty s l /\ view_log s1 c = view_log s l /\ fine s1 c /\ map (contents s1) c = map (contents s) l /\
    (forall u, In u c -> next s <= u /\ next s <= o_events (trs s1 u) /\ next s <= o_tattrs (trs s1 u)) /\
    NoDup (map (fun u => o_tattrs (trs s1 u)) c) /\ length c = length l end.
  Proof.
    induction l as [|t l IH]; intros s He; cbn [copy].
    - split; [apply ext_refl|]. split; [intros t []|]. split; auto. split; [split; [intros t []|split; constructor]|]. split; auto. split; [intros u []|]. split; [constructor|auto].
    - assert (Lt : live1 s t) by (apply He; cbn; auto). pose proof (copy_trace_ok s t Lt) as C. destruct (copy_trace s t) as [s1 [u|x]].
      2: { destruct C as (X1 & -> & E). split; auto. split; auto. intros N. apply (N t); cbn; auto. }
      destruct C as (X1 & Nt & Hu & Lu & Vu & Cu & Eu & Du).
      assert (He1 : exists_in s1 l) by (intros x Hx; apply (ext_live s s1 x X1); apply He; cbn; auto).
      assert (Nl : no_empty s1 l <-> no_empty s l).
      { split; intros N x Hx E; apply (N x Hx); destruct (ext_live s s1 x X1) as (_ & _ & Ex & _); try congruence; apply He; cbn; auto. }
      specialize (IH s1 He1). destruct (copy s1 l) as [s2 [c|x]].
      2: { destruct IH as (X2 & -> & N). split; [eapply ext_trans; eauto|]. split; auto. intros N'. apply N. apply Nl. intros x Hx. apply N'. cbn; auto. }
      destruct IH as (X2 & N2 & V2 & [F1 [F2 F3]] & C2 & Hc & Hd & Hl).
      destruct (ext_live s1 s2 u X2 Lu) as (Lu2 & Tu2 & Cu2 & Vu2 & _).
      assert (Hlt : u < next s1 /\ o_events (trs s1 u) < next s1 /\ o_tattrs (trs s1 u) < next s1) by (destruct Lu as (? & ? & ? & _); auto).
      split; [eapply ext_trans; eauto|]. split; [intros x [<-|Hx]; auto; apply Nl; auto|].
      assert (Vl : view_log s1 l = view_log s l).
      { unfold view_log. apply map_ext_in. intros x Hx. apply (ext_live s s1 x X1). apply He. cbn; auto. }
      assert (Cl : map (contents s1) l = map (contents s) l).
      { apply map_ext_in. intros x Hx. apply (ext_live s s1 x X1). apply He. cbn; auto. }
      split; [unfold view_log in *; cbn [map]; rewrite Vu2, Vu, V2, Vl; auto|].
      split; [split; [|split]|].
      + intros x [<-|Hx]; auto.
      + constructor; auto. intros Hin. destruct (Hc u Hin). lia.
      + cbn [map]. constructor; auto. rewrite Tu2. intros Hin. apply in_map_iff in Hin. destruct Hin as (v & E & Hv). destruct (Hc v Hv) as (_ & E1 & _). lia.
      + split; [cbn [map]; rewrite Cu2, Cu, C2, Cl; auto|]. pose proof (ex_next _ _ X1) as Hn.
        split; [|split].
        * intros v [<-|Hv]; [rewrite Tu2; lia|]. destruct (Hc v Hv) as (? & ? & ?). lia.
        * cbn [map]. constructor; auto. rewrite Tu2. intros Hin. apply in_map_iff in Hin. destruct Hin as (v & E & Hv). destruct (Hc v Hv) as (_ & _ & E1). lia.
        * cbn [length]. auto.
  Qed.
  Lemma copy_fine s l m s1 c : fine s (l ++ m) -> copy s l = (s1, Ok c) ->
    fine s1 (c ++ l ++ m) /\ view_log s1 c = view_log s l /\ view_log s1 l = view_log s l /\ view_log s1 m = view_log s m.
  Proof.
    intros Hf Ec. assert (He : exists_in s l) by (intros t Ht; apply Hf; apply in_app_iff; auto).
    pose proof (copy_ok l s He) as C. rewrite Ec in C. destruct C as (X & _ & V1 & [F1 [F2 F3]] & _ & Hc & _ & _).
    destruct (ext_fine s s1 (l ++ m) X Hf) as [[G1 [G2 G3]] G4]. unfold view_log in G4. rewrite !map_app in G4.
    apply app_inj_len in G4; [|rewrite !map_length; auto]. destruct G4 as [G4 G5].
    split; [|auto]. split; [|split].
    - intros t Ht. apply in_app_iff in Ht. destruct Ht; auto.
    - apply NoDup_app_disjoint'; auto. intros t Ht Hin. destruct (Hc t Ht). assert (t < next s) by (apply Hf; auto). lia.
    - rewrite map_app. apply NoDup_app_disjoint'; auto. intros a Ha Hb. apply in_map_iff in Ha, Hb. destruct Ha as (t & <- & Ht), Hb as (v & E & Hv).
      destruct (Hc t Ht) as (_ & Hx & _). rewrite <- E in Hx. destruct (ext_live s s1 v X) as (_ & Ev & _); [apply Hf; auto|].
      rewrite Ev in Hx. assert (o_events (trs s v) < next s) by (apply Hf; auto). lia.
  Qed.
End O.
