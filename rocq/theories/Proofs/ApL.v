(** Activity patterns, part 12: construction, markings, copies and pruning *)
From Coq Require Import String Ascii ZArith Permutation.
From Verif.Model Require Import Base PetriNet ActivityPattern.
From Verif.Spec Require Import PetriSpec ActivityPatternSpec.
From Verif.Lib Require Import ListLib DictLib.
From Verif.Proofs Require Import PetriA PetriC PetriD PetriF PetriG PetriH ApC ApA ApJ ApN ApO ApK.
Open Scope string_scope.
Open Scope list_scope.
Open Scope nat_scope.

Lemma one_name n (s t : string) : wf n -> dict_get t (map (fun '(t, _) => (t, s)) (transitions n)) = if dict_has t (transitions n) then Some s else None.
Proof.
  intros _. unfold dict_has. induction (transitions n) as [|[u tr] d IH]; [auto|]. cbn [map dict_get]. destruct (eqb t u); auto.
Qed.

(*P C95 Activity patterns: construction, markings, copies and pruning *)
(** The constructor keeps a workflow net and makes other nets one; it raises
    ValueError if a visible transition has no name, and no error but those of
    the transformation otherwise. *)
Lemma C95_constructor : forall ord st n m, built n -> any_order ord ->
  let result := if is_workflow_net n then Ok (n, st) else transform_to_workflow_net ord st n in
  match m with
  | Named d =>
    (mapped n d -> forall n' st', result = Ok (n', st') -> new_pattern ord st n m = Ok (Pattern n' d, st')) /\
    (mapped n d -> forall e, result = Err e -> e = ValueError /\ new_pattern ord st n m = Err ValueError) /\
    (~ mapped n d -> new_pattern ord st n m = Err ValueError)
  | OneName s =>
    (forall n' st', result = Ok (n', st') -> exists p, new_pattern ord st n m = Ok (p, st') /\ pnet p = n' /\
      forall t, dict_get t (amap p) = if dict_has t (transitions n) then Some s else None) /\
    (forall e, result = Err e -> e = ValueError /\ new_pattern ord st n m = Err ValueError)
  end.
Proof.
  intros ord st n m B HO result. pose proof (built_wf _ B) as W. unfold new_pattern. fold result.
  assert (E : forall e, result = Err e -> e = ValueError).
  { intros e E. subst result. destruct (is_workflow_net n); [discriminate|]. destruct (transform_ok ord st n W HO) as (so & si & _ & _ & T). cbv zeta in T.
    rewrite E in T. apply T. }
  clearbody result. destruct m as [s|d].
  - split.
    + intros n' st' ->. cbn [bind]. eexists. split; [reflexivity|]. cbn [pnet amap]. split; [auto|]. intros t. apply one_name. auto.
    + intros e ->. cbn [bind]. rewrite (E e) by auto. auto.
  - split; [|split].
    + intros M n' st' ->. cbn [bind]. rewrite (proj2 (visible_ok n d (w_trans _ W)) M). auto.
    + intros M e ->. cbn [bind]. rewrite (E e) by auto. auto.
    + intros M. destruct result as [[n' st']|e]; cbn [bind]; [|rewrite (E e) by auto; auto].
      destruct (forallb _ _) eqn:F; [|auto]. apply visible_ok in F; [contradiction|apply W].
Qed.
(** Whatever way a pattern was made: it has at most one source and one sink,
    and it is a workflow net exactly if it has both; all its visible
    transitions are named. *)
Lemma C95_made : forall p, made p ->
  (forall x y, source (pnet p) x -> source (pnet p) y -> x = y) /\ (forall x y, sink (pnet p) x -> sink (pnet p) y -> x = y) /\
  (is_workflow_net (pnet p) = true <-> complete p) /\ mapped (pnet p) (amap p).
Proof.
  intros p M. pose proof (made_good _ M) as G. split; [apply G|]. split; [apply G|]. split; [|exact (g_map _ G)].
  rewrite is_workflow_ok by apply G. unfold complete. split.
  - intros [(i & Hi & _) (o & Ho & _)]. eauto.
  - intros [[i Hi] [o Ho]]. split; [exists i|exists o]; (split; [auto|]); intros; [apply (g_src _ G)|apply (g_snk _ G)]; auto.
Qed.
Lemma zeros_get p q : dict_get q (get_all_zeros_marking p) = if dict_has q (places (pnet p)) then Some 0%Z else None.
Proof. unfold get_all_zeros_marking, dict_has. induction (places (pnet p)) as [|[u tr] d IH]; [auto|]. cbn [map dict_get]. destruct (eqb q u); auto. Qed.
Lemma zeros_keys p : keys (get_all_zeros_marking p) = keys (places (pnet p)).
Proof. unfold get_all_zeros_marking, keys. rewrite map_map. apply map_ext. intros []; auto. Qed.
Lemma one_marking p i : has_place (pnet p) i ->
  let m := dict_set i 1%Z (get_all_zeros_marking p) in
  keys m = keys (places (pnet p)) /\ forall q, has_place (pnet p) q -> dict_get q m = Some (one_at i q).
Proof.
  intros Hi m. subst m. split.
  - rewrite keys_dict_set, zeros_keys. apply mem_In in Hi. rewrite Hi. auto.
  - intros q Hq. rewrite dict_get_set, zeros_get. unfold one_at. destruct (eqb q i); [auto|]. apply dict_has_In in Hq. rewrite Hq. auto.
Qed.
Lemma sets_one p i m : good p -> has_place (pnet p) i -> keys m = keys (places (pnet p)) ->
  (forall q, has_place (pnet p) q -> dict_get q m = Some (one_at i q)) ->
  exists n', set_marking m (pnet p) = Ok n' /\ same_structure (pnet p) n' /\ forall q, tokens n' q = one_at i q.
Proof.
  intros G Hi K D. destruct (set_marking_all m (pnet p)) as (n' & E & S & T).
  - apply (w_places _ (g_wf _ G)).
  - rewrite K. apply (w_places _ (g_wf _ G)).
  - intros q Hq. rewrite K in Hq. auto.
  - exists n'. split; [auto|]. split; [auto|]. intros q. rewrite T. destruct (in_dec string_dec q (keys (places (pnet p)))) as [Hq|Hq].
    + rewrite (D q Hq). auto.
    + rewrite (proj2 (dict_get_None m q)) by (rewrite K; auto). unfold tokens. rewrite (proj2 (dict_get_None _ q) Hq).
      unfold one_at. destruct (eqb_ok q i); [subst; contradiction|auto].
Qed.
(** The standard markings have one token, on the source and on the sink
    respectively, and an entry for every place; they can be given to the net. A
    missing source or sink is a KeyError. *)
Lemma C95_markings : forall ord p, any_order ord -> made p ->
  (forall i, source (pnet p) i -> exists m n', get_standard_initial_marking ord p = Ok m /\ keys m = keys (places (pnet p)) /\
     (forall q, has_place (pnet p) q -> dict_get q m = Some (one_at i q)) /\
     set_marking m (pnet p) = Ok n' /\ same_structure (pnet p) n' /\ forall q, tokens n' q = one_at i q) /\
  (forall o, sink (pnet p) o -> exists m n', get_standard_final_marking ord p = Ok m /\ keys m = keys (places (pnet p)) /\
     (forall q, has_place (pnet p) q -> dict_get q m = Some (one_at o q)) /\
     set_marking m (pnet p) = Ok n' /\ same_structure (pnet p) n' /\ forall q, tokens n' q = one_at o q) /\
  ((forall i, ~ source (pnet p) i) -> get_standard_initial_marking ord p = Err KeyError) /\
  ((forall o, ~ sink (pnet p) o) -> get_standard_final_marking ord p = Err KeyError).
Proof.
  intros ord p HO M. pose proof (made_good _ M) as G. unfold get_standard_initial_marking, get_standard_final_marking.
  destruct (get_source_sink_places (pnet p)) as [so si] eqn:Q. apply source_sink_ok in Q; [|apply (w_trans _ (g_wf _ G))]. destruct Q as (D1 & D2 & D3 & D4). cbn [fst snd].
  split; [|split; [|split]].
  - intros i Hi. assert (Pi : has_place (pnet p) i) by (apply source_place; auto; apply G).
    rewrite (pop_ok ord i (source (pnet p)) so HO D1 D3 (g_src _ G) Hi). cbn [bind]. destruct (one_marking p i Pi) as [K D].
    destruct (sets_one p i _ G Pi K D) as (n' & S). exists (dict_set i 1%Z (get_all_zeros_marking p)), n'. auto.
  - intros i Hi. assert (Pi : has_place (pnet p) i) by (apply sink_place; auto; apply G).
    rewrite (pop_ok ord i (sink (pnet p)) si HO D2 D4 (g_snk _ G) Hi). cbn [bind]. destruct (one_marking p i Pi) as [K D].
    destruct (sets_one p i _ G Pi K D) as (n' & S). exists (dict_set i 1%Z (get_all_zeros_marking p)), n'. auto.
  - intros N. rewrite pop_none; auto. destruct so as [|x so]; [auto|]. exfalso. apply (N x), D3. cbn; auto.
  - intros N. rewrite pop_none; auto. destruct si as [|x si]; [auto|]. exfalso. apply (N x), D4. cbn; auto.
Qed.
(** A pattern can always be copied; the copy has the same places, transitions,
    names and words. *)
Lemma C95_copy : forall ord st p, made p -> exists p' st', copy_pattern ord st p = Ok (p', st') /\
  places (pnet p') = places (pnet p) /\ transitions (pnet p') = transitions (pnet p) /\ amap p' = amap p /\
  forall st w, speaks st p' w <-> speaks st p w.
Proof.
  intros ord st p M. pose proof (made_good _ M) as G. unfold copy_pattern.
  destruct (copy st (pnet p)) as [[c st1]|] eqn:C; [|rewrite copy_ok in C by apply G; discriminate].
  destruct (wf_copy _ _ _ _ (g_wf _ G) C) as (Wc & Ep & Et). cbn [bind]. unfold new_pattern.
  assert (T : exists n' st', (if is_workflow_net c then Ok (c, st1) else transform_to_workflow_net ord st1 c) = Ok (n', st') /\
    places n' = places (pnet p) /\ transitions n' = transitions (pnet p)).
  { destruct (is_workflow_net c); [eauto|].
    assert (SS : forall q, before_some c q <-> before_some (pnet p) q) by (intros; unfold before_some, starts; rewrite Et; tauto).
    assert (TT : forall q, behind_some c q <-> behind_some (pnet p) q) by (intros; unfold behind_some, ends; rewrite Et; tauto).
    destruct (transform_single ord st1 c Wc) as (n' & st' & E & E1 & E2).
    - intros x y. unfold source. rewrite !SS, !TT. apply (g_src _ G).
    - intros x y. unfold sink. rewrite !SS, !TT. apply (g_snk _ G).
    - exists n', st'. split; [auto|]. split; congruence. }
  destruct T as (n' & st' & -> & E1 & E2). cbn [bind].
  rewrite (proj2 (visible_ok c (amap p) (w_trans _ Wc))); [|unfold mapped; rewrite Et; exact (g_map _ G)].
  exists (Pattern n' (amap p)), st'. cbn [pnet amap]. split; [auto|]. split; [auto|]. split; [auto|]. split; [auto|]. apply speaks_same; auto.
Qed.

(** sources and sinks stay *)
Lemma behind_dec n p : wf n -> behind_some n p \/ ~ behind_some n p.
Proof.
  intros W. destruct (existsb (fun t => mem p (ends n t)) (keys (transitions n))) eqn:E.
  - left. apply existsb_exists in E. destruct E as (t & _ & Ht). exists t. apply mem_In. auto.
  - right. intros [t Ht]. assert (existsb (fun t => mem p (ends n t)) (keys (transitions n)) = true); [|congruence].
    apply existsb_exists. exists t. split; [|apply mem_In; auto]. eapply ends_has; eauto.
Qed.
Lemma chain_ends n P nk : wf n -> chain n P nk -> (forall t s, In (t, s) P -> ~ source n s) ->
  (forall x, source nk x <-> source n x) /\ (forall x, sink nk x <-> sink n x).
Proof.
  intros W. induction 1 as [|P nk t s e n1 C IH Hn S]; intros N; [split; intros; tauto|].
  destruct IH as [I1 I2]; [intros; eapply N; cbn; eauto|].
  assert (Ns : ~ source nk s) by (rewrite I1; eapply N; cbn; eauto).
  assert (Bs : before_some nk s) by (exists t; rewrite (s_start _ _ _ _ _ S); cbn; auto).
  assert (Fs : behind_some nk s).
  { destruct (behind_dec nk s (s_wf _ _ _ _ _ S)) as [|Q]; [auto|]. exfalso. apply Ns. split; auto. }
  pose proof (s_ne _ _ _ _ _ S) as Ne.
  assert (B : forall x, before_some n1 x <-> before_some nk x /\ x <> s).
  { intros x. split.
    - intros [u Hu]. rewrite (s_starts _ _ _ _ _ S) in Hu. destruct (eqb_ok u t) as [Eu|Hne]; [destruct Hu|]. split; [exists u; auto|].
      intros ->. apply (s_only _ _ _ _ _ S) in Hu. auto.
    - intros [[u Hu] Hx]. exists u. rewrite (s_starts _ _ _ _ _ S). destruct (eqb_ok u t) as [->|Hne]; [|auto].
      rewrite (s_start _ _ _ _ _ S) in Hu. destruct Hu as [<-|[]]. congruence. }
  assert (F : forall x, behind_some n1 x <-> behind_some nk x /\ x <> s).
  { intros x. split.
    - intros [u Hu]. rewrite (s_ends _ _ _ _ _ S) in Hu. destruct (eqb_ok u t) as [Eu|Hne]; [destruct Hu|]. apply newends_In in Hu; [|auto].
      destruct Hu as [Hx [Hu|[Hu ->]]]; (split; [|auto]); [exists u; auto|]. exists t. rewrite (s_end _ _ _ _ _ S). cbn; auto.
    - intros [[u Hu] Hx]. destruct (eqb_ok u t) as [->|Hne].
      + rewrite (s_end _ _ _ _ _ S) in Hu. destruct Hu as [<-|[]]. destruct Fs as [v Hv]. exists v. rewrite (s_ends _ _ _ _ _ S).
        destruct (eqb_ok v t) as [->|Hnv]; [rewrite (s_end _ _ _ _ _ S) in Hv; destruct Hv as [Hv|[]]; congruence|]. apply newends_In; auto.
      + exists u. rewrite (s_ends _ _ _ _ _ S). destruct (eqb_ok u t); [contradiction|]. apply newends_In; auto. }
  split; intros x; [rewrite <- I1|rewrite <- I2]; unfold source, sink; rewrite B, F; split.
  - intros [[H1 H2] H3]. split; [auto|]. intros H4. apply H3. auto.
  - intros [H1 H2]. assert (x <> s) by (intros ->; auto). tauto.
  - intros [[H1 H2] H3]. split; [auto|]. intros H4. apply H3. auto.
  - intros [H1 H2]. assert (x <> s) by (intros ->; auto). tauto.
Qed.
Lemma pruned_ends n P n1 n' : wf n -> pruned n P n1 n' -> (forall x, source n' x <-> source n x) /\ (forall x, sink n' x <-> sink n x).
Proof.
  intros W Pr. destruct (chain_ends n P n1 W (pr_chain _ _ _ _ Pr) (pr_source _ _ _ _ Pr)) as [A B].
  assert (SS : forall q, before_some n' q <-> before_some n1 q) by (intros; unfold before_some; split; intros [t Ht]; exists t; rewrite (pr_starts _ _ _ _ Pr) in *; auto).
  assert (TT : forall q, behind_some n' q <-> behind_some n1 q) by (intros; unfold behind_some; split; intros [t Ht]; exists t; rewrite (pr_ends _ _ _ _ Pr) in *; auto).
  split; intros x; [rewrite <- A|rewrite <- B]; unfold source, sink; rewrite SS, TT; tauto.
Qed.
Lemma letters_keep p n' P n1 d : wf (pnet p) -> pruned (pnet p) P n1 n' ->
  (forall t, has_transition n' t -> dict_get t d = dict_get t (amap p)) ->
  forall l, letters (Pattern n' d) (keep (map fst P) l) = letters p l.
Proof.
  intros W Pr D l. pose proof (chain_along _ P n1 W (pr_chain _ _ _ _ Pr)) as Al. unfold letters. induction l as [|t l IH]; [auto|].
  cbn [flat_map]. unfold keep in *. cbn [filter]. destruct (mem t (map fst P)) eqn:Em; cbn [negb].
  - rewrite IH. apply mem_In, in_map_iff in Em. destruct Em as ([t' s] & <- & Hin). cbn [fst]. destruct (a_pruned _ _ _ Al _ _ Hin) as (_ & tr & E & V & _).
    unfold spell. rewrite E, V. auto.
  - cbn [flat_map]. rewrite IH. f_equal. assert (Ht : ~ In t (map fst P)) by (intros Q; apply mem_In in Q; congruence).
    unfold spell. cbn [pnet amap]. rewrite (pr_trans _ _ _ _ Pr t Ht). destruct (dict_get t (transitions (pnet p))) as [tr|] eqn:E.
    + destruct (a_attr _ _ _ Al t tr E) as (tr1 & -> & -> & -> & _). destruct (t_visible tr); [|auto]. rewrite D; [auto|].
      apply (pr_has _ _ _ _ Pr). split; [eapply dict_get_Some_key; eauto|auto].
    + destruct (dict_get t (transitions n1)) as [tr1|] eqn:E1; [|auto]. exfalso. apply dict_get_Some_key in E1. rewrite (a_keys _ _ _ Al) in E1.
      apply dict_get_key in E1. destruct E1. congruence.
Qed.
Lemma prune_good ord p : any_order ord -> wf (pnet p) -> exists p' P n1, prune_pattern ord p = Ok p' /\ prune ord (pnet p) = Ok (pnet p') /\
  pruned (pnet p) P n1 (pnet p') /\
  forall t, dict_get t (amap p') = if dict_has t (transitions (pnet p')) then dict_get t (amap p) else None.
Proof.
  intros HO W. destruct (prune_ok ord (pnet p) HO W) as (P & n1 & n' & E & Pr). unfold prune_pattern. rewrite E. cbn [bind].
  eexists. exists P, n1. split; [reflexivity|]. cbn [pnet amap]. split; [auto|]. split; [auto|]. intros t.
  rewrite (get_filter_key (fun t => dict_has t (transitions n'))). destruct (dict_has t (transitions n')); auto.
Qed.
Lemma unshared_wf p : unshared p -> wf (pnet p).
Proof.
  intros [B|(ord & st & a & st' & HO & M & E)]; [apply built_wf; auto|]. apply (g_wf _ (copy_good ord st a p st' (made_good _ M) HO E)).
Qed.
(** Pruning a pattern never fails; it prunes the net, drops the names of exactly
    the transitions that went and keeps the source and the sink. *)
Lemma C95_prune : forall ord p, any_order ord -> unshared p -> exists p', prune_pattern ord p = Ok p' /\
  prune ord (pnet p) = Ok (pnet p') /\
  (forall t, dict_get t (amap p') = if dict_has t (transitions (pnet p')) then dict_get t (amap p) else None) /\
  (forall x, source (pnet p') x <-> source (pnet p) x) /\ (forall x, sink (pnet p') x <-> sink (pnet p) x).
Proof.
  intros ord p HO U. pose proof (unshared_wf p U) as W. destruct (prune_good ord p HO W) as (p' & P & n1 & E & En & Pr & D).
  exists p'. split; [auto|]. split; [auto|]. split; [auto|]. exact (pruned_ends _ _ _ _ W Pr).
Qed.
(** The words of a pattern stay the same when it is pruned, if no two end
    places of a transition become one. *)
Lemma C95_prune_words : forall ord p p', any_order ord -> unshared p -> prune_pattern ord p = Ok p' ->
  nothing_merged (pnet p) (pnet p') -> forall st w, speaks st p' w <-> speaks st p w.
Proof.
  intros ord p p' HO U E NM st w. pose proof (unshared_wf p U) as W. destruct (prune_good ord p HO W) as (p2 & P & n1 & E2 & En & Pr & D).
  assert (p2 = p') by congruence. subst p2. destruct (pruned_ends _ _ _ _ W Pr) as [So Si].
  pose proof (chain_along _ P n1 W (pr_chain _ _ _ _ Pr)) as Al.
  assert (L : forall l, letters p' (keep (map fst P) l) = letters p l).
  { intros l. destruct p' as [n' d]. apply (letters_keep p n' P n1 d W Pr). intros t Ht. cbn [pnet amap] in D. rewrite D. apply dict_has_In in Ht. rewrite Ht. auto. }
  assert (Z1 : forall i, source (pnet p) i -> zero P (one_at i)).
  { intros i Hi s Hs. apply in_map_iff in Hs. destruct Hs as ([t s'] & <- & Hin). cbn [snd]. apply one_at_other. intros ->.
    exact (pr_source _ _ _ _ Pr _ _ Hin Hi). }
  assert (Z2 : forall o, sink (pnet p) o -> zero P (one_at o)).
  { intros o [_ Ho] s Hs. apply in_map_iff in Hs. destruct Hs as ([t s'] & <- & Hin). cbn [snd]. apply one_at_other. intros ->.
    apply Ho. exists t. destruct (a_pruned _ _ _ Al _ _ Hin) as [-> _]. cbn; auto. }
  assert (N0 : forall i p, (0 <= one_at i p)%Z) by (intros; unfold one_at; destruct (eqb _ _); lia).
  destruct (chain_runs (pnet p) st W P n1 (pr_chain _ _ _ _ Pr) (pruned_clean _ _ _ _ W Pr NM)) as [F B].
  split.
  - intros (i & o & l & Hi & Ho & R & <-). apply So in Hi. apply Si in Ho. apply (pruned_run _ _ _ _ _ _ _ _ W Pr) in R.
    destruct (B _ _ _ (Z1 i Hi) (N0 i) R) as (m & Rm & <- & _). exists i, o, m. split; [auto|]. split; [auto|]. split; [apply run_arun; auto|]. symmetry. apply L.
  - intros (i & o & l & Hi & Ho & R & <-). apply run_arun in R. destruct (F _ _ _ (Z1 i Hi) (N0 i) R) as (K & Rk & Ek & _).
    exists i, o, (keep (map fst P) l). split; [apply So; auto|]. split; [apply Si; auto|]. split; [|apply L].
    apply (pruned_run _ _ _ _ _ _ _ _ W Pr). eapply arun_ext; [exact Rk|intros q; auto|]. intros q. symmetry. apply (Ek (Z2 o Ho)).
Qed.
