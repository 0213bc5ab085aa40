From Coq Require Import String Permutation ZArith.
From Verif.Model Require Import Base PetriNet.
From Verif.Spec Require Import PetriSpec.
From Verif.Lib Require Import ListLib DictLib.
From Verif.Proofs Require Import PetriA PetriB PetriC PetriG Pm4pyA.
Open Scope string_scope.
Open Scope list_scope.
Open Scope nat_scope.

Lemma is_workflow_ok n : wf n -> is_workflow_net n = true <-> (exists! p, source n p) /\ (exists! p, sink n p).
Proof.
  intros W. unfold is_workflow_net. destruct (get_source_sink_places n) as [so si] eqn:E.
  apply source_sink_ok in E; [|apply (w_trans n W)]. destruct E as (N1 & N2 & S1 & S2).
  assert (one : forall (l : list string) (P : string -> Prop), NoDup l -> (forall p, In p l <-> P p) -> length l = 1 <-> exists! p, P p).
  { intros l P N HP. split.
    - destruct l as [|x [|y l]]; cbn; try discriminate. intros _. exists x. split; [apply HP; cbn; auto|].
      intros y Hy. apply HP in Hy. cbn in Hy. intuition.
    - intros (x & Hx & U). apply (size1 l x); auto. intros y. rewrite HP. split; [intros; symmetry; auto|intros ->; auto]. }
  rewrite !andb_true_iff, !Nat.eqb_eq, Nat.leb_le, (one so (source n)), (one si (sink n)) by auto.
  split; [tauto|]. intros [H1 H2]. split; [|auto]. split; [|auto].
  destruct H1 as (p & Hp & _). destruct H2 as (q & Hq & _).
  assert (I : incl [p; q] (keys (places n))).
  { intros x [<-|[<-|[]]].
    - destruct Hp as [[t Ht] _]. eapply (w_sp n W); eauto.
    - destruct Hq as [[t Ht] _]. eapply (w_ep n W); eauto. }
  assert (N : NoDup [p; q]).
  { constructor; [|constructor; [tauto|constructor]]. intros [<-|[]]. destruct Hp, Hq. contradiction. }
  pose proof (NoDup_incl_length N I) as L. unfold keys in L. rewrite map_length in L. auto.
Qed.

Lemma transform_ok ord st n : wf n -> any_order ord -> exists so si,
  lists so (source n) /\ lists si (sink n) /\
  let fails := (1 < length so /\ (has_place n (String.concat "," so) \/ exists p, In p so /\ has_transition n p)) \/
    (1 < length si /\ (has_place n (String.concat "," si) \/ (1 < length so /\ String.concat "," so = String.concat "," si))) in
  match transform_to_workflow_net ord st n with
  | Ok (n', _) => ~ fails /\ wf n' /\
      extends n n' ((if 1 <? length so then [String.concat "," so] else []) ++ (if 1 <? length si then [String.concat "," si] else [])) /\
      (forall p, source n' p <-> if 1 <? length so then p = String.concat "," so else In p so) /\
      (forall p, sink n' p <-> if 1 <? length si then p = String.concat "," si else In p si)
  | Err e => e = ValueError /\ fails
  end.
Proof.
  intros W HO. unfold transform_to_workflow_net. destruct (copy st n) as [[c st']|e] eqn:Ec; [|rewrite copy_ok in Ec by auto; discriminate].
  destruct (wf_copy _ _ _ _ W Ec) as (Wc & Ep & Et). cbn [bind].
  assert (Hst : forall t, starts c t = starts n t) by (intros; unfold starts; rewrite Et; auto).
  assert (Hen : forall t, ends c t = ends n t) by (intros; unfold ends; rewrite Et; auto).
  assert (Hbe : forall p, before_some c p <-> before_some n p) by (intros p; unfold before_some; split; intros [t Ht]; exists t; rewrite Hst in *; auto).
  assert (Hbh : forall p, behind_some c p <-> behind_some n p) by (intros p; unfold behind_some; split; intros [t Ht]; exists t; rewrite Hen in *; auto).
  assert (Hpl : forall p, has_place c p <-> has_place n p) by (intros; unfold has_place; rewrite Ep; tauto).
  assert (Htr : forall p, has_transition c p <-> has_transition n p) by (intros; unfold has_transition; rewrite Et; tauto).
  assert (Xc : extends n c []).
  { unfold extends. rewrite Et. split; [auto|]. split; [intros t tr E Hn; exfalso; apply Hn; eapply dict_get_Some_key; eauto|].
    split; [intros; unfold tokens; rewrite Ep; auto|]. intros p. rewrite Hpl. cbn. tauto. }
  assert (Bp : forall p, before_some n p -> has_place n p) by (intros p [t Ht]; eapply (w_sp n W); eauto).
  assert (Fp : forall p, behind_some n p -> has_place n p) by (intros p [t Ht]; eapply (w_ep n W); eauto).
  destruct (get_source_sink_places c) as [so0 si0] eqn:E. apply source_sink_ok in E; [|apply (w_trans c Wc)].
  destruct E as (N1 & N2 & S1 & S2).
  assert (Ls : lists (ord so0) (source n)).
  { split; [eapply Permutation_NoDup; [symmetry; apply HO|auto]|]. intros p. unfold source. rewrite <- Hbe, <- Hbh, <- S1.
    split; apply Permutation_in; [|symmetry]; apply HO. }
  assert (Li : lists (ord si0) (sink n)).
  { split; [eapply Permutation_NoDup; [symmetry; apply HO|auto]|]. intros p. unfold sink. rewrite <- Hbe, <- Hbh, <- S2.
    split; apply Permutation_in; [|symmetry]; apply HO. }
  exists (ord so0), (ord si0). split; [auto|]. split; [auto|].
  rewrite <- (Permutation_length (HO so0)), <- (Permutation_length (HO si0)).
  set (so := ord so0) in *. set (si := ord si0) in *. clearbody so si. clear so0 si0 N1 N2 S1 S2.
  set (a := String.concat "," so). set (b := String.concat "," si).
  set (fails := (1 < length so /\ (has_place n a \/ exists p, In p so /\ has_transition n p)) \/
    (1 < length si /\ (has_place n b \/ (1 < length so /\ a = b)))).
  assert (G1 : match (if 1 <? length so then introduce_new_source_place so c else Ok c) with
     | Ok c1 => ~ (1 < length so /\ (has_place n a \/ exists p, In p so /\ has_transition n p)) /\ wf c1 /\
          extends n c1 (if 1 <? length so then [a] else []) /\
          (forall p, source c1 p <-> if 1 <? length so then p = a else In p so) /\ (forall p, sink c1 p <-> In p si)
     | Err e => e = ValueError /\ fails end).
  { destruct (Nat.ltb_spec 1 (length so)) as [L|L].
    - pose proof (new_source_ok so c Wc (proj1 Ls)) as G. fold a in G. cbv zeta in G.
      assert (Hne : so <> []) by (destruct so; [cbn in L; lia|discriminate]).
      assert (Hin : forall p, In p so -> has_place c p) by (intros p Hp; apply Hpl, Bp; apply Ls in Hp; apply Hp).
      specialize (G Hne Hin). destruct (introduce_new_source_place so c) as [c1|e1].
      + destruct G as (A1 & A2 & A3 & A4 & A5 & A6).
        assert (Na : ~ has_place n a) by (rewrite <- Hpl; auto).
        split; [intros [_ [?|(p & Hp & Ht)]]; [auto|apply (A2 p Hp), Htr, Ht]|]. split; [auto|].
        split; [apply (extends_trans _ _ _ _ _ Xc A4)|]. unfold source, sink. split; intros p; rewrite A5, A6, Hbe, Hbh.
        * split.
          -- intros [[B| ->] Hn]; [|auto]. exfalso. apply Hn. right. apply Ls. split; [auto|]. tauto.
          -- intros ->. split; [auto|]. intros [B|B]; [apply Na, Fp, B|]. apply Ls in B. apply Na, Bp, B.
        * rewrite (proj2 Li p). unfold sink. split.
          -- intros [[B|B] Hn]; [tauto|]. apply Ls in B. destruct B. tauto.
          -- intros [B Hn]. split; [auto|]. intros [?| ->]; [auto|]. apply Na, Fp, B.
      + destruct G as (-> & [Hp|(p & Hp & Ht)]); (split; [auto|]); left; (split; [auto|]); [left; apply Hpl; auto|right; exists p; rewrite <- Htr; auto].
    - split; [lia|]. split; [auto|]. split; [auto|]. split; intros p; [rewrite (proj2 Ls p)|rewrite (proj2 Li p)]; unfold source, sink; rewrite Hbe, Hbh; tauto. }
  destruct (if 1 <? length so then introduce_new_source_place so c else Ok c) as [c1|e1]; cbn [bind]; [|auto].
  destruct G1 as (A1 & A2 & A3 & A4 & A5).
  destruct (Nat.ltb_spec 1 (length si)) as [L|L].
  - pose proof (new_sink_ok si c1 A2 (proj1 Li)) as G. fold b in G. cbv zeta in G.
    assert (Hne : si <> []) by (destruct si; [cbn in L; lia|discriminate]).
    assert (Hin : forall p, In p si -> has_place c1 p).
    { intros p Hp. apply A3. left. apply Fp. apply Li in Hp. apply Hp. }
    specialize (G Hne Hin). 
    assert (Hb : has_place c1 b <-> has_place n b \/ (1 < length so /\ a = b)).
    { rewrite (proj2 (proj2 (proj2 A3))). destruct (Nat.ltb_spec 1 (length so)); cbn; intuition lia. }
    destruct (introduce_new_sink_place si c1) as [c2|e2]; cbn [bind].
    + destruct G as (B1 & B2 & B3 & B4 & B5). split; [|split; [auto|]].
      * intros [?|[_ ?]]; [auto|]. apply B1, Hb. auto.
      * split; [apply (extends_trans _ _ _ _ _ A3 B3)|].
        assert (Bp1 : forall p, before_some c1 p -> has_place c1 p) by (intros p [t Ht]; eapply (w_sp c1 A2); eauto).
        assert (Fp1 : forall p, behind_some c1 p -> has_place c1 p) by (intros p [t Ht]; eapply (w_ep c1 A2); eauto).
        split; intros p.
        -- rewrite <- A4. unfold source. rewrite B4, B5. split.
           ++ intros [[B|B] Hn]; [tauto|]. apply A5 in B. destruct B. tauto.
           ++ intros [B Hn]. split; [auto|]. intros [?| ->]; [auto|]. apply B1, Bp1, B.
        -- unfold sink. rewrite B4, B5. split.
           ++ intros [[B| ->] Hn]; [|auto]. exfalso. apply Hn. right. apply A5. split; [auto|]. tauto.
           ++ intros ->. split; [auto|]. intros [B|B]; [apply B1, Bp1, B|]. apply A5 in B. apply B1, Fp1, B.
    + destruct G as (-> & Hp). split; [auto|]. right. split; [auto|]. apply Hb, Hp.
  - cbn [bind]. split; [intros [?|[? _]]; [auto|lia]|]. split; [auto|]. rewrite app_nil_r. split; [auto|]. split; [auto|]. auto.
Qed.

Lemma force_ok ord id n : any_order ord -> wf n -> 
  wf (fst (force_transition ord id n)).
Proof.
  intros HO W. unfold force_transition. destruct (dict_get id (transitions n)) as [t|] eqn:E; [|auto].
  destruct (fire_ok ord id t n HO W E) as (n' & r & -> & _ & W' & _). auto.
Qed.
Lemma built_wf n : built n -> wf n.
Proof.
  induction 1.
  - apply wf_new.
  - eapply wf_place; eauto.
  - eapply wf_transition; eauto.
  - eapply wf_variable; eauto.
  - eapply wf_guard; eauto.
  - eapply wf_connection; eauto.
  - eapply set_marking_ok; eauto.
  - apply force_ok; auto.
  - pose proof (simulate_ok st ord pick n ltac:(auto) ltac:(auto) IHbuilt) as S.
    match goal with E : simulate_one_timestep _ _ _ _ = _ |- _ => rewrite E in S end. apply S.
  - eapply wf_copy; eauto.
  - destruct (transform_ok ord st n IHbuilt ltac:(auto)) as (so & si & _ & _ & T).
    match goal with E : transform_to_workflow_net _ _ _ = _ |- _ => rewrite E in T end. apply T.
  - destruct (prune_ok ord n ltac:(auto) IHbuilt) as (P & n1 & n2 & E2 & Pr). assert (n' = n2) by congruence. subst. apply Pr.
  - eapply wf_pm4py; eauto.
Qed.

(** nets for witnesses *)
Inductive cmd := AddP (id : string) (k : Z) | AddT (id : string) | AddI (id : string) | Conn (s t e : string) | SetG (id : string) (g : guard).
Definition do_cmd (n : net) (c : cmd) : net :=
  match (match c with
         | AddP id k => add_place id "" k n
         | AddT id => add_transition id None true n
         | AddI id => add_transition id None false n
         | Conn s t e => add_connection s t e n
         | SetG id g => set_guard_function id (Some g) n
         end) with Ok n' => n' | Err _ => n end.
Definition run_net (l : list cmd) : net := fold_left do_cmd l new_net.
Lemma run_built l : built (run_net l).
Proof.
  unfold run_net. assert (G : forall n, built n -> built (fold_left do_cmd l n)); [|apply G, b_new].
  induction l as [|c l IH]; intros n B; cbn [fold_left]; auto. apply IH. unfold do_cmd.
  destruct c as [id k|id|id|s t e|id g].
  - destruct (add_place id "" k n) eqn:E; [eapply b_place; eauto|auto].
  - destruct (add_transition id None true n) eqn:E; [eapply b_transition; eauto|auto].
  - destruct (add_transition id None false n) eqn:E; [eapply b_transition; eauto|auto].
  - destruct (add_connection s t e n) eqn:E; [eapply b_connection; eauto|auto].
  - destruct (set_guard_function id (Some g) n) eqn:E; [eapply b_guard; eauto|auto].
Qed.

(*P C50 Token counts never become negative under simulation *)
(** no public method makes a token count negative *)
Lemma C50_tokens_non_negative : forall n p, built n -> (0 <= tokens n p)%Z.
Proof. intros n p B. apply tokens_nonneg, built_wf, B. Qed.
(** one simulated step: every place with a token picks one of the transitions
    behind it whose guard accepts; the transitions picked by all their start
    places, and only they, fire; each takes one token from every start place
    and puts one on every end place; nothing but tokens changes *)
Lemma C50_step : forall st ord pick n n', built n -> any_order ord -> any_pick pick ->
  simulate_one_timestep st ord pick n = Ok n' ->
  same_structure n n' /\ exists opts fired,
    (forall p, (1 <= tokens n p)%Z -> options st n p (opts p)) /\ NoDup fired /\
    (forall t, In t fired <-> starts n t <> [] /\
       forall p, In p (starts n t) -> (1 <= tokens n p)%Z /\ opts p <> [] /\ pick p (opts p) = t) /\
    forall p, tokens n' p = (tokens n p + fold_right Z.add 0 (map (fun t => effect n t p) fired))%Z.
Proof.
  intros st ord pick n n' B HO HP E. pose proof (simulate_ok st ord pick n HO HP (built_wf n B)) as S. rewrite E in S.
  destruct S as (_ & S1 & opts & ts & S2). split; [auto|]. exists opts, ts. auto.
Qed.
(** a step fails only with the exception of a guard *)
Lemma C50_step_error : forall st ord pick n e, built n -> any_order ord -> any_pick pick ->
  simulate_one_timestep st ord pick n = Err e -> exists t, has_transition n t /\ accept st (guard_of n t) = Err e.
Proof.
  intros st ord pick n e B HO HP E. pose proof (simulate_ok st ord pick n HO HP (built_wf n B)) as S. rewrite E in S. auto.
Qed.

(*P C51 Forcing a transition *)
Lemma C51_fires_iff_enabled : forall ord n t, built n -> any_order ord ->
  snd (force_transition ord t n) = None <-> has_transition n t /\ enabled n t.
Proof.
  intros ord n t B HO. unfold force_transition, has_transition. rewrite dict_get_Some_iff.
  destruct (dict_get t (transitions n)) as [tr|] eqn:Et; [|split; [discriminate|intros [[v F] _]; discriminate]].
  destruct (fire_ok ord t tr n HO (built_wf n B) Et) as (n1 & r & E1 & S1 & _ & C). rewrite E1. cbn [snd].
  destruct C as [(-> & C1 & C2)|(-> & (q & Hq & Tq) & _)]; [split; eauto|]. split; [discriminate|].
  intros [_ En]. specialize (En q Hq). lia.
Qed.
Lemma C51_effect : forall ord n t n', built n -> any_order ord -> force_transition ord t n = (n', None) ->
  same_structure n n' /\ forall p, tokens n' p = (tokens n p + effect n t p)%Z.
Proof.
  intros ord n t n' B HO E. unfold force_transition in E.
  destruct (dict_get t (transitions n)) as [tr|] eqn:Et; [|discriminate].
  destruct (fire_ok ord t tr n HO (built_wf n B) Et) as (n1 & r & E1 & S1 & _ & C). rewrite E1 in E. injection E as -> ->.
  destruct C as [(_ & C1 & C2)|(C & _)]; [|discriminate]. auto.
Qed.
(** on failure the net is not always unchanged: some start places may already
    have lost a token *)
Lemma C51_raises : forall ord n t n' e, built n -> any_order ord -> force_transition ord t n = (n', Some e) ->
  e = ValueError /\ same_structure n n' /\
  ((~ has_transition n t /\ n' = n) \/
   (has_transition n t /\ ~ enabled n t /\ exists lost, NoDup lost /\
      (forall p, In p lost -> In p (starts n t) /\ (1 <= tokens n p)%Z) /\
      forall p, tokens n' p = (tokens n p - if mem p lost then 1 else 0)%Z)).
Proof.
  intros ord n t n' e B HO E. unfold force_transition in E.
  destruct (dict_get t (transitions n)) as [tr|] eqn:Et.
  - destruct (fire_ok ord t tr n HO (built_wf n B) Et) as (n1 & r & E1 & S1 & _ & C). rewrite E1 in E. injection E as -> ->.
    destruct C as [(C & _)|(C & (q & Hq & Tq) & lost & L)]; [discriminate|]. injection C as ->. split; [auto|]. split; [auto|].
    right. split; [eapply dict_get_Some_key; eauto|]. split; [|exists lost; exact L].
    intros En. specialize (En q Hq). lia.
  - injection E as <- <-. split; [auto|]. split; [apply same_refl|]. left. split; [|auto]. apply dict_get_None. auto.
Qed.
Lemma C51_not_atomic : exists ord n t n', built n /\ any_order ord /\ force_transition ord t n = (n', Some ValueError) /\
  exists p, tokens n' p = (tokens n p - 1)%Z.
Proof.
  exists (fun l => l), (run_net [AddP "p" 1; AddP "q" 0; AddP "r" 0; AddT "t"; Conn "p" "t" "r"; Conn "q" "t" "r"]), "t".
  eexists. split; [apply run_built|]. split; [intros l; auto|]. split; [vm_compute; reflexivity|]. exists "p". vm_compute. auto.
Qed.

(*P C52 Workflow net transformation *)
(** [is_workflow_net] is the documented notion *)
Lemma C52_is_workflow_net : forall n, built n -> is_workflow_net n = true <-> (exists! p, source n p) /\ (exists! p, sink n p).
Proof. intros n B. apply is_workflow_ok, built_wf, B. Qed.
(** sources and sinks are joined into one each; the transformation fails only
    when an id it chooses is taken *)
Lemma C52_transform : forall ord st n, built n -> any_order ord -> exists so si,
  lists so (source n) /\ lists si (sink n) /\
  let a := String.concat "," so in let b := String.concat "," si in
  let taken := (1 < length so /\ (has_place n a \/ exists p, In p so /\ has_transition n p)) \/
    (1 < length si /\ (has_place n b \/ (1 < length so /\ a = b))) in
  match transform_to_workflow_net ord st n with
  | Ok (n', _) => ~ taken /\
      extends n n' ((if 1 <? length so then [a] else []) ++ (if 1 <? length si then [b] else [])) /\
      (forall p, source n' p <-> if 1 <? length so then p = a else In p so) /\
      (forall p, sink n' p <-> if 1 <? length si then p = b else In p si)
  | Err e => e = ValueError /\ taken
  end.
Proof.
  intros ord st n B HO. destruct (transform_ok ord st n (built_wf n B) HO) as (so & si & Ls & Li & T).
  exists so, si. split; [auto|]. split; [auto|]. cbv zeta in *. destruct (transform_to_workflow_net ord st n) as [[n' st']|e]; [|auto].
  destruct T as (T1 & _ & T2). auto.
Qed.
Lemma C52_result_is_workflow_net : forall ord st n n' st', built n -> any_order ord -> transform_to_workflow_net ord st n = Ok (n', st') ->
  is_workflow_net n' = true <-> (exists p, source n p) /\ (exists p, sink n p).
Proof.
  intros ord st n n' st' B HO E. rewrite C52_is_workflow_net by (eapply b_workflow; eauto).
  destruct (C52_transform ord st n B HO) as (so & si & Ls & Li & T). rewrite E in T. cbv zeta in T. destruct T as (_ & _ & T1 & T2).
  assert (one : forall (l : list string) (P Q : string -> Prop) a, lists l P -> (forall p, Q p <-> if 1 <? length l then p = a else In p l) ->
     (exists! p, Q p) <-> exists p, P p).
  { intros l P Q a [_ L] HQ. split.
    - intros (p & Hp & _). destruct l as [|x l]; [apply HQ in Hp; destruct Hp|]. exists x. apply L. cbn; auto.
    - intros (p & Hp). apply L in Hp. destruct l as [|x [|y l]].
      + destruct Hp.
      + exists x. split; [apply HQ; cbn; auto|]. intros z Hz. apply HQ in Hz. cbn in Hz. intuition.
      + exists a. split; [apply HQ; cbn; auto|]. intros z Hz. apply HQ in Hz. cbn in Hz. auto. }
  rewrite (one so (source n) (source n') _ Ls T1), (one si (sink n) (sink n') _ Li T2). tauto.
Qed.

(*P C53 Fresh ids *)
(** the first free one of id, id', id'', ... *)
Lemma C53_make_id_unique : forall id existing, exists k, make_id_unique id existing = Ok (quoted id k) /\
  ~ In (quoted id k) existing /\ forall j, j < k -> In (quoted id j) existing.
Proof. apply make_id_unique_ok. Qed.
Lemma C53_free_id_kept : forall id existing, ~ In id existing -> make_id_unique id existing = Ok id.
Proof.
  intros id ex Hn. destruct (make_id_unique_ok id ex) as (k & E & _ & J). destruct k as [|k]; [auto|].
  exfalso. apply Hn. apply (J 0). lia.
Qed.

(** fireable transitions *)
Lemma fold_add l : forall a, fold_left Z.add l a = (a + fold_right Z.add 0 l)%Z.
Proof. induction l as [|x l IH]; intros a; cbn; [lia|]. rewrite IH. lia. Qed.
Lemma token_list n l : (forall p, In p l -> has_place n p) ->
  mapM (fun p => do pl <- of_option KeyError (dict_get p (places n)) ; Ok (p_tokens pl)) l = Ok (map (tokens n) l).
Proof.
  induction l as [|p l IH]; intros Hl; cbn [mapM map]; auto.
  destruct (dict_get_key (places n) p) as [pl E]; [apply Hl; cbn; auto|]. rewrite E. cbn [of_option bind].
  rewrite IH by (intros; apply Hl; cbn; auto). cbn [bind]. do 2 f_equal. unfold tokens. rewrite E. auto.
Qed.
Definition listed (st : store) (ign : bool) (n : net) (t : string) : bool :=
  (ign || match accept st (guard_of n t) with Ok b => b | Err _ => false end) &&
  (fold_right Z.add 0 (map (tokens n) (starts n t)) =? Z.of_nat (length (starts n t)))%Z.
Lemma fireable_transitions_ok st ign n : wf n ->
  match get_fireable_transitions st ign n with
  | Ok l => l = filter (listed st ign n) (keys (transitions n)) /\ (ign = false -> forall t, has_transition n t -> exists b, accept st (guard_of n t) = Ok b)
  | Err e => ign = false /\ exists t, has_transition n t /\ accept st (guard_of n t) = Err e
  end.
Proof.
  intros W. unfold get_fireable_transitions.
  assert (G : forall rest done acc, transitions n = done ++ rest ->
     acc = filter (listed st ign n) (keys done) -> (ign = false -> forall t, In t (keys done) -> exists b, accept st (guard_of n t) = Ok b) ->
     match foldM (fun acc '(id, t) =>
       do b <- (if ign then Ok true else accept st (t_guard t)) ;
       if b then
         do ks <- mapM (fun p => do pl <- of_option KeyError (dict_get p (places n)) ; Ok (p_tokens pl)) (t_start t) ;
         if (fold_left Z.add ks 0 =? Z.of_nat (length (t_start t)))%Z then Ok (acc ++ [id]) else Ok acc
       else Ok acc) rest acc with
     | Ok l => l = filter (listed st ign n) (keys (transitions n)) /\ (ign = false -> forall t, has_transition n t -> exists b, accept st (guard_of n t) = Ok b)
     | Err e => ign = false /\ exists t, has_transition n t /\ accept st (guard_of n t) = Err e
     end).
  { induction rest as [|[t tr] rest IH]; intros done acc E Ea Hg; cbn [foldM].
    - rewrite app_nil_r in E. unfold has_transition. rewrite E. auto.
    - assert (Et : dict_get t (transitions n) = Some tr).
      { apply dict_In_get; [apply (w_trans n W)|]. rewrite E. apply in_or_app; cbn; auto. }
      assert (Es : starts n t = t_start tr) by (unfold starts; rewrite Et; auto).
      pose proof (guard_get n t tr Et) as Eg. rewrite <- Eg, <- Es.
      assert (Ht : has_transition n t) by (eapply dict_get_Some_key; eauto).
      assert (El : listed st ign n t = true \/ listed st ign n t = false) by (destruct (listed st ign n t); auto).
      assert (K : keys (done ++ [(t, tr)]) = keys done ++ [t]) by (rewrite keys_app; auto).
      destruct (if ign then Ok true else accept st (guard_of n t)) as [b|e] eqn:Eb; cbn [bind].
      2:{ destruct ign; [discriminate|]. eauto. }
      assert (Eacc : (ign || match accept st (guard_of n t) with Ok b => b | Err _ => false end) = b).
      { destruct ign; [injection Eb as <-; auto|]. rewrite Eb. auto. }
      assert (Hg' : ign = false -> forall u, In u (keys done ++ [t]) -> exists b, accept st (guard_of n u) = Ok b).
      { intros Ei u Hu. apply in_app_or in Hu. destruct Hu as [Hu|[<-|[]]]; [auto|]. rewrite Ei in Eb. eauto. }
      destruct b.
      + rewrite (token_list n (starts n t)) by (apply (w_sp n W)). cbn [bind]. rewrite fold_add. cbn [Z.add].
        assert (Elt : listed st ign n t = (fold_right Z.add 0 (map (tokens n) (starts n t)) =? Z.of_nat (length (starts n t)))%Z).
        { unfold listed. rewrite Eacc. auto. }
        rewrite <- Elt. destruct (listed st ign n t) eqn:Q; cbn [bind]; apply (IH (done ++ [(t, tr)]));
          rewrite ?K, <- ?app_assoc, ?filter_app; cbn [filter]; rewrite ?Q, ?app_nil_r; auto; congruence.
      + cbn [bind]. assert (Q : listed st ign n t = false) by (unfold listed; rewrite Eacc; auto).
        apply (IH (done ++ [(t, tr)])); rewrite ?K, <- ?app_assoc, ?filter_app; cbn [filter]; rewrite ?Q, ?app_nil_r; auto. }
  apply (G (transitions n) [] []); auto. cbn. tauto.
Qed.

(*P C76 Fireable transitions *)
(** exactly what is listed, in the order of the transitions: an accepting guard
    (unless guards are ignored) and as many tokens before the transition, in
    total, as it has start places *)
Lemma C76_exact : forall st ignore n l, built n -> get_fireable_transitions st ignore n = Ok l ->
  exists f, l = filter f (keys (transitions n)) /\
  forall t, has_transition n t -> f t = true <->
    (ignore = true \/ accept st (guard_of n t) = Ok true) /\
    fold_right Z.add 0%Z (map (tokens n) (starts n t)) = Z.of_nat (length (starts n t)).
Proof.
  intros st ign n l B E. pose proof (fireable_transitions_ok st ign n (built_wf n B)) as G. rewrite E in G. destruct G as [-> G].
  exists (listed st ign n). split; [auto|]. intros t Ht. unfold listed. rewrite andb_true_iff, orb_true_iff, Z.eqb_eq.
  destruct ign; [intuition congruence|]. destruct (G eq_refl t Ht) as [b ->]. intuition congruence.
Qed.
Lemma C76_error : forall st ignore n e, built n -> get_fireable_transitions st ignore n = Err e ->
  ignore = false /\ exists t, has_transition n t /\ accept st (guard_of n t) = Err e.
Proof.
  intros st ign n e B E. pose proof (fireable_transitions_ok st ign n (built_wf n B)) as G. rewrite E in G. auto.
Qed.
(** on nets with at most one token per place these are the enabled transitions *)
Lemma C76_safe_marking : forall st ignore n l, built n -> (forall p, (tokens n p <= 1)%Z) ->
  get_fireable_transitions st ignore n = Ok l ->
  exists f, l = filter f (keys (transitions n)) /\
  forall t, has_transition n t -> f t = true <->
    (ignore = true \/ accept st (guard_of n t) = Ok true) /\ enabled n t.
Proof.
  intros st ign n l B Hs E. destruct (C76_exact st ign n l B E) as (f & El & F). exists f. split; [auto|].
  intros t Ht. rewrite F by auto. assert (A : fold_right Z.add 0%Z (map (tokens n) (starts n t)) = Z.of_nat (length (starts n t)) <-> enabled n t); [|tauto].
  unfold enabled. pose proof (fun p => C50_tokens_non_negative n p B) as Hn.
  assert (U : forall l, (fold_right Z.add 0 (map (tokens n) l) <= Z.of_nat (length l))%Z).
  { clear - Hs. induction l as [|p l IH]; cbn [map fold_right length]; [lia|]. specialize (Hs p). lia. }
  generalize (starts n t). intros k. induction k as [|p k IH]; cbn [map fold_right length In].
  - split; [intros _ ? []|auto].
  - specialize (U k). split.
    + intros Q. assert (T1 : tokens n p = 1%Z) by (specialize (Hs p); lia). intros q [<-|Hq]; [lia|]. apply IH; [lia|auto].
    + intros Q. assert (T1 : tokens n p = 1%Z) by (specialize (Hs p); specialize (Q p (or_introl eq_refl)); lia).
      assert (R : fold_right Z.add 0%Z (map (tokens n) k) = Z.of_nat (length k)) by (apply IH; auto). lia.
Qed.
(** in general it is neither: one start place with two tokens and one with none
    is listed though it cannot fire, and two tokens before a transition with one
    start place are not listed though it can fire *)
Lemma C76_unsafe_markings : exists st n l t u, built n /\ get_fireable_transitions st false n = Ok l /\
  (In t l /\ ~ enabled n t) /\ (has_transition n u /\ accept st (guard_of n u) = Ok true /\ enabled n u /\ ~ In u l).
Proof.
  exists [], (run_net [AddP "p" 2; AddP "q" 0; AddP "r" 0; AddT "t"; AddT "u"; Conn "p" "t" "r"; Conn "q" "t" "r"; Conn "p" "u" "q"]), ["t"], "t", "u".
  split; [apply run_built|]. split; [vm_compute; reflexivity|]. split; [split; [cbn; auto|]|].
  - intros E. specialize (E "q"). vm_compute in E. apply E; auto.
  - split; [vm_compute; auto|]. split; [reflexivity|]. split; [|cbn; intuition discriminate].
    intros p [<-|[]]. vm_compute. discriminate.
Qed.

(** copies *)
Lemma accept_app st st' ext g : looks_below (length st) g -> accept (st ++ ext) g = accept (st ++ st') g.
Proof.
  assert (V : forall r, r < length st -> value (st ++ ext) r = value (st ++ st') r).
  { intros r Hr. unfold value. rewrite !app_nth1 by auto. auto. }
  revert g. fix IH 1. intros g. destruct g as [| | | | | | | | |gs]; cbn [looks_below accept]; intros L; try (rewrite V by auto); try reflexivity.
  induction gs as [|g gs IHg]; [reflexivity|]. cbn [fold_right] in L. destruct L as [L1 L2]. rewrite (IH g L1).
  destruct (accept (st ++ st') g) as [[|]|]; cbn [bind]; auto.
Qed.

(*P C77 Copying a net *)
Lemma C77_copy : forall st n, built n -> exists n' st', copy st n = Ok (n', st') /\
  places n' = places n /\ transitions n' = transitions n /\ keys (variables n') = keys (variables n) /\
  firstn (length st) st' = st /\
  map (fun r => value st' r) (map snd (variables n')) = map (fun r => value st r) (map snd (variables n)) /\
  forall x r, dict_get x (variables n') = Some r -> length st <= r < length st'.
Proof.
  intros st n B. rewrite copy_ok by (apply built_wf, B). eexists _, _. split; [reflexivity|]. cbn [places transitions variables].
  set (vs := variables n). set (ext := map (fun '(_, r) => value st r) vs).
  set (vs' := map (fun '(i, (name, _)) => (name, length st + i)) (combine (seq 0 (length vs)) vs)).
  assert (Ek : forall k l, map fst (map (fun '(i, (name, _)) => (name, k + i)) (combine (seq 0 (length l)) l : list (nat * (string * nat)))) = map fst l).
  { intros k l. generalize 0 as a. induction l as [|[x r] l IH]; intros a; cbn; [auto|]. f_equal. apply IH. }
  split; [auto|]. split; [auto|]. split; [apply Ek|]. split; [rewrite firstn_app, Nat.sub_diag, firstn_all, firstn_O, app_nil_r; auto|].
  assert (Es : map snd vs' = seq (length st) (length vs)).
  { unfold vs'. rewrite map_map. assert (Q : forall (l : list (string * nat)) a, map (fun x => snd (let '(i, (name, _)) := x in (name, length st + i))) (combine (seq a (length l)) l) = seq (length st + a) (length l)).
    { induction l as [|[x r] l IH]; intros a; cbn; [auto|]. f_equal. rewrite IH. f_equal. lia. }
    rewrite Q. f_equal. lia. }
  split.
  - rewrite Es. unfold value at 1. transitivity ext; [|unfold ext; rewrite map_map; apply map_ext; intros [? ?]; auto].
    replace (length vs) with (length ext) by (unfold ext; apply map_length). clearbody ext.
    assert (Q : forall (pre ext : list val), map (fun r => nth r (pre ++ ext) VNone) (seq (length pre) (length ext)) = ext).
    { intros pre e. revert pre. induction e as [|v e IH]; intros pre; cbn [length seq map]; [auto|].
      rewrite app_nth2, Nat.sub_diag by lia. cbn [nth]. f_equal. specialize (IH (pre ++ [v])). rewrite <- app_assoc in IH. cbn [app] in IH.
      rewrite app_length in IH. cbn [length] in IH. rewrite Nat.add_1_r in IH. auto. }
    apply Q.
  - intros x r E. apply dict_get_In in E. apply (in_map snd) in E. rewrite Es in E. apply in_seq in E. rewrite app_length.
    unfold ext. rewrite map_length. cbn in E. lia.
Qed.
(** the guards of the copy still look at the variables of the original: setting
    variables of the copy never changes whether its transitions may fire *)
Lemma C77_guards_not_rebound : forall st n n' st' ext t, built n -> copy st n = Ok (n', st') ->
  (forall t, looks_below (length st) (guard_of n t)) ->
  accept (st ++ ext) (guard_of n' t) = accept st (guard_of n t).
Proof.
  intros st n n' st' ext t B E L. destruct (wf_copy _ _ _ _ (built_wf n B) E) as (_ & _ & Et).
  assert (Eg : guard_of n' t = guard_of n t) by (unfold guard_of; rewrite Et; auto). rewrite Eg.
  rewrite (accept_app st [] ext _ (L t)). rewrite app_nil_r. auto.
Qed.
