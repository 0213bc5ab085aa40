From Coq Require Import String Permutation ZArith.
From Verif.Model Require Import Base PetriNet.
From Verif.Spec Require Import PetriSpec.
From Verif.Lib Require Import ListLib DictLib.
Open Scope list_scope.
Open Scope nat_scope.

Lemma dict_ext {K V} `{Eq K} (d d' : dict K V) : keys d = keys d' -> NoDup (keys d) ->
  (forall k, dict_get k d = dict_get k d') -> d = d'.
Proof.
  revert d'. induction d as [|[k v] d IH]; intros [|[k' v'] d'] E N G; cbn in E; try discriminate; auto.
  injection E as -> E. cbn in N. inversion N as [|? ? N1 N2]; subst. f_equal.
  - specialize (G k'). cbn in G. rewrite eqb_refl in G. congruence.
  - apply IH; auto. intros x. pose proof (G x) as Gx. cbn in Gx. destruct (eqb_ok x k') as [Ex|]; auto. rewrite Ex.
    rewrite (proj2 (dict_get_None d k') N1). symmetry. apply dict_get_None. unfold keys. rewrite <- E. auto.
Qed.
Lemma dict_get_Some_iff {K V} `{Eq K} (d : dict K V) k : In k (keys d) <-> exists v, dict_get k d = Some v.
Proof. split; [apply dict_get_key|intros [v E]; eapply dict_get_Some_key; eauto]. Qed.

Lemma NoDup_app_l {X} (l m : list X) : NoDup (l ++ m) -> NoDup l.
Proof. induction l as [|x l IH]; cbn; intros N; [constructor|]. inversion N; subst. constructor; auto. rewrite in_app_iff in *. tauto. Qed.
(** invariant *)
Record wf (n : net) : Prop := {
  w_places : NoDup (keys (places n));
  w_trans : NoDup (keys (transitions n));
  w_start : forall t, NoDup (starts n t);
  w_end : forall t, NoDup (ends n t);
  w_sp : forall t p, In p (starts n t) -> has_place n p;
  w_ep : forall t p, In p (ends n t) -> has_place n p;
  w_pt : forall p pl, dict_get p (places n) = Some pl ->
    NoDup (p_transitions pl) /\ (0 <= p_tokens pl)%Z /\ forall t, In t (p_transitions pl) <-> In p (starts n t) }.

Lemma starts_has n t p : In p (starts n t) -> has_transition n t.
Proof. unfold starts, has_transition. destruct (dict_get t (transitions n)) eqn:E; [|intros []]. intros _. eapply dict_get_Some_key; eauto. Qed.
Lemma ends_has n t p : In p (ends n t) -> has_transition n t.
Proof. unfold ends, has_transition. destruct (dict_get t (transitions n)) eqn:E; [|intros []]. intros _. eapply dict_get_Some_key; eauto. Qed.
Lemma tokens_nonneg n p : wf n -> (0 <= tokens n p)%Z.
Proof. intros W. unfold tokens. destruct (dict_get p (places n)) eqn:E; [|lia]. apply (w_pt n W _ _ E). Qed.

Lemma wf_new : wf new_net.
Proof. constructor; cbn; try constructor; try tauto; discriminate. Qed.
Lemma has_false {K V} `{Eq K} (d : dict K V) k : dict_has k d = false -> dict_get k d = None.
Proof. unfold dict_has. destruct (dict_get k d); [discriminate|auto]. Qed.
Lemma wf_place id label k n n' : wf n -> add_place id label k n = Ok n' -> wf n' /\
  ~ has_place n id /\ transitions n' = transitions n /\ variables n' = variables n /\
  (forall p, has_place n' p <-> p = id \/ has_place n p) /\ (forall p, p <> id -> tokens n' p = tokens n p) /\ tokens n' id = k.
Proof.
  intros W. unfold add_place. destruct (Z.ltb_spec k 0); [discriminate|]. destruct (dict_has id (places n)) eqn:Eh; [discriminate|].
  apply has_false in Eh. intros E; injection E as <-.
  assert (Hno : ~ has_place n id) by (apply dict_get_None; auto).
  assert (Hp : forall p, has_place (Net (dict_set id (Place label k []) (places n)) (transitions n) (variables n)) p <-> p = id \/ has_place n p).
  { intros p. unfold has_place. cbn. apply keys_dict_set_In. }
  split; [|split; [auto|]].
  - destruct W as [W1 W2 W3 W4 W5 W6 W7]. constructor; cbn; auto.
    + apply keys_dict_set_NoDup; auto.
    + intros t p Hin. apply Hp. right. eapply W5; eauto.
    + intros t p Hin. apply Hp. right. eapply W6; eauto.
    + intros p pl. rewrite dict_get_set. destruct (eqb_ok p id) as [->|]; [|apply W7].
      intros E; injection E as <-. cbn. split; [constructor|]. split; [lia|]. intros t. split; [intros []|].
      intros Hin. exfalso. apply Hno. eapply W5. exact Hin.
  - split; [auto|]. split; [auto|]. split; [auto|]. unfold tokens. cbn. split.
    + intros p Hne. rewrite dict_get_set. destruct (eqb_ok p id); [contradiction|auto].
    + rewrite dict_get_set, eqb_refl. auto.
Qed.
Lemma wf_transition id label v n n' : wf n -> add_transition id label v n = Ok n' -> wf n' /\
  ~ has_transition n id /\ places n' = places n /\ variables n' = variables n /\
  (forall t, dict_get t (transitions n') = if eqb t id then Some (Transition (match label with Some l => l | None => id end) v [] [] AcceptAlways)
     else dict_get t (transitions n)) /\
  (forall t, starts n' t = starts n t) /\ (forall t, ends n' t = ends n t).
Proof.
  intros W. unfold add_transition. destruct (dict_has id (transitions n)) eqn:Eh; [discriminate|].
  apply has_false in Eh. intros E; injection E as <-.
  assert (Hno : ~ has_transition n id) by (apply dict_get_None; auto).
  set (n' := Net _ _ _).
  assert (Hs : forall t, starts n' t = starts n t).
  { intros t. unfold starts, n'. cbn. rewrite dict_get_set. destruct (eqb_ok t id) as [->|]; auto. rewrite Eh. auto. }
  assert (He : forall t, ends n' t = ends n t).
  { intros t. unfold ends, n'. cbn. rewrite dict_get_set. destruct (eqb_ok t id) as [->|]; auto. rewrite Eh. auto. }
  split.
  - destruct W as [W1 W2 W3 W4 W5 W6 W7]. constructor; auto.
    + apply keys_dict_set_NoDup; auto.
    + intros t. rewrite Hs. auto.
    + intros t. rewrite He. auto.
    + intros t p. rewrite Hs. apply W5.
    + intros t p. rewrite He. apply W6.
    + intros p pl E. destruct (W7 p pl E) as (Q1 & Q2 & Q3). split; [auto|]. split; [auto|]. intros t. rewrite Hs. auto.
  - split; [auto|]. split; [auto|]. split; [auto|]. split; [|auto]. intros t. unfold n'. cbn. rewrite dict_get_set. auto.
Qed.
Lemma wf_variable name r n n' : wf n -> add_variable name r n = Ok n' -> wf n'.
Proof.
  intros W. unfold add_variable. destruct (dict_has name (variables n)); [discriminate|]. intros E; injection E as <-.
  destruct W as [W1 W2 W3 W4 W5 W6 W7]. constructor; auto.
Qed.
Lemma wf_guard id g n n' : wf n -> set_guard_function id g n = Ok n' -> wf n' /\ places n' = places n /\ variables n' = variables n /\
  exists tr, dict_get id (transitions n) = Some tr /\
    forall t, dict_get t (transitions n') = if eqb t id then Some (Transition (t_label tr) (t_visible tr) (t_start tr) (t_end tr)
       (match g with Some g => g | None => AcceptAlways end)) else dict_get t (transitions n).
Proof.
  intros W. unfold set_guard_function. destruct (dict_get id (transitions n)) as [tr|] eqn:Et; [|discriminate].
  cbn [of_option bind]. intros E; injection E as <-. set (n' := Net _ _ _).
  assert (Hs : forall t, starts n' t = starts n t).
  { intros t. unfold starts, n'. cbn. rewrite dict_get_set. destruct (eqb_ok t id) as [->|]; auto. rewrite Et. auto. }
  assert (He : forall t, ends n' t = ends n t).
  { intros t. unfold ends, n'. cbn. rewrite dict_get_set. destruct (eqb_ok t id) as [->|]; auto. rewrite Et. auto. }
  split; [|split; [auto|split; [auto|exists tr; split; [auto|intros t; unfold n'; cbn; rewrite dict_get_set; auto]]]].
  destruct W as [W1 W2 W3 W4 W5 W6 W7]. constructor; auto.
  - apply keys_dict_set_NoDup; auto.
  - intros t. rewrite Hs. auto.
  - intros t. rewrite He. auto.
  - intros t p. rewrite Hs. apply W5.
  - intros t p. rewrite He. apply W6.
  - intros p pl E. destruct (W7 p pl E) as (Q1 & Q2 & Q3). split; [auto|]. split; [auto|]. intros t. rewrite Hs. auto.
Qed.
Lemma connection_ok s t e n n' : add_connection s t e n = Ok n' ->
  has_place n s /\ has_place n e /\ variables n' = variables n /\
  keys (places n') = keys (places n) /\ keys (transitions n') = keys (transitions n) /\
  (forall p, dict_get p (places n') = match dict_get p (places n) with
     | Some pl => Some (if eqb p s then Place (p_label pl) (p_tokens pl) (set_add t (p_transitions pl)) else pl) | None => None end) /\
  (exists tr, dict_get t (transitions n) = Some tr /\ forall u, dict_get u (transitions n') =
     if eqb u t then Some (Transition (t_label tr) (t_visible tr) (set_add s (t_start tr)) (set_add e (t_end tr)) (t_guard tr))
     else dict_get u (transitions n)).
Proof.
  unfold add_connection. destruct (dict_get s (places n)) as [ps|] eqn:Es; [|discriminate].
  destruct (dict_get e (places n)) as [pe|] eqn:Ee; [|discriminate].
  destruct (dict_get t (transitions n)) as [tr|] eqn:Et; [|discriminate].
  intros E; injection E as <-. split; [eapply dict_get_Some_key; eauto|]. split; [eapply dict_get_Some_key; eauto|]. cbn [places transitions variables].
  split; [auto|]. rewrite !keys_dict_set.
  rewrite (proj2 (mem_In s (keys (places n)))) by (eapply dict_get_Some_key; eauto).
  rewrite (proj2 (mem_In t (keys (transitions n)))) by (eapply dict_get_Some_key; eauto).
  split; [auto|]. split; [auto|]. split.
  - intros p. rewrite dict_get_set. destruct (eqb_ok p s) as [->|]; [rewrite Es; auto|]. destruct (dict_get p (places n)); auto.
  - exists tr. split; [auto|]. intros u. rewrite dict_get_set. auto.
Qed.
Lemma wf_connection s t e n n' : wf n -> add_connection s t e n = Ok n' -> wf n' /\
  has_place n s /\ has_place n e /\ has_transition n t /\
  (forall p, has_place n' p <-> has_place n p) /\ (forall p, has_transition n' p <-> has_transition n p) /\
  (forall p, tokens n' p = tokens n p) /\
  (forall u p, In p (starts n' u) <-> In p (starts n u) \/ (u = t /\ p = s)) /\
  (forall u p, In p (ends n' u) <-> In p (ends n u) \/ (u = t /\ p = e)).
Proof.
  intros W E. apply connection_ok in E. destruct E as (Hps & Hpe & Ev & Kp & Kt & Gp & tr & Et & Gt).
  assert (Hs : forall u p, In p (starts n' u) <-> In p (starts n u) \/ (u = t /\ p = s)).
  { intros u p. unfold starts. rewrite Gt. destruct (eqb_ok u t) as [->|]; [|intuition]. cbn. rewrite Et, set_add_In. intuition. }
  assert (He : forall u p, In p (ends n' u) <-> In p (ends n u) \/ (u = t /\ p = e)).
  { intros u p. unfold ends. rewrite Gt. destruct (eqb_ok u t) as [->|]; [|intuition]. cbn. rewrite Et, set_add_In. intuition. }
  split.
  - destruct W as [W1 W2 W3 W4 W5 W6 W7]. constructor.
    + rewrite Kp. auto.
    + rewrite Kt. auto.
    + intros u. unfold starts. rewrite Gt. destruct (eqb_ok u t) as [->|]; [|apply W3]. cbn. apply set_add_NoDup.
      specialize (W3 t). unfold starts in W3. rewrite Et in W3. auto.
    + intros u. unfold ends. rewrite Gt. destruct (eqb_ok u t) as [->|]; [|apply W4]. cbn. apply set_add_NoDup.
      specialize (W4 t). unfold ends in W4. rewrite Et in W4. auto.
    + intros u p Hin. unfold has_place. rewrite Kp. apply Hs in Hin. destruct Hin as [Hin|[_ ->]]; auto. eapply W5; eauto.
    + intros u p Hin. unfold has_place. rewrite Kp. apply He in Hin. destruct Hin as [Hin|[_ ->]]; auto. eapply W6; eauto.
    + intros p pl. rewrite Gp. destruct (dict_get p (places n)) as [pl0|] eqn:Ep; [|discriminate].
      destruct (W7 p pl0 Ep) as (Q1 & Q2 & Q3). destruct (eqb_ok p s) as [->|Hne]; intros E; injection E as <-; cbn.
      * split; [apply set_add_NoDup; auto|]. split; [auto|]. intros u. rewrite set_add_In, Hs, Q3. intuition.
      * split; [auto|]. split; [auto|]. intros u. rewrite Hs, Q3. intuition congruence.
  - split; [auto|]. split; [auto|]. split; [eapply dict_get_Some_key; eauto|]. split; [intros p; unfold has_place; rewrite Kp; tauto|].
    split; [intros p; unfold has_transition; rewrite Kt; tauto|]. split; [|auto].
    intros p. unfold tokens. rewrite Gp. destruct (dict_get p (places n)); auto. destruct (eqb_ok p s); auto.
Qed.

(** token changes *)
Lemma same_refl n : same_structure n n.
Proof. unfold same_structure. auto. Qed.
Lemma same_trans n m k : same_structure n m -> same_structure m k -> same_structure n k.
Proof. intros (A1 & A2 & A3) (B1 & B2 & B3). unfold same_structure. repeat split; congruence. Qed.
Lemma set_tokens_ok p k n : has_place n p -> NoDup (keys (places n)) ->
  exists n', set_tokens p k n = Ok n' /\ same_structure n n' /\ tokens n' p = k /\ forall q, q <> p -> tokens n' q = tokens n q.
Proof.
  intros Hp N. apply dict_get_key in Hp. destruct Hp as [pl E]. unfold set_tokens. rewrite E. cbn [of_option bind].
  eexists. split; [reflexivity|]. unfold same_structure, tokens. cbn. split; [split; [auto|split; [auto|]]|].
  - clear - E. induction (places n) as [|[q ql] d IH]; cbn [dict_get dict_set map] in *; [discriminate|].
    destruct (eqb_ok p q) as [->|]; cbn [map]; [injection E as ->; auto|]. f_equal. auto.
  - split; [rewrite dict_get_set, eqb_refl; auto|]. intros q Hq. rewrite dict_get_set. destruct (eqb_ok q p); [contradiction|auto].
Qed.
Lemma same_keys n n' : same_structure n n' -> keys (places n') = keys (places n).
Proof.
  intros (_ & _ & E). unfold keys.
  assert (G : forall d : dict string place, map fst d = map (fun x => fst (fst x)) (map (fun '(id, p) => (id, p_label p, p_transitions p)) d)).
  { intros d. rewrite map_map. apply map_ext. intros [? ?]; auto. }
  rewrite !G, E. auto.
Qed.
Lemma same_get n n' p pl : same_structure n n' -> dict_get p (places n') = Some pl ->
  exists pl0, dict_get p (places n) = Some pl0 /\ p_label pl = p_label pl0 /\ p_transitions pl = p_transitions pl0.
Proof.
  intros (_ & _ & E). revert E. generalize (places n). induction (places n') as [|[q ql] d IH]; intros [|[r rl] d'] E; cbn [dict_get map] in *; try discriminate.
  injection E as -> El Et E. destruct (eqb_ok p r); [|apply IH; auto]. intros F; injection F as <-. eauto.
Qed.
Lemma same_starts n n' t : same_structure n n' -> starts n' t = starts n t.
Proof. intros (E & _). unfold starts. rewrite E. auto. Qed.
Lemma same_ends n n' t : same_structure n n' -> ends n' t = ends n t.
Proof. intros (E & _). unfold ends. rewrite E. auto. Qed.
Lemma wf_same n n' : wf n -> same_structure n n' -> (forall p, has_place n p -> (0 <= tokens n' p)%Z) -> wf n'.
Proof.
  intros W S T. destruct W as [W1 W2 W3 W4 W5 W6 W7]. pose proof (same_keys _ _ S) as K. constructor.
  - rewrite K. auto.
  - destruct S as (-> & _). auto.
  - intros t. rewrite (same_starts _ _ t S). auto.
  - intros t. rewrite (same_ends _ _ t S). auto.
  - intros t p. rewrite (same_starts _ _ t S). unfold has_place. rewrite K. apply W5.
  - intros t p. rewrite (same_ends _ _ t S). unfold has_place. rewrite K. apply W6.
  - intros p pl E. destruct (same_get _ _ _ _ S E) as (pl0 & E0 & _ & Et). destruct (W7 p pl0 E0) as (Q1 & Q2 & Q3).
    rewrite Et. split; [auto|]. split.
    + specialize (T p). unfold tokens in T. rewrite E in T. apply T. eapply dict_get_Some_key; eauto.
    + intros t. rewrite (same_starts _ _ t S). auto.
Qed.
Lemma set_marking_ok m n n' : wf n -> Forall (fun '(_, k) => (0 <= k)%Z) m -> set_marking m n = Ok n' ->
  wf n' /\ same_structure n n' /\ forall p, tokens n' p = match dict_get p (rev m) with Some k => k | None => tokens n p end.
Proof.
  unfold set_marking. revert n. induction m as [|[p k] m IH]; intros n W F E; cbn [foldM] in E.
  - injection E as <-. split; [auto|]. split; [apply same_refl|]. auto.
  - inversion F as [|? ? F1 F2]; subst. destruct (set_tokens p k n) as [n1|] eqn:E1; [|discriminate]. cbn [bind] in E.
    assert (Hp : has_place n p).
    { unfold set_tokens in E1. destruct (dict_get p (places n)) eqn:Ep; [|discriminate]. eapply dict_get_Some_key; eauto. }
    destruct (set_tokens_ok p k n Hp (w_places _ W)) as (n1' & E1' & S1 & T1 & T1'). rewrite E1 in E1'. injection E1' as <-.
    assert (W1 : wf n1).
    { apply (wf_same n); auto. intros q _. destruct (eq_dec_of q p) as [->|]; [lia|]. rewrite T1' by auto. apply tokens_nonneg; auto. }
    destruct (IH n1 W1 F2 E) as (W2 & S2 & T2). split; [auto|]. split; [eapply same_trans; eauto|].
    intros q. rewrite T2. cbn [rev].
    assert (Ga : forall (a : dict string Z) q, dict_get q (a ++ [(p, k)]) = match dict_get q a with Some v => Some v | None => if eqb q p then Some k else None end).
    { intros a q0. induction a as [|[r v] a IHa]; cbn [dict_get app]; [auto|]. destruct (eqb_ok q0 r); auto. }
    rewrite Ga. destruct (dict_get q (rev m)); auto. destruct (eqb_ok q p) as [->|]; [auto|]. apply T1'; auto.
Qed.

Definition ind (l : list string) (p : string) : Z := if mem p l then 1%Z else 0%Z.
Lemma ind_cons q l p : ~ In q l -> ind (q :: l) p = ((if eqb p q then 1 else 0) + ind l p)%Z.
Proof.
  intros Hn. unfold ind. change (mem p (q :: l)) with (eqb p q || mem p l). destruct (eqb_ok p q) as [->|]; cbn [orb]; [|lia].
  rewrite (proj2 (mem_not_In q l)); auto.
Qed.
Lemma ind_perm l m p : Permutation l m -> ind l p = ind m p.
Proof.
  intros P. unfold ind. rewrite (mem_ext p l m); auto. intros y. split; apply Permutation_in; auto. symmetry; auto.
Qed.
Lemma put_ok l : forall n, NoDup l -> NoDup (keys (places n)) -> (forall p, In p l -> has_place n p) ->
  exists n', put_tokens l n = (n', None) /\ same_structure n n' /\ forall p, tokens n' p = (tokens n p + ind l p)%Z.
Proof.
  induction l as [|q l IH]; intros n N K Hl; cbn [put_tokens].
  - exists n. split; [auto|]. split; [apply same_refl|]. intros p. unfold ind. cbn. lia.
  - inversion N as [|? ? N1 N2]; subst. assert (Hq : has_place n q) by (apply Hl; cbn; auto).
    pose proof Hq as Hq'. apply dict_get_key in Hq'. destruct Hq' as [pl E]. rewrite E.
    destruct (set_tokens_ok q (p_tokens pl + 1) n Hq K) as (n1 & E1 & S1 & T1 & T1'). rewrite E1.
    pose proof (same_keys _ _ S1) as K1.
    destruct (IH n1 N2) as (n' & E' & S' & T'); [rewrite K1; auto|intros p Hp; unfold has_place; rewrite K1; apply Hl; cbn; auto|].
    exists n'. split; [auto|]. split; [eapply same_trans; eauto|]. intros p. rewrite T', ind_cons by auto.
    destruct (eqb_ok p q) as [->|]; [|rewrite T1' by auto; lia]. rewrite T1. unfold tokens. rewrite E. lia.
Qed.
Lemma take_ok l : forall n, NoDup l -> NoDup (keys (places n)) -> (forall p, In p l -> has_place n p) ->
  exists n' r l1 l2, take_tokens l n = (n', r) /\ l = l1 ++ l2 /\ same_structure n n' /\
    (forall p, tokens n' p = (tokens n p - ind l1 p)%Z) /\ (forall p, In p l1 -> (1 <= tokens n p)%Z) /\
    ((r = None /\ l2 = []) \/ (r = Some ValueError /\ exists q l3, l2 = q :: l3 /\ (tokens n q <= 0)%Z)).
Proof.
  induction l as [|q l IH]; intros n N K Hl; cbn [take_tokens].
  - exists n, None, [], []. split; [auto|]. split; [auto|]. split; [apply same_refl|]. split; [intros p; unfold ind; cbn; lia|].
    split; [intros p []|auto].
  - inversion N as [|? ? N1 N2]; subst. assert (Hq : has_place n q) by (apply Hl; cbn; auto).
    pose proof Hq as Hq'. apply dict_get_key in Hq'. destruct Hq' as [pl E]. rewrite E.
    assert (Tq : tokens n q = p_tokens pl) by (unfold tokens; rewrite E; auto).
    destruct (Z.leb_spec (p_tokens pl) 0) as [Hle|Hgt].
    + exists n, (Some ValueError), [], (q :: l). split; [auto|]. split; [auto|]. split; [apply same_refl|].
      split; [intros p; unfold ind; cbn; lia|]. split; [intros p []|]. right. split; [auto|]. exists q, l. split; [auto|lia].
    + destruct (set_tokens_ok q (p_tokens pl - 1) n Hq K) as (n1 & E1 & S1 & T1 & T1'). rewrite E1.
      pose proof (same_keys _ _ S1) as K1.
      destruct (IH n1 N2) as (n' & r & l1 & l2 & E' & -> & S' & T' & P' & R'); [rewrite K1; auto|intros p Hp; unfold has_place; rewrite K1; apply Hl; cbn; auto|].
      exists n', r, (q :: l1), l2. split; [auto|]. split; [auto|]. split; [eapply same_trans; eauto|].
      assert (Hnq : forall p, In p (l1 ++ l2) -> tokens n1 p = tokens n p).
      { intros p Hp. apply T1'. intros ->. contradiction. }
      split; [|split].
      * intros p. rewrite T', ind_cons by (intros Hin; apply N1; apply in_or_app; auto).
        destruct (eqb_ok p q) as [->|]; [|rewrite T1' by auto; lia]. rewrite T1. lia.
      * intros p [<-|Hp]; [lia|]. rewrite <- Hnq by (apply in_or_app; auto). auto.
      * destruct R' as [R'|(R1 & q' & l3 & -> & R2)]; [auto|]. right. split; [auto|]. exists q', l3. split; [auto|].
        rewrite <- Hnq; auto. apply in_or_app; cbn; auto.
Qed.
(** firing one transition *)
Lemma fire_ok ord id t n : any_order ord -> wf n -> dict_get id (transitions n) = Some t ->
  exists n' r, fire_transition ord t n = (n', r) /\ same_structure n n' /\ wf n' /\
    ((r = None /\ enabled n id /\ forall p, tokens n' p = (tokens n p + effect n id p)%Z) \/
     (r = Some ValueError /\ (exists q, In q (starts n id) /\ tokens n q = 0%Z) /\
      exists lost, NoDup lost /\ (forall p, In p lost -> In p (starts n id) /\ (1 <= tokens n p)%Z) /\
        forall p, tokens n' p = (tokens n p - ind lost p)%Z)).
Proof.
  intros O W Et. unfold fire_transition.
  assert (Es : starts n id = t_start t) by (unfold starts; rewrite Et; auto).
  assert (Ee : ends n id = t_end t) by (unfold ends; rewrite Et; auto).
  assert (Hs : forall p, In p (ord (t_start t)) <-> In p (starts n id)).
  { intros p. rewrite Es. split; apply Permutation_in; [apply O|symmetry; apply O]. }
  assert (He : forall p, In p (ord (t_end t)) <-> In p (ends n id)).
  { intros p. rewrite Ee. split; apply Permutation_in; [apply O|symmetry; apply O]. }
  assert (Ns : NoDup (ord (t_start t))) by (eapply Permutation_NoDup; [symmetry; apply O|rewrite <- Es; apply w_start; auto]).
  assert (Ne : NoDup (ord (t_end t))) by (eapply Permutation_NoDup; [symmetry; apply O|rewrite <- Ee; apply w_end; auto]).
  destruct (take_ok (ord (t_start t)) n Ns (w_places _ W)) as (n1 & r & l1 & l2 & E1 & El & S1 & T1 & P1 & R1);
    [intros p Hp; apply (w_sp _ W id); apply Hs; auto|]. rewrite E1.
  assert (W1 : wf n1).
  { apply (wf_same n); auto. intros p _. rewrite T1. unfold ind. destruct (mem p l1) eqn:Em.
    - apply mem_In in Em. apply P1 in Em. lia.
    - pose proof (tokens_nonneg n p W). lia. }
  destruct R1 as [[-> ->]|(-> & q & l3 & -> & Hq)].
  - rewrite app_nil_r in El. subst l1.
    destruct (put_ok (ord (t_end t)) n1 Ne (w_places _ W1)) as (n2 & E2 & S2 & T2).
    { intros p Hp. apply (w_ep _ W1 id). rewrite (same_ends _ _ id S1). apply He. auto. }
    exists n2, None. split; [auto|]. split; [eapply same_trans; eauto|]. split.
    + apply (wf_same n1); auto. intros p _. rewrite T2. unfold ind. pose proof (tokens_nonneg n1 p W1). destruct (mem p _); lia.
    + left. split; [auto|]. split; [intros p Hp; apply P1; apply Hs; auto|].
      intros p. rewrite T2, T1. unfold effect. rewrite Es, Ee. fold (ind (t_end t) p) (ind (t_start t) p).
      rewrite (ind_perm _ _ p (O (t_end t))), (ind_perm _ _ p (O (t_start t))). lia.
  - exists n1, (Some ValueError). split; [auto|]. split; [auto|]. split; [auto|]. right. split; [auto|]. split.
    + exists q. split; [apply Hs; rewrite El; apply in_or_app; cbn; auto|]. pose proof (tokens_nonneg n q W). lia.
    + exists l1. rewrite El in Ns. split; [eapply NoDup_app_l; eauto|]. split; [|auto].
      intros p Hp. split; [apply Hs; rewrite El; apply in_or_app; auto|auto].
Qed.
