(** Nets taken over from pm4py: what the conversion builds *)
From Coq Require Import String Permutation ZArith.
From Verif.Model Require Import Base PetriNet Pm4py.
From Verif.Spec Require Import PetriSpec.
From Verif.Lib Require Import ListLib DictLib.
From Verif.Proofs Require Import PetriA.
Open Scope list_scope.
Open Scope nat_scope.

Lemma arc_in_ok m n p t w n' : wf n -> convert_arc m n (ArcIn p t w) = Ok n' -> exists pn tn tr,
  place_name m p = Ok pn /\ transition_name m t = Ok tn /\ dict_get tn (transitions n) = Some tr /\
  wf n' /\ keys (places n') = keys (places n) /\ keys (transitions n') = keys (transitions n) /\ variables n' = variables n /\
  (forall q, tokens n' q = tokens n q) /\
  (forall u, dict_get u (transitions n') =
     if eqb u tn then Some (with_starts tr (set_add pn (t_start tr))) else dict_get u (transitions n)).
Proof.
  intros W. unfold convert_arc. destruct (transition_name m t) as [tn|] eqn:Etn; [|discriminate]. cbn [bind].
  destruct (dict_get tn (transitions n)) as [tr|] eqn:Et; [|discriminate]. cbn [bind of_option].
  destruct (place_name m p) as [pn|] eqn:Epn; [|discriminate]. cbn [bind].
  destruct (dict_get pn (places n)) as [pl|] eqn:Ep; [|discriminate]. cbn [bind of_option].
  intros E; injection E as <-. exists pn, tn, tr. do 3 (split; [auto; fail|]). cbn [places transitions variables].
  set (n' := Net _ _ _).
  assert (Kp : keys (places n') = keys (places n)).
  { unfold n'. cbn [places]. rewrite keys_dict_set, (proj2 (mem_In pn (keys (places n)))); auto. eapply dict_get_Some_key; eauto. }
  assert (Kt : keys (transitions n') = keys (transitions n)).
  { unfold n'. cbn [transitions]. rewrite keys_dict_set, (proj2 (mem_In tn (keys (transitions n)))); auto. eapply dict_get_Some_key; eauto. }
  assert (Gt : forall u, dict_get u (transitions n') =
     if eqb u tn then Some (with_starts tr (set_add pn (t_start tr))) else dict_get u (transitions n)).
  { intros u. unfold n'. cbn [transitions]. apply dict_get_set. }
  assert (Hs : forall u q, In q (starts n' u) <-> In q (starts n u) \/ (u = tn /\ q = pn)).
  { intros u q. unfold starts. rewrite Gt. destruct (eqb_ok u tn) as [->|]; [|intuition]. cbn [t_start with_starts]. rewrite Et, set_add_In. intuition. }
  assert (He : forall u, ends n' u = ends n u).
  { intros u. unfold ends. rewrite Gt. destruct (eqb_ok u tn) as [->|]; [|auto]. cbn [t_end with_starts]. rewrite Et. auto. }
  split; [|split; [auto|split; [auto|split; [auto|split; [|auto]]]]].
  - destruct W as [W1 W2 W3 W4 W5 W6 W7]. constructor.
    + rewrite Kp. auto.
    + rewrite Kt. auto.
    + intros u. unfold starts. rewrite Gt. destruct (eqb_ok u tn) as [->|]; [|apply W3]. cbn [t_start with_starts]. apply set_add_NoDup.
      specialize (W3 tn). unfold starts in W3. rewrite Et in W3. auto.
    + intros u. rewrite He. auto.
    + intros u q Hin. unfold has_place. rewrite Kp. apply Hs in Hin. destruct Hin as [Hin|[_ ->]]; [eapply W5; eauto|].
      eapply dict_get_Some_key; eauto.
    + intros u q. unfold has_place. rewrite Kp, He. apply W6.
    + intros q ql. unfold n' at 1. cbn [places]. rewrite dict_get_set. destruct (eqb_ok q pn) as [->|Hne].
      * intros E; injection E as <-. destruct (W7 pn pl Ep) as (Q1 & Q2 & Q3). cbn [p_transitions p_tokens].
        split; [apply set_add_NoDup; auto|]. split; [auto|]. intros u. rewrite set_add_In, Hs, Q3. intuition.
      * intros E. destruct (W7 q ql E) as (Q1 & Q2 & Q3). split; [auto|]. split; [auto|]. intros u. rewrite Hs, Q3. intuition congruence.
  - intros q. unfold tokens, n'. cbn [places]. rewrite dict_get_set. destruct (eqb_ok q pn) as [->|]; auto. rewrite Ep. auto.
Qed.
Lemma arc_out_ok m n p t w n' : wf n -> convert_arc m n (ArcOut t p w) = Ok n' -> exists pn tn tr,
  place_name m p = Ok pn /\ transition_name m t = Ok tn /\ dict_get tn (transitions n) = Some tr /\
  wf n' /\ keys (places n') = keys (places n) /\ keys (transitions n') = keys (transitions n) /\ variables n' = variables n /\
  (forall q, tokens n' q = tokens n q) /\
  (forall u, dict_get u (transitions n') =
     if eqb u tn then Some (with_ends tr (set_add pn (t_end tr))) else dict_get u (transitions n)).
Proof.
  intros W. unfold convert_arc. destruct (transition_name m t) as [tn|] eqn:Etn; [|discriminate]. cbn [bind].
  destruct (dict_get tn (transitions n)) as [tr|] eqn:Et; [|discriminate]. cbn [bind of_option].
  destruct (place_name m p) as [pn|] eqn:Epn; [|discriminate]. cbn [bind].
  destruct (dict_get pn (places n)) as [pl|] eqn:Ep; [|discriminate]. cbn [bind of_option].
  intros E; injection E as <-. exists pn, tn, tr. do 3 (split; [auto; fail|]). unfold set_transition. cbn [places transitions variables].
  set (n' := Net _ _ _).
  assert (Kt : keys (transitions n') = keys (transitions n)).
  { unfold n'. cbn [transitions]. rewrite keys_dict_set, (proj2 (mem_In tn (keys (transitions n)))); auto. eapply dict_get_Some_key; eauto. }
  assert (Gt : forall u, dict_get u (transitions n') =
     if eqb u tn then Some (with_ends tr (set_add pn (t_end tr))) else dict_get u (transitions n)).
  { intros u. unfold n'. cbn [transitions]. apply dict_get_set. }
  assert (He : forall u q, In q (ends n' u) <-> In q (ends n u) \/ (u = tn /\ q = pn)).
  { intros u q. unfold ends. rewrite Gt. destruct (eqb_ok u tn) as [->|]; [|intuition]. cbn [t_end with_ends]. rewrite Et, set_add_In. intuition. }
  assert (Hs : forall u, starts n' u = starts n u).
  { intros u. unfold starts. rewrite Gt. destruct (eqb_ok u tn) as [->|]; [|auto]. cbn [t_start with_ends]. rewrite Et. auto. }
  split; [|split; [auto|split; [auto|split; [auto|split; [|auto]]]]].
  - destruct W as [W1 W2 W3 W4 W5 W6 W7]. constructor.
    + auto.
    + rewrite Kt. auto.
    + intros u. rewrite Hs. auto.
    + intros u. unfold ends. rewrite Gt. destruct (eqb_ok u tn) as [->|]; [|apply W4]. cbn [t_end with_ends]. apply set_add_NoDup.
      specialize (W4 tn). unfold ends in W4. rewrite Et in W4. auto.
    + intros u q. rewrite Hs. apply W5.
    + intros u q Hin. apply He in Hin. destruct Hin as [Hin|[_ ->]]; [eapply W6; eauto|]. eapply dict_get_Some_key; eauto.
    + intros q ql E. destruct (W7 q ql E) as (Q1 & Q2 & Q3). split; [auto|]. split; [auto|]. intros u. rewrite Hs. auto.
  - auto.
Qed.
Lemma foldM_inv {A B} (f : B -> A -> result B) (P : B -> Prop) l : (forall b a b', In a l -> P b -> f b a = Ok b' -> P b') ->
  forall b b', P b -> foldM f l b = Ok b' -> P b'.
Proof.
  induction l as [|a l IH]; intros HP b b' Hb E; cbn [foldM] in E; [congruence|].
  destruct (f b a) as [b1|] eqn:E1; [|discriminate]. cbn [bind] in E. apply (IH (fun b a' b' Hin => HP b a' b' (or_intror Hin)) b1); auto.
  apply (HP b a); auto. left. auto.
Qed.
Lemma wf_pm4py m im n : convert_pm4py_to_data_petri_net m im = Ok n -> wf n.
Proof.
  unfold convert_pm4py_to_data_petri_net. intros E.
  destruct (foldM _ (pm_places m) new_net) as [n1|] eqn:E1; [|discriminate]. cbn [bind] in E.
  destruct (foldM _ (pm_transitions m) n1) as [n2|] eqn:E2; [|discriminate]. cbn [bind] in E.
  revert E. apply (foldM_inv (convert_arc m) wf).
  - intros b [p t w|t p w] b' _ W E.
    + apply arc_in_ok in E; [|auto]. destruct E as (? & ? & ? & _ & _ & _ & W' & _). exact W'.
    + apply arc_out_ok in E; [|auto]. destruct E as (? & ? & ? & _ & _ & _ & W' & _). exact W'.
  - revert E2. apply (foldM_inv _ wf).
    + intros b [o [name label]] b' _ W E. eapply wf_transition in E; [|auto]. apply E.
    + revert E1. apply (foldM_inv _ wf); [|apply wf_new]. intros b [o name] b' _ W E. eapply wf_place in E; [|auto]. apply E.
Qed.
