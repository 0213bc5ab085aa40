(** Activity patterns, part 10: when compositions succeed *)
From Coq Require Import String Ascii ZArith Permutation.
From Verif.Model Require Import Base PetriNet ActivityPattern.
From Verif.Spec Require Import PetriSpec ActivityPatternSpec.
From Verif.Lib Require Import ListLib DictLib.
From Verif.Proofs Require Import PetriA PetriC PetriD ApA ApB ApC ApD ApE ApF ApG ApH ApI.
Open Scope string_scope.
Open Scope list_scope.
Open Scope nat_scope.

(** strings as lists of characters *)
Notation chars := list_ascii_of_string.
Lemma chars_app u v : chars (u ++ v)%string = (chars u ++ chars v)%list.
Proof. induction u; cbn; congruence. Qed.
Lemma chars_inj u v : chars u = chars v -> u = v.
Proof. intros H. rewrite <- (string_of_list_ascii_of_string u), <- (string_of_list_ascii_of_string v), H. auto. Qed.
Lemma chars_quoted u k : chars (quoted u k) = (chars u ++ repeat "'"%char k)%list.
Proof.
  induction k; cbn [quoted repeat]; [rewrite app_nil_r; auto|]. rewrite chars_app, IHk, <- app_assoc. f_equal. cbn. symmetry. apply repeat_cons.
Qed.
Lemma no_comma_quoted u k : no_comma u -> no_comma (quoted u k).
Proof. unfold no_comma. rewrite chars_quoted, in_app_iff. intros H [H'|H']; [auto|]. apply repeat_spec in H'. discriminate. Qed.
Lemma comma_app u v : ~ no_comma (u ++ "," ++ v)%string.
Proof. intros H. apply H. rewrite chars_app, in_app_iff. right. cbn. auto. Qed.
Lemma split_list {X} (c : X) : forall a b a' b', ~ In c a -> ~ In c a' -> (a ++ c :: b)%list = (a' ++ c :: b')%list -> a = a' /\ b = b'.
Proof.
  induction a as [|x a IH]; intros b [|y a'] b' H1 H2 E; cbn in *.
  - injection E as ->. auto.
  - injection E as -> E. tauto.
  - injection E as -> E. tauto.
  - injection E as -> E. destruct (IH b a' b') as [-> ->]; auto.
Qed.
Lemma split_comma u v u' v' : no_comma u -> no_comma u' -> (u ++ "," ++ v)%string = (u' ++ "," ++ v')%string -> u = u' /\ v = v'.
Proof.
  intros H1 H2 E. apply (f_equal chars) in E. rewrite !chars_app in E. change (chars ",") with [","%char] in E. cbn [app] in E.
  apply split_list in E; auto. destruct E as [E1 E2]. auto using chars_inj.
Qed.
Lemma app_underscore_inj u v : (u ++ "_")%string = (v ++ "_")%string -> u = v.
Proof. intros E. apply (f_equal chars) in E. rewrite !chars_app in E. apply app_inj_tail in E. apply chars_inj. apply E. Qed.
Lemma quoted_underscore u k v : quoted u k = (v ++ "_")%string -> u = (v ++ "_")%string.
Proof.
  destruct k; cbn [quoted]; [auto|]. intros E. apply (f_equal chars) in E. rewrite !chars_app in E. apply app_inj_tail in E. destruct E. discriminate.
Qed.
Lemma underscore_comma u : ~ no_comma u -> ~ no_comma (u ++ "_")%string.
Proof. unfold no_comma. rewrite chars_app, in_app_iff. tauto. Qed.
Lemma no_comma_underscore u : no_comma u -> no_comma (u ++ "_")%string.
Proof. unfold no_comma. rewrite chars_app, in_app_iff. intros H [?|[E|[]]]; [auto|discriminate]. Qed.

Lemma old_no_comma_p a b x : plain a -> plain b -> old_p a b x -> no_comma x.
Proof. intros Pa Pb [H|(u & k & H & ->)]; [apply Pa; left; auto|apply no_comma_quoted, Pb; left; auto]. Qed.
Lemma old_no_comma_t a b x : plain a -> plain b -> old_t a b x -> no_comma x.
Proof. intros Pa Pb [H|(u & k & H & ->)]; [apply Pa; right; auto|apply no_comma_quoted, Pb; right; auto]. Qed.
Lemma old_no_underscore_p a b u : no_underscore a -> no_underscore b -> ~ old_p a b (u ++ "_")%string.
Proof. intros Na Nb [H|(v & k & H & E)]; [eapply Na; [left; eauto|reflexivity]|]. symmetry in E. apply quoted_underscore in E. eapply Nb; [left; eauto|exact E]. Qed.
Lemma old_no_underscore_t a b u : no_underscore a -> no_underscore b -> ~ old_t a b (u ++ "_")%string.
Proof. intros Na Nb [H|(v & k & H & E)]; [eapply Na; [right; eauto|reflexivity]|]. symmetry in E. apply quoted_underscore in E. eapply Nb; [right; eauto|exact E]. Qed.

(** sources and sinks can be looked for *)
Lemma source_dec n : wf n -> (exists p, source n p) \/ (forall p, ~ source n p).
Proof.
  intros W. destruct (get_source_sink_places n) as [so si] eqn:Q. apply source_sink_ok in Q; [|apply (w_trans _ W)]. destruct Q as (_ & _ & D & _).
  destruct so as [|x so]; [right|left; exists x; apply D; cbn; auto]. intros p Hp. apply D in Hp. auto.
Qed.
Lemma sink_dec n : wf n -> (exists p, sink n p) \/ (forall p, ~ sink n p).
Proof.
  intros W. destruct (get_source_sink_places n) as [so si] eqn:Q. apply source_sink_ok in Q; [|apply (w_trans _ W)]. destruct Q as (_ & _ & _ & D).
  destruct si as [|x si]; [right|left; exists x; apply D; cbn; auto]. intros p Hp. apply D in Hp. auto.
Qed.
Lemma complete_dec p : good p -> complete p \/ (forall x, ~ source (pnet p) x) \/ (forall x, ~ sink (pnet p) x).
Proof. intros G. unfold complete. destruct (source_dec _ (g_wf _ G)), (sink_dec _ (g_wf _ G)); auto. Qed.
Lemma works_complete p : works p -> complete p.
Proof. intros [G W]. apply is_workflow_ok in W; [|apply G]. destruct W as [(i & Hi & _) (o & Ho & _)]. split; eauto. Qed.

(** the constructor *)
Lemma visible_ok n d : NoDup (keys (transitions n)) ->
  forallb (fun '(t, tr) => negb (t_visible tr) || dict_has t d) (transitions n) = true <-> mapped n d.
Proof.
  intros N. rewrite forallb_forall. split.
  - intros H t tr E V. apply dict_get_In in E. specialize (H _ E). cbn in H. rewrite V in H. cbn in H. apply dict_has_In in H. apply dict_get_key in H. auto.
  - intros H [t tr] Ht. destruct (t_visible tr) eqn:V; [|auto]. cbn. apply dict_has_In. destruct (H t tr) as [x Hx]; [apply dict_In_get; auto|auto|].
    apply dict_get_Some_key in Hx. auto.
Qed.
Lemma transform_good ord st n n' st' : wf n -> any_order ord -> transform_to_workflow_net ord st n = Ok (n', st') ->
  wf n' /\ (forall x y, source n' x -> source n' y -> x = y) /\ (forall x y, sink n' x -> sink n' y -> x = y) /\
  (forall t tr, dict_get t (transitions n') = Some tr -> t_visible tr = true -> dict_get t (transitions n) = Some tr).
Proof.
  intros W HO E. destruct (transform_ok ord st n W HO) as (so & si & [L1 L2] & [L3 L4] & T). cbv zeta in T. rewrite E in T.
  destruct T as (_ & W' & X & S & I). split; [auto|]. split; [|split].
  - intros x y Hx Hy. apply S in Hx, Hy. destruct (1 <? length so) eqn:Q; [congruence|]. apply Nat.ltb_ge in Q. destruct so as [|u [|v so]]; cbn in *; [tauto| |lia].
    destruct Hx, Hy; try tauto; congruence.
  - intros x y Hx Hy. apply I in Hx, Hy. destruct (1 <? length si) eqn:Q; [congruence|]. apply Nat.ltb_ge in Q. destruct si as [|u [|v si]]; cbn in *; [tauto| |lia].
    destruct Hx, Hy; try tauto; congruence.
  - intros t tr G V. destruct X as (X1 & X2 & _). destruct (in_dec string_dec t (keys (transitions n))) as [Ht|Ht].
    + destruct (dict_get_key _ _ Ht) as [tr' E']. rewrite E'. f_equal. apply X1 in E'. congruence.
    + destruct (X2 _ _ G Ht). congruence.
Qed.
Lemma new_good ord st n m p st' : wf n -> any_order ord -> new_pattern ord st n m = Ok (p, st') -> good p.
Proof.
  intros W HO E. unfold new_pattern in E.
  assert (H : forall n' st'', (if is_workflow_net n then Ok (n, st) else transform_to_workflow_net ord st n) = Ok (n', st'') ->
    wf n' /\ (forall x y, source n' x -> source n' y -> x = y) /\ (forall x y, sink n' x -> sink n' y -> x = y) /\
    (forall t tr, dict_get t (transitions n') = Some tr -> t_visible tr = true -> dict_get t (transitions n) = Some tr)).
  { intros n' st'' Q. destruct (is_workflow_net n) eqn:F; [|eapply transform_good; eauto].
    injection Q as <- <-. apply is_workflow_ok in F; [|auto]. destruct F as [(i & Hi & Ui) (o & Ho & Uo)]. split; [auto|]. split; [|split; [|auto]].
    - intros x y Hx Hy. transitivity i; [symmetry|]; auto.
    - intros x y Hx Hy. transitivity o; [symmetry|]; auto. }
  destruct (if is_workflow_net n then _ else _) as [[n' st'']|]; [|discriminate]. destruct (H _ _ eq_refl) as (W' & U1 & U2 & V). cbn [bind] in E.
  destruct m as [s|d].
  - injection E as <- <-. constructor; cbn [pnet amap]; auto. intros t tr G Hv. apply (V _ _ G) in Hv. exists s.
    apply dict_In_get; [|].
    + replace (keys _) with (keys (transitions n)); [apply W|]. unfold keys. rewrite map_map. apply map_ext. intros []; auto.
    + apply in_map_iff. exists (t, tr). split; [auto|]. apply dict_get_In. auto.
  - destruct (forallb _ (transitions n)) eqn:F; [|discriminate]. injection E as <- <-. apply visible_ok in F; [|apply W]. constructor; cbn [pnet amap]; auto.
    intros t tr G Hv. eauto.
Qed.

(** compositions of what is not complete *)
Lemma composition_fails ord st a b : any_order ord -> good a -> good b -> ~ (complete a /\ complete b) ->
  sequence ord st a b = Err KeyError /\ choice ord st a b = Err KeyError /\ parallel ord st a b = Err KeyError /\ interleaving ord st a b = Err KeyError.
Proof.
  intros HO Ga Gb H. assert (F : prepare_composition ord st a b = Err KeyError).
  { apply prepare_fails; auto. destruct (complete_dec a Ga) as [Ca|[Ca|Ca]]; auto. destruct (complete_dec b Gb) as [Cb|[Cb|Cb]]; auto; tauto. }
  unfold sequence, choice, parallel, interleaving. rewrite F. auto.
Qed.
Lemma repetition_fails ord st a : any_order ord -> good a -> ~ complete a -> unbounded_repetition ord st a = Err KeyError.
Proof.
  intros HO Ga H. unfold unbounded_repetition.
  destruct (copy st (pnet a)) as [[n st1]|] eqn:C1; [|rewrite copy_ok in C1 by apply Ga; discriminate].
  destruct (wf_copy _ _ _ _ (g_wf _ Ga) C1) as (W1 & Pl1 & Tr1). cbn [bind].
  destruct (get_source_sink_places n) as [so si] eqn:Q. apply source_sink_ok in Q; [|apply (w_trans _ W1)]. destruct Q as (D1 & D2 & D3 & D4).
  assert (SS : forall p, before_some n p <-> before_some (pnet a) p) by (intros; unfold before_some, starts; rewrite Tr1; tauto).
  assert (TT : forall p, behind_some n p <-> behind_some (pnet a) p) by (intros; unfold behind_some, ends; rewrite Tr1; tauto).
  assert (E3 : forall p, In p so <-> source (pnet a) p) by (intros; rewrite D3, SS, TT; unfold source; tauto).
  assert (E4 : forall p, In p si <-> sink (pnet a) p) by (intros; rewrite D4, SS, TT; unfold sink; tauto).
  destruct so as [|x so]; [rewrite pop_none; auto|]. unfold pop at 1. destruct (ord (x :: so)); [auto|]. cbn [bind].
  destruct si as [|y si]; [rewrite pop_none; auto|]. exfalso. apply H. split; [exists x; apply E3|exists y; apply E4]; cbn; auto.
Qed.

Lemma copy_good ord st a p st' : good a -> any_order ord -> copy_pattern ord st a = Ok (p, st') -> good p.
Proof.
  intros G HO E. unfold copy_pattern in E. destruct (copy st (pnet a)) as [[n st1]|] eqn:C; [|discriminate]. cbn [bind] in E.
  eapply new_good; [|exact HO|exact E]. apply (wf_copy _ _ _ _ (g_wf _ G) C).
Qed.
