(** Nets taken over from pm4py: structure and runs *)
From Coq Require Import String Permutation ZArith.
From Verif.Model Require Import Base PetriNet Pm4py.
From Verif.Spec Require Import PetriSpec Pm4pySpec.
From Verif.Lib Require Import ListLib DictLib.
From Verif.Proofs Require Import DfgA PetriA PetriC Pm4pyA.
Open Scope string_scope.
Open Scope list_scope.
Open Scope nat_scope.

Definition imported_place (im : pm_marking) (x : nat * string) : string * place := (snd x, Place "" (pm_tokens im (fst x)) []).
Definition imported_transition (x : nat * (string * option string)) : string * transition :=
  (fst (snd x), Transition (label_of (fst (snd x)) (snd (snd x))) (match snd (snd x) with Some _ => true | None => false end) [] [] AcceptAlways).
Lemma keys_ip im d : keys (map (imported_place im) d) = map snd d.
Proof. unfold keys. rewrite map_map. auto. Qed.
Lemma keys_it d : keys (map imported_transition d) = map (fun x => fst (snd x)) d.
Proof. unfold keys. rewrite map_map. auto. Qed.
Lemma import_places im rest : forall done,
  NoDup (map snd (done ++ rest)) -> (forall o p, In (o, p) rest -> (0 <= pm_tokens im o)%Z) ->
  foldM (fun n '(o, name) => add_place name "" (pm_tokens im o) n) rest (Net (map (imported_place im) done) [] []) =
    Ok (Net (map (imported_place im) (done ++ rest)) [] []).
Proof.
  induction rest as [|[o p] rest IH]; intros done N T; cbn [foldM].
  - rewrite app_nil_r. auto.
  - assert (Hn : ~ In p (map snd done)) by (rewrite map_app in N; cbn in N; eapply NoDup_mid_l; eauto).
    unfold add_place at 1. pose proof (T o p (or_introl eq_refl)). destruct (Z.ltb_spec (pm_tokens im o) 0); [lia|].
    cbn [places transitions variables]. destruct (dict_has p (map (imported_place im) done)) eqn:Eh.
    { apply dict_has_In in Eh. rewrite keys_ip in Eh. contradiction. }
    cbn [bind]. rewrite set_fresh by (rewrite keys_ip; auto).
    specialize (IH (done ++ [(o, p)])). rewrite <- app_assoc in IH. rewrite (map_app (imported_place im) done) in IH. apply IH; auto. intros; eapply T; cbn; eauto.
Qed.
Lemma import_places_err im rest : forall done,
  NoDup (map snd done) -> ~ (NoDup (map snd (done ++ rest)) /\ (forall o p, In (o, p) rest -> (0 <= pm_tokens im o)%Z)) ->
  foldM (fun n '(o, name) => add_place name "" (pm_tokens im o) n) rest (Net (map (imported_place im) done) [] []) = Err ValueError.
Proof.
  induction rest as [|[o p] rest IH]; intros done N T; cbn [foldM].
  - exfalso. apply T. rewrite app_nil_r. split; [auto|intros ? ? []].
  - unfold add_place at 1. destruct (Z.ltb_spec (pm_tokens im o) 0); [auto|].
    cbn [places transitions variables]. destruct (dict_has p (map (imported_place im) done)) eqn:Eh; [auto|].
    assert (Hn : ~ In p (map snd done)) by (rewrite <- (keys_ip im), <- dict_has_In; congruence).
    cbn [bind]. rewrite set_fresh by (rewrite keys_ip; auto).
    specialize (IH (done ++ [(o, p)])). rewrite <- app_assoc in IH. rewrite (map_app (imported_place im) done) in IH. apply IH.
    + rewrite map_app. cbn [map snd]. apply NoDup_snoc; auto.
    + intros [Q1 Q2]. apply T. split; [auto|]. intros o' p' [E|Hin]; [congruence|eauto].
Qed.

Lemma import_transitions P rest : forall done, NoDup (map (fun x => fst (snd x)) (done ++ rest)) ->
  foldM (fun n '(_, (name, label)) =>
      add_transition name label (match label with Some _ => true | None => false end) n) rest (Net P (map imported_transition done) []) =
    Ok (Net P (map imported_transition (done ++ rest)) []).
Proof.
  induction rest as [|[o [t l]] rest IH]; intros done N; cbn [foldM].
  - rewrite app_nil_r. auto.
  - assert (Hn : ~ In t (map (fun x => fst (snd x)) done)) by (rewrite map_app in N; cbn in N; eapply NoDup_mid_l; eauto).
    unfold add_transition at 1.
    cbn [places transitions variables]. destruct (dict_has t (map imported_transition done)) eqn:Eh.
    { apply dict_has_In in Eh. rewrite keys_it in Eh. contradiction. }
    cbn [bind]. rewrite set_fresh by (rewrite keys_it; auto).
    specialize (IH (done ++ [(o, (t, l))])). rewrite <- app_assoc in IH. rewrite (map_app imported_transition done) in IH. apply IH; auto.
Qed.
Lemma import_transitions_err P rest : forall done,
  NoDup (map (fun x => fst (snd x)) done) -> ~ NoDup (map (fun x => fst (snd x)) (done ++ rest)) ->
  foldM (fun n '(_, (name, label)) =>
      add_transition name label (match label with Some _ => true | None => false end) n) rest (Net P (map imported_transition done) []) = Err ValueError.
Proof.
  induction rest as [|[o [t l]] rest IH]; intros done N T; cbn [foldM].
  - exfalso. apply T. rewrite app_nil_r. auto.
  - unfold add_transition at 1.
    cbn [places transitions variables]. destruct (dict_has t (map imported_transition done)) eqn:Eh; [auto|].
    assert (Hn : ~ In t (map (fun x => fst (snd x)) done)) by (rewrite <- keys_it, <- dict_has_In; congruence).
    cbn [bind]. rewrite set_fresh by (rewrite keys_it; auto).
    specialize (IH (done ++ [(o, (t, l))])). rewrite <- app_assoc in IH. rewrite (map_app imported_transition done) in IH. apply IH; auto.
    rewrite map_app. apply NoDup_snoc; auto.
Qed.

Lemma NoDup_fst {X Y} (l : list (X * Y)) o p q : NoDup (map fst l) -> In (o, p) l -> In (o, q) l -> p = q.
Proof.
  induction l as [|[a b] l IH]; cbn; [tauto|]. intros N. inversion N as [|? ? N1 N2]; subst.
  intros [E|H1] [F|H2]; [congruence| | |auto].
  - injection E as <- <-. exfalso. apply N1. apply (in_map fst) in H2. auto.
  - injection F as <- <-. exfalso. apply N1. apply (in_map fst) in H1. auto.
Qed.
Lemma NoDup_snd {X Y} (l : list (X * Y)) o q p : NoDup (map snd l) -> In (o, p) l -> In (q, p) l -> o = q.
Proof.
  induction l as [|[a b] l IH]; cbn; [tauto|]. intros N. inversion N as [|? ? N1 N2]; subst.
  intros [E|H1] [F|H2]; [congruence| | |auto].
  - injection E as <- <-. exfalso. apply N1. apply (in_map snd) in H2. auto.
  - injection F as <- <-. exfalso. apply N1. apply (in_map snd) in H1. auto.
Qed.

Section Import.
  Variable m : pm_net.
  Hypothesis HP : proper m.
  Let N1 : NoDup (map fst (pm_places m)) := proj1 HP.
  Let N2 : NoDup (map fst (pm_transitions m)) := proj1 (proj2 HP).
  Lemma place_name_ok o p : is_place m o p <-> place_name m o = Ok p.
  Proof.
    unfold is_place, place_name. split; intros E.
    - rewrite (dict_In_get _ _ _ N1 E). auto.
    - destruct (dict_get o (pm_places m)) eqn:G; [|discriminate]. injection E as <-. apply dict_get_In; auto.
  Qed.
  Lemma transition_name_ok k t : is_transition m k t <-> transition_name m k = Ok t.
  Proof.
    unfold is_transition, transition_name. split.
    - intros [l E]. rewrite (dict_In_get _ _ _ N2 E). auto.
    - destruct (dict_get k (pm_transitions m)) as [[t' l]|] eqn:G; [|discriminate]. cbn. intros E; injection E as <-.
      exists l. apply dict_get_In; auto.
  Qed.
  Lemma transition_unique k t u : is_transition m k t -> is_transition m k u -> t = u.
  Proof. rewrite !transition_name_ok. congruence. Qed.
  Lemma place_unique k t u : is_place m k t -> is_place m k u -> t = u.
  Proof. rewrite !place_name_ok. congruence. Qed.

  (** what the arcs [l] add to the net [n0] *)
  Definition arcs_added (n0 n : net) (l : list pm_arc) : Prop :=
    wf n /\ keys (places n) = keys (places n0) /\ keys (transitions n) = keys (transitions n0) /\ variables n = variables n0 /\
    (forall q, tokens n q = tokens n0 q) /\
      (forall u tr, dict_get u (transitions n0) = Some tr -> exists tr', dict_get u (transitions n) = Some tr' /\
      t_label tr' = t_label tr /\ t_visible tr' = t_visible tr /\ t_guard tr' = t_guard tr) /\
      (forall u p, In p (starts n u) <-> In p (starts n0 u) \/ exists o k w, is_place m o p /\ is_transition m k u /\ In (ArcIn o k w) l) /\
      (forall u p, In p (ends n u) <-> In p (ends n0 u) \/ exists o k w, is_place m o p /\ is_transition m k u /\ In (ArcOut k o w) l).
  Lemma arcs_added_ok n0 : wf n0 -> keys (places n0) = map snd (pm_places m) ->
    keys (transitions n0) = map (fun x => fst (snd x)) (pm_transitions m) ->
    forall l, Forall (ends_known m) l -> exists n, foldM (convert_arc m) l n0 = Ok n /\ arcs_added n0 n l.
  Proof.
    intros W Kp Kt l. induction l as [|a l IH] using rev_ind; intros K.
    - exists n0. split; [auto|]. do 5 (split; [auto; fail|]). split; [|split].
      + intros u tr E. exists tr. auto.
      + intros u p. split; [auto|intros [?|(? & ? & ? & _ & _ & [])]; auto].
      + intros u p. split; [auto|intros [?|(? & ? & ? & _ & _ & [])]; auto].
    - apply Forall_app in K. destruct K as [K Ka]. inversion Ka as [|? ? Ha _]; subst. destruct (IH K) as (n & E & A). clear IH.
      destruct A as (A1 & A2 & A3 & A4 & A5 & A6 & A7 & A8).
      assert (Hfold : forall r, convert_arc m n a = r -> foldM (convert_arc m) (l ++ [a]) n0 = r).
      { intros r Er. clear -E Er. revert n0 E. induction l as [|b l IH]; intros n0 E; cbn [foldM app] in *.
        - injection E as ->. rewrite Er. destruct r; auto.
        - destruct (convert_arc m n0 b); [|discriminate]. cbn [bind] in *. auto. }
      assert (Hk : forall q, has_place n q <-> exists o, is_place m o q).
      { intros q. unfold has_place. rewrite A2, Kp, in_map_iff. unfold is_place. split.
        - intros ([o q'] & <- & Hin). exists o. auto.
        - intros [o Hin]. exists (o, q). auto. }
      assert (Hk' : forall q, has_transition n q <-> exists o, is_transition m o q).
      { intros q. unfold has_transition. rewrite A3, Kt, in_map_iff. unfold is_transition. split.
        - intros ([o [q' x]] & <- & Hin). exists o, x. auto.
        - intros [o [x Hin]]. exists (o, (q, x)). auto. }
      assert (Hok : exists n', convert_arc m n a = Ok n').
      { destruct a as [o k w|k o w]; cbn in Ha; destruct Ha as [[p Hp] [t Ht]]; cbn [convert_arc].
        all: rewrite (proj1 (transition_name_ok k t) Ht), (proj1 (place_name_ok o p) Hp); cbn [bind].
        all: destruct (dict_get_key (transitions n) t) as [tr ->]; [apply Hk'; eauto|]; cbn [bind of_option].
        all: destruct (dict_get_key (places n) p) as [pl ->]; [apply Hk; eauto|]; cbn [bind of_option]; eauto. }
      destruct Hok as [n' E']. exists n'. split; [apply Hfold; auto|].
      destruct a as [o k w|k o w].
      + destruct (arc_in_ok _ _ _ _ _ _ A1 E') as (pn & tn & tr & Ep & Et & Gt & B1 & B2 & B3 & B4 & B5 & B6).
        apply place_name_ok in Ep. apply transition_name_ok in Et.
        split; [auto|]. split; [congruence|]. split; [congruence|]. split; [congruence|]. split; [intros q; rewrite B5; auto|]. split; [|split].
        * intros u tru Eu. destruct (A6 u tru Eu) as (tr' & G' & Q1 & Q2 & Q3). rewrite B6. destruct (eqb_ok u tn) as [->|]; [|eauto].
          assert (tr' = tr) by congruence. subst. eexists. split; [reflexivity|]. cbn. auto.
        * intros u p. unfold starts at 1. rewrite B6. destruct (eqb_ok u tn) as [->|Hne].
          -- cbn [t_start with_starts]. rewrite set_add_In.
             replace (t_start tr) with (starts n tn) by (unfold starts; rewrite Gt; auto). rewrite A7. split.
             ++ intros [->|[Hin|(o' & k' & w' & ? & ? & ?)]]; [right; exists o, k, w; split; [auto|]; split; [auto|]; apply in_or_app; cbn; auto|auto|].
                right. exists o', k', w'. rewrite in_app_iff. auto.
             ++ intros [Hin|(o' & k' & w' & H1 & H2 & H3)]; [auto|]. apply in_app_or in H3. destruct H3 as [H3|[H3|[]]].
                ** right. right. eauto 6.
                ** injection H3 as <- <- <-. left. eapply place_unique; eauto.
          -- change (match dict_get u (transitions n) with Some tr0 => t_start tr0 | None => [] end) with (starts n u). rewrite A7. split.
             ++ intros [Hin|(o' & k' & w' & ? & ? & ?)]; [auto|]. right. exists o', k', w'. rewrite in_app_iff. auto.
             ++ intros [Hin|(o' & k' & w' & H1 & H2 & H3)]; [auto|]. apply in_app_or in H3. destruct H3 as [H3|[H3|[]]]; [right; eauto 6|].
                injection H3 as <- <- <-. exfalso. apply Hne. eapply transition_unique; eauto.
        * intros u p. transitivity (In p (ends n u)).
          { unfold ends. rewrite B6. destruct (eqb_ok u tn) as [->|]; [|tauto]. cbn [t_end with_starts]. rewrite Gt. tauto. }
          rewrite A8. split; (intros [?|(o' & k' & w' & H1 & H2 & H3)]; [auto|]); right; exists o', k', w'; rewrite in_app_iff in *; auto.
          destruct H3 as [?|[?|[]]]; [auto|discriminate].
      + destruct (arc_out_ok _ _ _ _ _ _ A1 E') as (pn & tn & tr & Ep & Et & Gt & B1 & B2 & B3 & B4 & B5 & B6).
        apply place_name_ok in Ep. apply transition_name_ok in Et.
        split; [auto|]. split; [congruence|]. split; [congruence|]. split; [congruence|]. split; [intros q; rewrite B5; auto|]. split; [|split].
        * intros u tru Eu. destruct (A6 u tru Eu) as (tr' & G' & Q1 & Q2 & Q3). rewrite B6. destruct (eqb_ok u tn) as [->|]; [|eauto].
          assert (tr' = tr) by congruence. subst. eexists. split; [reflexivity|]. cbn. auto.
        * intros u p. transitivity (In p (starts n u)).
          { unfold starts. rewrite B6. destruct (eqb_ok u tn) as [->|]; [|tauto]. cbn [t_start with_ends]. rewrite Gt. tauto. }
          rewrite A7. split; (intros [?|(o' & k' & w' & H1 & H2 & H3)]; [auto|]); right; exists o', k', w'; rewrite in_app_iff in *; auto.
          destruct H3 as [?|[?|[]]]; [auto|discriminate].
        * intros u p. unfold ends at 1. rewrite B6. destruct (eqb_ok u tn) as [->|Hne].
          -- cbn [t_end with_ends]. rewrite set_add_In.
             replace (t_end tr) with (ends n tn) by (unfold ends; rewrite Gt; auto). rewrite A8. split.
             ++ intros [->|[Hin|(o' & k' & w' & ? & ? & ?)]]; [right; exists o, k, w; split; [auto|]; split; [auto|]; apply in_or_app; cbn; auto|auto|].
                right. exists o', k', w'. rewrite in_app_iff. auto.
             ++ intros [Hin|(o' & k' & w' & H1 & H2 & H3)]; [auto|]. apply in_app_or in H3. destruct H3 as [H3|[H3|[]]].
                ** right. right. eauto 6.
                ** injection H3 as <- <- <-. left. eapply place_unique; eauto.
          -- change (match dict_get u (transitions n) with Some tr0 => t_end tr0 | None => [] end) with (ends n u). rewrite A8. split.
             ++ intros [Hin|(o' & k' & w' & ? & ? & ?)]; [auto|]. right. exists o', k', w'. rewrite in_app_iff. auto.
             ++ intros [Hin|(o' & k' & w' & H1 & H2 & H3)]; [auto|]. apply in_app_or in H3. destruct H3 as [H3|[H3|[]]]; [right; eauto 6|].
                injection H3 as <- <- <-. exfalso. apply Hne. eapply transition_unique; eauto.
  Qed.
End Import.
