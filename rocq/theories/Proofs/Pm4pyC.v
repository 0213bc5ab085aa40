(** Nets taken over from pm4py: the properties *)
From Coq Require Import String Permutation ZArith.
From Verif.Model Require Import Base PetriNet Pm4py.
From Verif.Spec Require Import PetriSpec Pm4pySpec.
From Verif.Lib Require Import ListLib DictLib.
From Verif.Proofs Require Import DfgA PetriA PetriC Pm4pyA Pm4pyB.
Open Scope string_scope.
Open Scope list_scope.
Open Scope nat_scope.

(*P C108 Petri nets taken over from pm4py *)
(** a net whose places and transitions have different names is taken over: places with the tokens of the marking,
    transitions with their labels, an arc for an arc; transitions without label are invisible; no guards, no variables *)
Lemma C108_import : forall m initial, proper m -> names_differ m ->
  (forall o p, is_place m o p -> (0 <= pm_tokens initial o)%Z) -> exists n,
  convert_pm4py_to_data_petri_net m initial = Ok n /\
  keys (places n) = map snd (pm_places m) /\ keys (transitions n) = map (fun x => fst (snd x)) (pm_transitions m) /\
  variables n = [] /\
  (forall o p, is_place m o p -> tokens n p = pm_tokens initial o) /\
  (forall k t l, In (k, (t, l)) (pm_transitions m) -> exists tr, dict_get t (transitions n) = Some tr /\
     t_label tr = label_of t l /\ t_visible tr = (match l with Some _ => true | None => false end) /\ t_guard tr = AcceptAlways) /\
  (forall p t, In p (starts n t) <-> arc_in m p t) /\ (forall p t, In p (ends n t) <-> arc_out m t p).
Proof.
  intros m im HP [D1 D2] T. unfold convert_pm4py_to_data_petri_net.
  pose proof (import_places im (pm_places m) [] D1 T) as E1. cbn [app map] in E1. change (Net [] [] []) with new_net in E1.
  pose proof (import_transitions (map (imported_place im) (pm_places m)) (pm_transitions m) [] D2) as E2. cbn [app map] in E2.
  set (n2 := Net (map (imported_place im) (pm_places m)) (map imported_transition (pm_transitions m)) []) in *.
  assert (E12 : (do n1 <- foldM (fun n '(o, name) => add_place name "" (pm_tokens im o) n) (pm_places m) new_net;
     foldM (fun n '(_, (name, label)) => add_transition name label (match label with Some _ => true | None => false end) n) (pm_transitions m) n1) = Ok n2)
    by (rewrite E1; exact E2).
  assert (W : wf n2).
  { assert (G : convert_pm4py_to_data_petri_net (PmNet (pm_places m) (pm_transitions m) []) im = Ok n2).
    { unfold convert_pm4py_to_data_petri_net. cbn [pm_places pm_transitions pm_arcs]. rewrite E1. cbn [bind]. rewrite E2. auto. }
    eapply wf_pm4py; eauto. }
  assert (Kp : keys (places n2) = map snd (pm_places m)) by apply keys_ip.
  assert (Kt : keys (transitions n2) = map (fun x => fst (snd x)) (pm_transitions m)) by apply keys_it.
  destruct (arcs_added_ok m HP n2 W Kp Kt (pm_arcs m) (proj2 (proj2 HP))) as (n & E & A1 & A2 & A3 & A4 & A5 & A6 & A7 & A8).
  exists n. rewrite E1. cbn [bind]. rewrite E2. cbn [bind]. split; [auto|]. split; [congruence|]. split; [congruence|]. split; [auto|].
  split; [|split; [|split]].
  - intros o p Hp. rewrite A5. unfold tokens. rewrite (dict_In_get (places n2) p (Place "" (pm_tokens im o) [])).
    + auto.
    + rewrite Kp. auto.
    + unfold n2. cbn [places]. apply (in_map (imported_place im)) in Hp. exact Hp.
  - intros k t l Hin. apply (in_map imported_transition) in Hin. apply dict_In_get in Hin; [|apply (w_trans n2 W)].
    destruct (A6 _ _ Hin) as (tr & G & Q1 & Q2 & Q3). exists tr. split; [exact G|]. cbn in Q1, Q2, Q3. auto.
  - intros p t. rewrite A7. unfold arc_in. split; [|auto]. intros [Hin|]; [|auto]. exfalso. unfold starts, n2 in Hin. cbn [transitions] in Hin.
    destruct (dict_get t _) eqn:G; [|destruct Hin]. apply dict_get_In, in_map_iff in G. destruct G as ([k [t' l]] & G & _).
    unfold imported_transition in G. cbn in G. injection G as _ <-. destruct Hin.
  - intros p t. rewrite A8. unfold arc_out. split; [|auto]. intros [Hin|]; [|auto]. exfalso. unfold ends, n2 in Hin. cbn [transitions] in Hin.
    destruct (dict_get t _) eqn:G; [|destruct Hin]. apply dict_get_In, in_map_iff in G. destruct G as ([k [t' l]] & G & _).
    unfold imported_transition in G. cbn in G. injection G as _ <-. destruct Hin.
Qed.
(** otherwise, and only then, a ValueError is raised *)
Lemma C108_errors : forall m initial, proper m ->
  ~ (names_differ m /\ forall o p, is_place m o p -> (0 <= pm_tokens initial o)%Z) ->
  convert_pm4py_to_data_petri_net m initial = Err ValueError.
Proof.
  intros m im HP Hno. unfold convert_pm4py_to_data_petri_net.
  pose proof (import_places_err im (pm_places m) [] ltac:(constructor)) as E1. cbn [app map] in E1. change (Net [] [] []) with new_net in E1.
  assert (Hd : (NoDup (map snd (pm_places m)) /\ (forall o p, In (o, p) (pm_places m) -> (0 <= pm_tokens im o)%Z)) \/
              foldM (fun n '(o, name) => add_place name "" (pm_tokens im o) n) (pm_places m) new_net = Err ValueError).
  { destruct (ListDec.NoDup_dec String.string_dec (map snd (pm_places m))) as [D|D]; [|right; apply E1; tauto].
    destruct (Forall_Exists_dec (fun x => 0 <= pm_tokens im (fst x))%Z (fun x => Z_le_dec 0 (pm_tokens im (fst x))) (pm_places m)) as [F|F].
    - left. split; [auto|]. intros o p Hin. rewrite Forall_forall in F. apply (F (o, p)). auto.
    - right. apply E1. intros [_ Q]. apply Exists_exists in F. destruct F as ([o p] & Hin & F). cbn in F. specialize (Q o p Hin). lia. }
  destruct Hd as [[D T]| ->]; [|auto].
  pose proof (import_places im (pm_places m) [] D T) as E1'. cbn [app map] in E1'. change (Net [] [] []) with new_net in E1'. rewrite E1'. cbn [bind].
  rewrite (import_transitions_err _ (pm_transitions m) [] ltac:(constructor)); [auto|]. cbn [app]. intros D2. apply Hno. split; [split; auto|]. exact T.
Qed.

Section Runs.
  Variables (m : pm_net) (im : pm_marking) (n : net).
  Hypothesis HP : proper m.
  Hypothesis HN : names_differ m.
  Hypothesis HL : plain m.
  Hypothesis E : convert_pm4py_to_data_petri_net m im = Ok n.
  Lemma import_facts : 
    (forall t, has_transition n t <-> exists k, is_transition m k t) /\ (forall t, guard_of n t = AcceptAlways) /\
    (forall p t, In p (starts n t) <-> arc_in m p t) /\ (forall p t, In p (ends n t) <-> arc_out m t p).
  Proof.
    assert (T : forall o p, is_place m o p -> (0 <= pm_tokens im o)%Z).
    { intros o p Hin. destruct (Z_le_dec 0 (pm_tokens im o)); [auto|]. exfalso.
      rewrite (C108_errors m im HP) in E; [discriminate|]. intros [_ Q]. apply Q in Hin. contradiction. }
    destruct (C108_import m im HP HN T) as (n' & E' & K1 & K2 & _ & _ & G & S & D). assert (n' = n) by congruence. subst n'.
    assert (Hk : forall t, has_transition n t <-> exists k, is_transition m k t).
    { intros t. unfold has_transition. rewrite K2, in_map_iff. unfold is_transition. split.
      - intros ([k [t' l]] & <- & Hin). exists k, l. auto.
      - intros [k [l Hin]]. exists (k, (t, l)). auto. }
    split; [auto|]. split; [|auto]. intros t. unfold guard_of. destruct (dict_get t (transitions n)) as [tr|] eqn:Et; [|auto].
    assert (Ht : has_transition n t) by (eapply dict_get_Some_key; eauto). apply Hk in Ht. destruct Ht as [k [l Hin]].
    destruct (G k t l Hin) as (tr' & G' & _ & _ & Q). congruence.
  Qed.
  Lemma place_unique_obj o o' p : is_place m o p -> is_place m o' p -> o = o'.
  Proof. apply NoDup_snd. apply HN. Qed.
  Lemma transition_unique_obj k k' t : is_transition m k t -> is_transition m k' t -> k = k'.
  Proof.
    intros [l H1] [l' H2]. destruct HN as [_ N]. revert N H1 H2. generalize (pm_transitions m). intros L.
    induction L as [|[a [b c]] L IH]; cbn; [tauto|]. intros N. inversion N as [|? ? N1 N2]; subst.
    intros [X|H1] [F|H2]; [congruence| | |auto].
    - injection X as <- <- <-. exfalso. apply N1. apply (in_map (fun x => fst (snd x))) in H2. auto.
    - injection F as <- <- <-. exfalso. apply N1. apply (in_map (fun x => fst (snd x))) in H1. auto.
  Qed.
  Lemma sum_one {X} (l : list X) (f : X -> Z) (a : X) : NoDup l -> f a = 1%Z -> (forall x, In x l -> x <> a -> f x = 0%Z) ->
    (In a l -> fold_right Z.add 0%Z (map f l) = 1%Z) /\ (~ In a l -> fold_right Z.add 0%Z (map f l) = 0%Z).
  Proof.
    intros N Fa F. induction l as [|x l IH]; cbn; [tauto|]. inversion N as [|? ? N1 N2]; subst.
    destruct (IH N2 (fun y Hy => F y (or_intror Hy))) as [I1 I2]. split.
    - intros [->|Hin]; [rewrite Fa, I2; auto|]. rewrite (F x), I1; cbn; auto. congruence.
    - intros Hn. rewrite (F x), I2; cbn; auto.
  Qed.
  Lemma taken_ok k o : (In (ArcIn o k 1) (pm_arcs m) -> taken m k o = 1%Z) /\ (~ In (ArcIn o k 1) (pm_arcs m) -> taken m k o = 0%Z).
  Proof.
    unfold taken. apply sum_one; [apply HL| |].
    - rewrite !Nat.eqb_refl. auto.
    - intros [o' k' w|? ? ?] Hin Hne; [|auto]. destruct (Nat.eqb_spec o' o) as [->|]; [|auto]. destruct (Nat.eqb_spec k' k) as [->|]; [|auto].
      exfalso. apply Hne. destruct HL as [_ F]. rewrite Forall_forall in F. specialize (F _ Hin). cbn in F. congruence.
  Qed.
  Lemma given_ok k o : (In (ArcOut k o 1) (pm_arcs m) -> given m k o = 1%Z) /\ (~ In (ArcOut k o 1) (pm_arcs m) -> given m k o = 0%Z).
  Proof.
    unfold given. apply sum_one; [apply HL| |].
    - rewrite !Nat.eqb_refl. auto.
    - intros [? ? ?|k' o' w] Hin Hne; [auto|]. destruct (Nat.eqb_spec o' o) as [->|]; [|auto]. destruct (Nat.eqb_spec k' k) as [->|]; [|auto].
      exfalso. apply Hne. destruct HL as [_ F]. rewrite Forall_forall in F. specialize (F _ Hin). cbn in F. congruence.
  Qed.
  Lemma weight_one o k w : In (ArcIn o k w) (pm_arcs m) -> w = 1%Z.
  Proof. intros Hin. destruct HL as [_ F]. rewrite Forall_forall in F. apply (F _ Hin). Qed.
  Lemma weight_one' o k w : In (ArcOut k o w) (pm_arcs m) -> w = 1%Z.
  Proof. intros Hin. destruct HL as [_ F]. rewrite Forall_forall in F. apply (F _ Hin). Qed.
  Lemma arc_in_obj o p k t : is_place m o p -> is_transition m k t -> arc_in m p t <-> In (ArcIn o k 1) (pm_arcs m).
  Proof.
    intros Hp Ht. split; [|intros; exists o, k, 1%Z; auto]. intros (o' & k' & w & Hp' & Ht' & Hin).
    rewrite (place_unique_obj _ _ _ Hp Hp'), (transition_unique_obj _ _ _ Ht Ht'). rewrite <- (weight_one _ _ _ Hin). auto.
  Qed.
  Lemma arc_out_obj o p k t : is_place m o p -> is_transition m k t -> arc_out m t p <-> In (ArcOut k o 1) (pm_arcs m).
  Proof.
    intros Hp Ht. split; [|intros; exists o, k, 1%Z; auto]. intros (o' & k' & w & Hp' & Ht' & Hin).
    rewrite (place_unique_obj _ _ _ Hp Hp'), (transition_unique_obj _ _ _ Ht Ht'). rewrite <- (weight_one' _ _ _ Hin). auto.
  Qed.
  Lemma effect_ok o p k t : is_place m o p -> is_transition m k t -> effect n t p = (given m k o - taken m k o)%Z.
  Proof.
    intros Hp Ht. destruct import_facts as (_ & _ & S & D). unfold effect.
    destruct (taken_ok k o) as [T1 T2]. destruct (given_ok k o) as [G1 G2].
    destruct (mem p (ends n t)) eqn:Me.
    - apply mem_In, D, (arc_out_obj _ _ _ _ Hp Ht) in Me. rewrite (G1 Me).
      destruct (mem p (starts n t)) eqn:Ms.
      + apply mem_In, S, (arc_in_obj _ _ _ _ Hp Ht) in Ms. rewrite (T1 Ms). auto.
      + apply mem_not_In in Ms. rewrite S, (arc_in_obj _ _ _ _ Hp Ht) in Ms. rewrite (T2 Ms). auto.
    - apply mem_not_In in Me. rewrite D, (arc_out_obj _ _ _ _ Hp Ht) in Me. rewrite (G2 Me).
      destruct (mem p (starts n t)) eqn:Ms.
      + apply mem_In, S, (arc_in_obj _ _ _ _ Hp Ht) in Ms. rewrite (T1 Ms). auto.
      + apply mem_not_In in Ms. rewrite S, (arc_in_obj _ _ _ _ Hp Ht) in Ms. rewrite (T2 Ms). auto.
  Qed.
  Lemma fires_1 st M N k M' : same_marking m M N -> pm_fires m M k M' -> exists t N',
    is_transition m k t /\ fires n st N t N' /\ same_marking m M' N'.
  Proof.
    intros SM ([t Ht] & En & Ef). destruct import_facts as (Hk & Hg & S & D). exists t, (fun p => (N p + effect n t p)%Z).
    split; [auto|]. split.
    - split; [apply Hk; eauto|]. split; [rewrite Hg; auto|]. split; [|auto]. intros p Hin. apply S in Hin.
      destruct Hin as (o & k' & w & Hp & Ht' & Hin). pose proof (transition_unique_obj _ _ _ Ht Ht') as <-.
      rewrite <- (SM o p Hp), <- (weight_one _ _ _ Hin). eapply En; eauto.
    - intros o p Hp. rewrite (Ef o p Hp), (SM o p Hp), (effect_ok _ _ _ _ Hp Ht). lia.
  Qed.
  Lemma fires_2 st M N k t N' : same_marking m M N -> is_transition m k t -> fires n st N t N' -> forall M', same_marking m M' N' ->
    pm_fires m M k M'.
  Proof.
    intros SM Ht (_ & _ & En & Ef) M' SM'. destruct import_facts as (Hk & Hg & S & D). split; [eauto|]. split.
    - intros o w Hin. destruct HP as (_ & _ & F). rewrite Forall_forall in F. destruct (F _ Hin) as [[p Hp] _].
      rewrite (SM o p Hp), (weight_one _ _ _ Hin). apply En, S. exists o, k, w. auto.
    - intros o p Hp. rewrite (SM' o p Hp), Ef, (SM o p Hp), (effect_ok _ _ _ _ Hp Ht). lia.
  Qed.
  Definition by_object (N : string -> Z) (o : nat) : Z := match place_name m o with Ok p => N p | Err _ => 0%Z end.
  Lemma by_object_same N : same_marking m (by_object N) N.
  Proof. intros o p Hp. unfold by_object. rewrite (proj1 (place_name_ok m HP o p) Hp). auto. Qed.
  Lemma runs_1 st ts : forall M N M', same_marking m M N -> pm_run m M ts M' -> exists l N', named m ts l /\ run n st N l N' /\ same_marking m M' N'.
  Proof.
    induction ts as [|k ts IH]; intros M N M' SM R; inversion R; subst.
    - exists [], N. split; [constructor|]. split; [constructor; auto|]. intros o p Hp. match goal with Hx : forall o p, _ -> M' o = M o |- _ => rewrite (Hx o p Hp) end. apply SM; auto.
    - match goal with Hx : pm_fires _ _ _ _ |- _ => destruct (fires_1 st _ _ _ _ SM Hx) as (t & N1 & Ht & Fi & SM1) end.
      match goal with Hx : pm_run _ _ _ _ |- _ => destruct (IH _ _ _ SM1 Hx) as (l & N' & Hl & Rl & SM') end.
      exists (t :: l), N'. split; [constructor; auto|]. split; [econstructor; eauto|auto].
  Qed.
  Lemma runs_2 st l : forall M N N', same_marking m M N -> run n st N l N' -> exists ts M', named m ts l /\ pm_run m M ts M' /\ same_marking m M' N'.
  Proof.
    induction l as [|t l IH]; intros M N N' SM R; inversion R; subst.
    - exists [], M. split; [constructor|]. split; [constructor; auto|]. intros o p Hp. match goal with Hx : forall p, N' p = N p |- _ => rewrite (Hx p) end. apply SM; auto.
    - match goal with Hx : fires _ _ _ _ _ |- _ => rename Hx into Fi end.
      destruct (proj1 (proj1 import_facts t) (proj1 Fi)) as [k Ht].
      match goal with Hx : run _ _ ?A _ _ |- _ => destruct (IH (by_object A) _ _ (by_object_same A) Hx) as (ts & M' & Hl & Rl & SM') end.
      exists (k :: ts), M'. split; [constructor; auto|]. split; [|auto]. econstructor; [|exact Rl]. eapply fires_2; eauto. apply by_object_same.
  Qed.
End Runs.

(** without weights and parallel arcs the imported net has the runs of the token game of pm4py *)
Lemma C108_runs : forall m initial n st M N, proper m -> names_differ m -> plain m ->
  convert_pm4py_to_data_petri_net m initial = Ok n -> same_marking m M N ->
  (forall ts M', pm_run m M ts M' -> exists l N', named m ts l /\ run n st N l N' /\ same_marking m M' N') /\
  (forall l N', run n st N l N' -> exists ts M', named m ts l /\ pm_run m M ts M' /\ same_marking m M' N').
Proof.
  intros m im n st M N HP HN HL E SM. split.
  - intros ts M'. apply (runs_1 m im n HP HN HL E st). auto.
  - intros l N'. apply (runs_2 m im n HP HN HL E st). auto.
Qed.
(** with weights it has not: here the transition needs two tokens and one is there *)
Lemma C108_weight_witness : exists m initial n st M N l N', proper m /\ names_differ m /\ NoDup (pm_arcs m) /\
  convert_pm4py_to_data_petri_net m initial = Ok n /\ same_marking m M N /\
  run n st N l N' /\ forall ts M', named m ts l -> ~ pm_run m M ts M'.
Proof.
  exists (PmNet [(0, "a")] [(0, ("t", Some "t"))] [ArcIn 0 0 2]), [(0, 1%Z)].
  eexists _, [], (fun _ => 1%Z), (fun _ => 1%Z), ["t"], (fun p => if String.eqb p "a" then 0%Z else 1%Z).
  split; [|split; [|split; [|split; [|split; [|split]]]]].
  - split; [|split]; [repeat constructor; cbn; tauto..|]. repeat constructor; cbn; [exists "a"|exists "t"; exists (Some "t")]; cbn; auto.
  - split; repeat constructor; cbn; tauto.
  - repeat constructor. cbn. tauto.
  - vm_compute. reflexivity.
  - intros o p _. auto.
  - econstructor; [|constructor; intros p; reflexivity]. split; [left; reflexivity|]. split; [reflexivity|]. split.
    + intros p _. cbn. lia.
    + intros p. unfold effect. cbn. destruct (String.eqb_spec p "a") as [->|]; auto.
  - intros ts M' Hn R. inversion Hn as [|k t ts' l' Hk Hl]; subst. inversion Hl; subst. inversion R as [|? ? M1 ? ? Fi _]; subst.
    destruct Hk as [l Hk]. cbn in Hk. destruct Hk as [Hk|[]]. injection Hk as <- <-.
    destruct Fi as (_ & En & _). specialize (En 0 2%Z (or_introl eq_refl)). cbn in En. lia.
Qed.
