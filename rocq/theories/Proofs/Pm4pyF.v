(** Nets handed to pm4py and back *)
From Coq Require Import String Permutation ZArith.
From Verif.Model Require Import Base PetriNet Pm4py.
From Verif.Spec Require Import PetriSpec Pm4pySpec.
From Verif.Lib Require Import ListLib DictLib.
From Verif.Proofs Require Import DfgA PetriA PetriC PetriD Pm4pyA Pm4pyB Pm4pyC Pm4pyD Pm4pyE.
Open Scope string_scope.
Open Scope list_scope.
Open Scope nat_scope.

Lemma same_sym m m' : same_net m m' -> same_net m' m.
Proof. intros (A & B & C). split; [|split]; apply Permutation_sym; auto. Qed.
Lemma same_place m m' o p : same_net m m' -> is_place m o p <-> is_place m' o p.
Proof. intros (A & _). unfold is_place. split; apply Permutation_in; [auto|apply Permutation_sym; auto]. Qed.
Lemma same_transition m m' k t : same_net m m' -> is_transition m k t <-> is_transition m' k t.
Proof. intros (_ & A & _). unfold is_transition. split; intros [l Hin]; exists l; revert Hin; apply Permutation_in; [auto|apply Permutation_sym; auto]. Qed.
Lemma same_arcs m m' a : same_net m m' -> In a (pm_arcs m) <-> In a (pm_arcs m').
Proof. intros (_ & _ & A). split; apply Permutation_in; [auto|apply Permutation_sym; auto]. Qed.
Lemma same_arc_in m m' p t : same_net m m' -> arc_in m p t <-> arc_in m' p t.
Proof.
  intros S. unfold arc_in. split; intros (o & k & w & A & B & C); exists o, k, w.
  - rewrite <- (same_place m m'), <- (same_transition m m'), <- (same_arcs m m'); auto.
  - rewrite (same_place m m'), (same_transition m m'), (same_arcs m m'); auto.
Qed.
Lemma same_arc_out m m' p t : same_net m m' -> arc_out m t p <-> arc_out m' t p.
Proof.
  intros S. unfold arc_out. split; intros (o & k & w & A & B & C); exists o, k, w.
  - rewrite <- (same_place m m'), <- (same_transition m m'), <- (same_arcs m m'); auto.
  - rewrite (same_place m m'), (same_transition m m'), (same_arcs m m'); auto.
Qed.
Lemma same_proper m m' : same_net m m' -> proper m -> proper m'.
Proof.
  intros S (A & B & C). destruct S as (S1 & S2 & S3). split; [|split].
  - eapply Permutation_NoDup; [|exact A]. apply Permutation_map. auto.
  - eapply Permutation_NoDup; [|exact B]. apply Permutation_map. auto.
  - rewrite Forall_forall in *. intros a Ha. specialize (C a (Permutation_in _ (Permutation_sym S3) Ha)).
    destruct a as [o k w|k o w]; destruct C as [[p Hp] [t Ht]]; (split; [exists p|exists t]).
    all: first [apply (same_place m m')|apply (same_transition m m')]; auto; split; [|split]; auto.
Qed.
Lemma same_names m m' : same_net m m' -> names_differ m -> names_differ m'.
Proof.
  intros (S1 & S2 & S3) [A B]. split.
  - eapply Permutation_NoDup; [|exact A]. apply Permutation_map. auto.
  - eapply Permutation_NoDup; [|exact B]. apply Permutation_map. auto.
Qed.

Section Round.
  Variables (ord : order) (n : net) (m m' : pm_net) (im fm : pm_marking).
  Hypothesis B : built n.
  Hypothesis HO : any_order ord.
  Hypothesis E : convert_data_petri_net_to_pm4py ord n = Ok (m, im, fm).
  Hypothesis SN : same_net m m'.
  Hypothesis NL : forall t, ~ namesake_loop n t.
  Hypothesis TS : two_sided n.
  Definition round_trip (n' : net) : Prop :=
    (forall q, has_place n' q <-> exists p, q = pname p /\ has_place n p) /\
    (forall q, has_transition n' q <-> exists t, q = tname t /\ has_transition n t) /\
    (forall p, (source n p -> tokens n' (pname p) = 1%Z) /\ (~ source n p -> tokens n' (pname p) = 0%Z)) /\
    (forall t q, In q (starts n' (tname t)) <-> exists p, q = pname p /\ In p (starts n t)) /\
    (forall t q, In q (ends n' (tname t)) <-> exists p, q = pname p /\ In p (ends n t)) /\
    (forall t tr, dict_get t (transitions n) = Some tr -> exists tr', dict_get (tname t) (transitions n') = Some tr' /\
       t_visible tr' = t_visible tr /\ t_label tr' = (if t_visible tr then t_label tr else tname t) /\ t_guard tr' = AcceptAlways) /\
    variables n' = [].
  Lemma round_trip_ok : exists n', convert_pm4py_to_data_petri_net m' im = Ok n' /\ round_trip n'.
  Proof.
    destruct (C107_export ord n B HO) as (m0 & im0 & fm0 & E0 & HP & HN & HPl & P1 & P2 & P3 & P4 & P5 & _).
    rewrite E in E0. injection E0 as <- <- <-. pose proof (built_wf n B) as W.
    assert (IP : forall o q, is_place m o q -> exists p, q = pname p /\ has_place n p).
    { intros o q Hq. apply (in_map snd) in Hq. rewrite P1 in Hq. cbn in Hq. apply in_map_iff in Hq. destruct Hq as (p & <- & Hp). eauto. }
    assert (PI : forall p, has_place n p -> exists o, is_place m o (pname p)).
    { intros p Hp. apply (in_map pname) in Hp. rewrite <- P1, in_map_iff in Hp. destruct Hp as ([o q] & Eq & Hin). cbn in Eq. subst q. exists o. auto. }
    assert (NN : forall o p, is_place m' o p -> (0 <= pm_tokens im o)%Z).
    { intros o q Hq. apply (same_place m m' _ _ SN) in Hq. destruct (IP o q Hq) as (p & -> & Hp). destruct (P3 o p Hq) as (A1 & A2 & _).
      destruct (get_source_sink_places n) as [so si] eqn:Ess. destruct (source_sink_ok n so si (w_trans n W) Ess) as (_ & _ & Lso & _).
      destruct (in_dec String.string_dec p so) as [Hi|Hi].
      - rewrite A1; [lia|]. apply Lso. auto.
      - rewrite A2; [lia|]. intros Hs. apply Hi, Lso. auto. }
    destruct (C108_import m' im (same_proper m m' SN HP) (same_names m m' SN HN) NN) as (n' & E' & K1 & K2 & Kv & T & L & S & D).
    exists n'. split; [auto|].
    assert (HPn : forall q, has_place n' q <-> exists p, q = pname p /\ has_place n p).
    { intros q. unfold has_place at 1. rewrite K1. split.
      - intros Hq. apply in_map_iff in Hq. destruct Hq as ([o q'] & <- & Hin). apply (IP o). apply (same_place m m' _ _ SN). exact Hin.
      - intros (p & -> & Hp). destruct (PI p Hp) as [o Ho]. apply (same_place m m' _ _ SN) in Ho. apply (in_map snd) in Ho. exact Ho. }
    assert (IT : forall k t l, In (k, (t, l)) (pm_transitions m') -> exists id tr, In (id, tr) (transitions n) /\ t = tname id /\ l = pm_label tr).
    { intros k t l Hin. apply (Permutation_in _ (Permutation_sym (proj1 (proj2 SN)))) in Hin. apply (in_map snd) in Hin. rewrite P2 in Hin.
      apply in_map_iff in Hin. destruct Hin as ([id tr] & Ex & Hin). cbn in Ex. injection Ex as <- <-. eauto. }
    assert (TI : forall id tr, In (id, tr) (transitions n) -> exists k, In (k, (tname id, pm_label tr)) (pm_transitions m')).
    { intros id tr Hin. apply (in_map (fun '(id, t) => (tname id, if t_visible t then Some (t_label t) else None))) in Hin.
      rewrite <- P2, in_map_iff in Hin. destruct Hin as ([k x] & Ex & Hin). cbn in Ex. subst x. exists k.
      apply (Permutation_in _ (proj1 (proj2 SN))). exact Hin. }
    assert (ST : forall t q, In q (starts n' (tname t)) <-> exists p, q = pname p /\ In p (starts n t)).
    { intros t q. rewrite S, <- (same_arc_in m m' q (tname t) SN). split.
      - intros A. pose proof A as (o & k & w & Ho & Hk & Hin). destruct (IP o q Ho) as (p & -> & Hp). exists p. split; [auto|].
        apply (P4 p t) in A; [apply A|]. intros [_ X]. apply (NL t X).
      - intros (p & -> & Hp). apply P4; [intros [_ X]; apply (NL t X)|]. split; [auto|]. rewrite <- (TS t). intros X. rewrite X in Hp. destruct Hp. }
    assert (EN : forall t q, In q (ends n' (tname t)) <-> exists p, q = pname p /\ In p (ends n t)).
    { intros t q. rewrite D, <- (same_arc_out m m' q (tname t) SN). split.
      - intros A. pose proof A as (o & k & w & Ho & Hk & Hin). destruct (IP o q Ho) as (p & -> & Hp). exists p. split; [auto|].
        apply (P5 p t) in A; [apply A|]. intros [_ X]. apply (NL t X).
      - intros (p & -> & Hp). apply P5; [intros [_ X]; apply (NL t X)|]. split; [auto|]. rewrite (TS t). intros X. rewrite X in Hp. destruct Hp. }
    split; [auto|]. split; [|split; [|split; [auto|split; [auto|split; [|auto]]]]].
    - intros q. unfold has_transition at 1. rewrite K2, in_map_iff. split.
      + intros ([k [t l]] & <- & Hin). destruct (IT k t l Hin) as (id & tr & Hi & -> & _). exists id. split; [auto|].
        unfold has_transition. apply (in_map fst) in Hi. exact Hi.
      + intros (t & -> & Ht). unfold has_transition in Ht. apply dict_get_Some_iff in Ht. destruct Ht as [tr Ht]. apply dict_get_In in Ht.
        destruct (TI t tr Ht) as [k Hk]. exists (k, (tname t, pm_label tr)). auto.
    - intros p. destruct (in_dec String.string_dec p (keys (places n))) as [Hp|Hp].
      + destruct (PI p Hp) as [o Ho]. destruct (P3 o p Ho) as (A1 & A2 & _). rewrite (T o (pname p)) by (apply (same_place m m' _ _ SN); auto). auto.
      + split.
        * intros [[t Ht] _]. exfalso. apply Hp. apply (w_sp n W t p Ht).
        * intros _. unfold tokens. destruct (dict_get (pname p) (places n')) eqn:G; [|auto]. exfalso. apply Hp.
          assert (X : has_place n' (pname p)) by (eapply dict_get_Some_key; eauto). apply HPn in X. destruct X as (p' & Ep & X). apply pname_inj in Ep. subst. exact X.
    - intros t tr Ht. apply dict_get_In in Ht. destruct (TI t tr Ht) as [k Hk]. destruct (L k _ _ Hk) as (tr' & G & L1 & L2 & L3).
      exists tr'. split; [auto|]. rewrite L1, L2. unfold pm_label. destruct (t_visible tr); cbn; auto.
  Qed.
End Round.

(*P C107 Petri nets handed to pm4py *)
(** the way back: up to the names, the structure is kept; guards, variables, tokens and the labels of
    invisible transitions are lost, and the sources carry one token each *)
Lemma C107_round_trip : forall ord n m m' initial final, built n -> any_order ord -> two_sided n -> (forall t, ~ namesake_loop n t) ->
  convert_data_petri_net_to_pm4py ord n = Ok (m, initial, final) -> same_net m m' -> exists n',
  convert_pm4py_to_data_petri_net m' initial = Ok n' /\ built n' /\
  (forall q, has_place n' q <-> exists p, q = pname p /\ has_place n p) /\
  (forall q, has_transition n' q <-> exists t, q = tname t /\ has_transition n t) /\
  (forall p, (source n p -> tokens n' (pname p) = 1%Z) /\ (~ source n p -> tokens n' (pname p) = 0%Z)) /\
  (forall t q, In q (starts n' (tname t)) <-> exists p, q = pname p /\ In p (starts n t)) /\
  (forall t q, In q (ends n' (tname t)) <-> exists p, q = pname p /\ In p (ends n t)) /\
  (forall t tr, dict_get t (transitions n) = Some tr -> exists tr', dict_get (tname t) (transitions n') = Some tr' /\
     t_visible tr' = t_visible tr /\ t_label tr' = (if t_visible tr then t_label tr else tname t) /\ t_guard tr' = AcceptAlways) /\
  variables n' = [].
Proof.
  intros ord n m m' im fm B HO TS NL E SN. destruct (round_trip_ok ord n m m' im fm B HO E SN NL TS) as (n' & E' & R).
  exists n'. split; [auto|]. split; [eapply b_pm4py; eauto|]. exact R.
Qed.

Lemma no_guards n t : has_guards n = false -> guard_of n t = AcceptAlways.
Proof.
  unfold has_guards, guard_of. intros G. destruct (dict_get t (transitions n)) as [tr|] eqn:Et; [|auto]. apply dict_get_In in Et.
  apply (in_map snd) in Et. destruct (t_guard tr) eqn:Eg; auto; exfalso;
  (assert (X : existsb (fun t => match t_guard t with AcceptAlways => false | _ => true end) (values (transitions n)) = true);
   [apply existsb_exists; exists tr; split; [exact Et|rewrite Eg; auto]|congruence]).
Qed.
Lemma mem_lift {X Y} `{Eq X} `{Eq Y} (f : X -> Y) x l l' : (forall a b, f a = f b -> a = b) -> (forall y, In y l' <-> exists x, y = f x /\ In x l) ->
  mem (f x) l' = mem x l.
Proof.
  intros I L. destruct (mem x l) eqn:M.
  - apply mem_In. apply mem_In in M. apply L. eauto.
  - apply mem_not_In in M. apply mem_not_In. intros Hin. apply L in Hin. destruct Hin as (y & Ey & Hin). apply I in Ey. subst. auto.
Qed.
(** a net without guards keeps its runs *)
Lemma C107_runs : forall ord n m m' initial final n' st st' M N, built n -> any_order ord -> two_sided n -> (forall t, ~ namesake_loop n t) ->
  has_guards n = false -> convert_data_petri_net_to_pm4py ord n = Ok (m, initial, final) -> same_net m m' ->
  convert_pm4py_to_data_petri_net m' initial = Ok n' -> (forall p, N (pname p) = M p) ->
  (forall l M1, run n st M l M1 <-> exists N1, run n' st' N (map tname l) N1 /\ forall p, N1 (pname p) = M1 p) /\
  (forall l' N1, run n' st' N l' N1 -> exists l, l' = map tname l).
Proof.
  intros ord n m m' im fm n' st st' M N B HO TS NL HG E SN E' HN.
  destruct (round_trip_ok ord n m m' im fm B HO E SN NL TS) as (n1 & E1 & R). assert (n1 = n') by congruence. subst n1. clear E1.
  destruct R as (R1 & R2 & _ & R4 & R5 & R6 & _).
  assert (Eff : forall t p, effect n' (tname t) (pname p) = effect n t p).
  { intros t p. unfold effect. rewrite (mem_lift pname p (ends n t) _ pname_inj (R5 t)), (mem_lift pname p (starts n t) _ pname_inj (R4 t)). auto. }
  assert (Gd : forall t, has_transition n t -> accept st' (guard_of n' (tname t)) = Ok true).
  { intros t Ht. apply dict_get_Some_iff in Ht. destruct Ht as [tr Ht]. destruct (R6 t tr Ht) as (tr' & G & _ & _ & Eg). unfold guard_of. rewrite G, Eg. auto. }
  split.
  - intros l. revert M N HN. induction l as [|t l IH]; intros M N HN M1; split.
    + intros R. inversion R; subst. exists N. split; [constructor; auto|]. intros p. rewrite HN. symmetry. auto.
    + intros (N1 & R & HN1). inversion R; subst. constructor. intros p. rewrite <- HN1, <- HN. auto.
    + intros R. inversion R as [|? ? Ma ? ? Fi R']; subst. destruct Fi as (F1 & F2 & F3 & F4).
      set (Na := fun q => (N q + effect n' (tname t) q)%Z).
      assert (HNa : forall p, Na (pname p) = Ma p) by (intros p; unfold Na; rewrite Eff, HN, F4; auto).
      apply (IH Ma Na HNa M1) in R'. destruct R' as (N1 & R' & HN1). exists N1. split; [|auto]. cbn [map]. econstructor; [|exact R'].
      split; [apply R2; eauto|]. split; [apply Gd; auto|]. split; [|unfold Na; auto].
      intros q Hq. apply R4 in Hq. destruct Hq as (p & -> & Hp). rewrite HN. auto.
    + intros (N1 & R & HN1). cbn [map] in R. inversion R as [|? ? Na ? ? Fi R']; subst. destruct Fi as (F1 & F2 & F3 & F4).
      assert (Ht : has_transition n t) by (apply R2 in F1; destruct F1 as (t' & Et & Ht); apply tname_inj in Et; subst; auto).
      set (Ma := fun p => (M p + effect n t p)%Z).
      assert (HNa : forall p, Na (pname p) = Ma p) by (intros p; unfold Ma; rewrite F4, Eff, HN; auto).
      econstructor; [|apply (IH Ma Na HNa M1); eauto]. split; [auto|]. split; [rewrite no_guards by auto; auto|]. split; [|unfold Ma; auto].
      intros p Hp. rewrite <- HN. apply F3. apply R4. eauto.
  - intros l'. clear HN. revert N. induction l' as [|q l' IH]; intros N N1 R; [exists []; auto|]. inversion R as [|? ? Na ? ? Fi R']; subst.
    destruct (IH _ _ R') as [l ->]. destruct Fi as (F1 & _). apply R2 in F1. destruct F1 as (t & -> & _). exists (t :: l). auto.
Qed.
(** a transition that bears the name of a place with arcs in both directions loses one of the two arcs: here the place is emptied *)
Lemma C107_namesake_witness : exists ord n m initial final n', built n /\ any_order ord /\ two_sided n /\ namesake_loop n "x" /\
  convert_data_petri_net_to_pm4py ord n = Ok (m, initial, final) /\ convert_pm4py_to_data_petri_net m initial = Ok n' /\
  effect n "x" "x" = 0%Z /\ effect n' (tname "x") (pname "x") = (-1)%Z.
Proof.
  exists (fun l => l), (run_net [AddP "x" 1; AddT "x"; Conn "x" "x" "x"]). eexists _, _, _, _.
  split; [apply run_built|]. split; [intros l; auto|]. split; [|split; [split; vm_compute; auto|]].
  - intros t. unfold starts, ends. cbn. destruct (String.eqb t "x"); cbn; split; discriminate || auto.
  - split; [vm_compute; reflexivity|]. split; [vm_compute; reflexivity|]. split; vm_compute; reflexivity.
Qed.
(** a transition without end places (of a net taken over from pm4py) loses its arcs: it can then always fire *)
Lemma C107_one_sided_witness : exists ord n m initial final, built n /\ any_order ord /\ (forall t, ~ namesake_loop n t) /\
  convert_data_petri_net_to_pm4py ord n = Ok (m, initial, final) /\ starts n "t" = ["a"] /\ pm_arcs m = [].
Proof.
  assert (X : exists n, convert_pm4py_to_data_petri_net (PmNet [(0, "a")] [(0, ("t", Some "t"))] [ArcIn 0 0 1]) [] = Ok n) by (eexists; vm_compute; reflexivity).
  destruct X as [n E]. exists (fun l => l), n. pose proof (b_pm4py _ _ _ E) as B. vm_compute in E. injection E as <-. eexists _, _, _.
  split; [exact B|]. split; [intros l; auto|]. split; [|split; [vm_compute; reflexivity|split; reflexivity]].
  intros t [H1 H2]. unfold ends in H2. cbn in H2. destruct (String.eqb t "t"); destruct H2.
Qed.
