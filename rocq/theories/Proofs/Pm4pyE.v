(** Nets handed to pm4py: the properties *)
From Coq Require Import String Permutation ZArith.
From Verif.Model Require Import Base PetriNet Pm4py.
From Verif.Spec Require Import PetriSpec Pm4pySpec.
From Verif.Lib Require Import ListLib DictLib.
From Verif.Proofs Require Import DfgA PetriA PetriC PetriD Pm4pyA Pm4pyB Pm4pyC Pm4pyD.
Open Scope string_scope.
Open Scope list_scope.
Open Scope nat_scope.

Lemma marks_ok (d : dict string nat) (l : list string) : (forall p, In p l -> exists o, dict_get p d = Some o) -> forall m0, exists m,
  foldM (fun m p => do o <- of_option KeyError (dict_get p d) ; Ok (dict_set o 1%Z m)) l m0 = Ok m /\
  forall o, ((exists p, In p l /\ dict_get p d = Some o) -> pm_tokens m o = 1%Z) /\
            (~ (exists p, In p l /\ dict_get p d = Some o) -> pm_tokens m o = pm_tokens m0 o).
Proof.
  induction l as [|p l IH]; intros HD m0; cbn [foldM].
  - exists m0. split; [auto|]. intros o. split; [intros (p & [] & _)|auto].
  - destruct (HD p) as [o Ho]; [cbn; auto|]. rewrite Ho. cbn [of_option bind].
    destruct (IH (fun q Hq => HD q (or_intror Hq)) (dict_set o 1%Z m0)) as (m & -> & P). exists m. split; [auto|]. intros o'.
    assert (Dec : (exists q, In q l /\ dict_get q d = Some o') \/ ~ (exists q, In q l /\ dict_get q d = Some o')).
    { clear. induction l as [|q l IH]; [right; intros (q & [] & _)|]. destruct IH as [(q' & Hq & Eq)|Hn]; [left; exists q'; cbn; auto|].
      destruct (option_eqb_ok (dict_get q d) (Some o')) as [Eq|Hne]; [left; exists q; cbn; auto|].
      right. intros (q' & [->|Hq] & Eq); [contradiction|]. apply Hn. eauto. }
    destruct (P o') as [P1 P2]. split.
    + intros (q & [->|Hq] & Eq); [|apply P1; eauto]. assert (o' = o) by congruence. subst o'. destruct Dec as [Dc|Dc]; [auto|].
      rewrite (P2 Dc). unfold pm_tokens. rewrite dict_get_set, eqb_refl. auto.
    + intros Hn. rewrite P2.
      * unfold pm_tokens. rewrite dict_get_set. destruct (eqb_ok o' o) as [->|]; [|auto]. exfalso. apply Hn. exists p. cbn. auto.
      * intros (q & Hq & Eq). apply Hn. exists q. cbn. auto.
Qed.

Lemma combine_fst {X Y} (l : list X) (m : list Y) : length l = length m -> map fst (combine l m) = l.
Proof. revert m. induction l as [|x l IH]; intros [|y m]; cbn; try discriminate; auto. intros E. rewrite IH; auto. Qed.
Lemma combine_snd {X Y} (l : list X) (m : list Y) : length l = length m -> map snd (combine l m) = m.
Proof. revert m. induction l as [|x l IH]; intros [|y m]; cbn; try discriminate; auto. intros E. rewrite IH; auto. Qed.
Lemma combine_seq {X} (l : list X) : forall k i x, In (i, x) (combine (seq k (length l)) l) <-> k <= i /\ nth_error l (i - k) = Some x.
Proof.
  induction l as [|y l IH]; intros k i x; cbn [length seq combine In].
  - split; [intros []|]. intros [_ E]. destruct (i - k); discriminate.
  - rewrite IH. split.
    + intros [E|[L E]].
      * injection E as <- <-. rewrite Nat.sub_diag. auto.
      * split; [lia|]. replace (i - k) with (S (i - S k)) by lia. auto.
    + intros [L E]. destruct (Nat.eq_dec i k) as [->|].
      * rewrite Nat.sub_diag in E. cbn in E. injection E as ->. auto.
      * right. split; [lia|]. replace (i - k) with (S (i - S k)) in E by lia. auto.
Qed.
Lemma NoDup_map_inj {X Y} (f : X -> Y) l : (forall x y, f x = f y -> x = y) -> NoDup l -> NoDup (map f l).
Proof. intros I N. apply FinFun.Injective_map_NoDup; auto. Qed.
Lemma transition_nth n t tr : wf n -> dict_get t (transitions n) = Some tr -> exists k, nth_error (transitions n) k = Some (t, tr).
Proof. intros W G. apply dict_get_In, In_nth_error in G. auto. Qed.

(*P C107 Petri nets handed to pm4py *)
(** every place and every transition is taken over under its name, visible transitions with their label; the initial
    marking has one token on every source, the final one on every sink, whatever the tokens of the net are; there is one
    arc of weight 1 for every start and end place of a transition that has both *)
Lemma C107_export : forall ord n, built n -> any_order ord -> exists m initial final,
  convert_data_petri_net_to_pm4py ord n = Ok (m, initial, final) /\ proper m /\ names_differ m /\ plain m /\
  map snd (pm_places m) = map pname (keys (places n)) /\
  map snd (pm_transitions m) = map (fun '(id, t) => (tname id, if t_visible t then Some (t_label t) else None)) (transitions n) /\
  (forall o p, is_place m o (pname p) ->
     (source n p -> pm_tokens initial o = 1%Z) /\ (~ source n p -> pm_tokens initial o = 0%Z) /\
     (sink n p -> pm_tokens final o = 1%Z) /\ (~ sink n p -> pm_tokens final o = 0%Z)) /\
  (forall p t, ~ (p = t /\ namesake_loop n t) -> arc_in m (pname p) (tname t) <-> In p (starts n t) /\ ends n t <> []) /\
  (forall p t, ~ (p = t /\ namesake_loop n t) -> arc_out m (tname t) (pname p) <-> In p (ends n t) /\ starts n t <> []) /\
  (forall t, namesake_loop n t -> arc_in m (pname t) (tname t) <-> ~ arc_out m (tname t) (pname t)).
Proof.
  intros ord n B HO. pose proof (built_wf n B) as W. unfold convert_data_petri_net_to_pm4py.
  destruct (add_places_ok n (w_places n W)) as (ps & d & -> & O & P1 & P2 & P3). unfold objects in O.
  assert (DI : forall p q o, dict_get p d = Some o -> dict_get q d = Some o -> p = q).
  { intros p q o. rewrite !O. congruence. }
  assert (DP : forall p, has_place n p -> exists o, dict_get p d = Some o).
  { intros p Hp. apply In_nth_error in Hp. destruct Hp as [o Ho]. exists o. apply O. auto. }
  assert (SE : forall id t, In (id, t) (transitions n) -> starts n id = t_start t /\ ends n id = t_end t).
  { intros id t Hin. apply dict_In_get in Hin; [|apply (w_trans n W)]. unfold starts, ends. rewrite Hin. auto. }
  destruct (add_transitions_ok ord d (transitions n) HO DI) with (m := PmNet ps [] []) as (m & gs & -> & Q1 & Q2 & Q3 & Q4).
  { intros id t p Hin Hp. destruct (SE id t Hin) as [Es Ee]. apply DP. destruct Hp as [Hp|Hp].
    - apply (w_sp n W id). rewrite Es. auto.
    - apply (w_ep n W id). rewrite Ee. auto. }
  cbn [pm_places pm_transitions pm_arcs length app] in Q1, Q2, Q3, Q4. cbn [bind].
  unfold create_markings. destruct (get_source_sink_places n) as [so si] eqn:Ess.
  destruct (source_sink_ok n so si (w_trans n W) Ess) as (_ & _ & Lso & Lsi).
  assert (HPl : forall p, source n p \/ sink n p -> has_place n p).
  { intros p [[[t Ht] _]|[[t Ht] _]]; [eapply (w_sp n W)|eapply (w_ep n W)]; eauto. }
  assert (Iso : forall p, In p (ord so) <-> source n p).
  { intros p. change (source n p) with (before_some n p /\ ~ behind_some n p); rewrite <- (Lso p). split; apply Permutation_in; [apply HO|apply Permutation_sym, HO]. }
  assert (Isi : forall p, In p (ord si) <-> sink n p).
  { intros p. change (sink n p) with (behind_some n p /\ ~ before_some n p); rewrite <- (Lsi p). split; apply Permutation_in; [apply HO|apply Permutation_sym, HO]. }
  destruct (marks_ok d (ord so)) with (m0 := @nil (nat * Z)) as (im & -> & M1); [intros p Hp; apply DP, HPl; left; apply Iso; auto|].
  destruct (marks_ok d (ord si)) with (m0 := @nil (nat * Z)) as (fm & -> & M2); [intros p Hp; apply DP, HPl; right; apply Isi; auto|].
  cbn [bind]. exists m, im, fm. split; [auto|].
  (* objects *)
  assert (IP : forall o x, is_place m o x <-> exists p, x = pname p /\ nth_error (keys (places n)) o = Some p).
  { intros o x. unfold is_place. rewrite Q1. apply P3. }
  assert (IPp : forall o p, is_place m o (pname p) <-> dict_get p d = Some o).
  { intros o p. rewrite IP, O. split; [|eauto]. intros (q & Eq & Eo). apply pname_inj in Eq. congruence. }
  assert (LT : length (map (fun '(id, t) => (tname id, pm_label t)) (transitions n)) = length (transitions n)) by apply map_length.
  assert (IT : forall k x l, In (k, (x, l)) (pm_transitions m) <-> exists id t, nth_error (transitions n) k = Some (id, t) /\ x = tname id /\ l = pm_label t).
  { intros k x l. rewrite Q2, <- LT, combine_seq. rewrite Nat.sub_0_r, nth_error_map. split.
    - intros [_ Ek]. destruct (nth_error (transitions n) k) as [[id t]|]; [|discriminate]. cbn in Ek. injection Ek as <- <-. eauto.
    - intros (id & t & Ek & -> & ->). rewrite Ek. split; [lia|auto]. }
  assert (ITt : forall k t, is_transition m k (tname t) <-> exists tr, nth_error (transitions n) k = Some (t, tr)).
  { intros k t. unfold is_transition. split.
    - intros [l Hin]. apply IT in Hin. destruct Hin as (id & tr & Ek & Et & _). apply tname_inj in Et. subst. eauto.
    - intros [tr Ek]. exists (pm_label tr). apply IT. exists t, tr. auto. }
  assert (GA : forall k t tr, nth_error (transitions n) k = Some (t, tr) -> exists g, group d k t (starts n t) (ends n t) g /\
      (forall o w, In (ArcIn o k w) (pm_arcs m) <-> In (ArcIn o k w) g) /\ (forall o w, In (ArcOut k o w) (pm_arcs m) <-> In (ArcOut k o w) g)).
  { intros k t tr Ek. destruct (groups_at _ _ _ _ _ _ _ Q4 Ek) as (g & G & I). cbn [plus] in G, I. destruct (SE t tr (nth_error_In _ _ Ek)) as [-> ->].
    exists g. rewrite Q3. split; [auto|]. split; intros o w; apply I; auto. }
  assert (KU : forall k k' t tr tr', nth_error (transitions n) k = Some (t, tr) -> nth_error (transitions n) k' = Some (t, tr') -> k = k').
  { intros k k' t tr tr' Ek Ek'. pose proof (w_trans n W) as N. rewrite NoDup_nth_error in N. apply N.
    - unfold keys. rewrite map_length. apply nth_error_Some. congruence.
    - unfold keys. rewrite !nth_error_map, Ek, Ek'. auto. }
  assert (Sk : forall t, starts n t <> [] \/ ends n t <> [] -> exists k tr, nth_error (transitions n) k = Some (t, tr)).
  { intros t Hne. destruct (dict_get t (transitions n)) as [tr|] eqn:Et.
    - destruct (transition_nth n t tr W Et) as [k Ek]. eauto.
    - unfold starts, ends in Hne. rewrite Et in Hne. destruct Hne; contradiction. }
  assert (AI : forall p t o k tr, dict_get p d = Some o -> nth_error (transitions n) k = Some (t, tr) ->
     arc_in m (pname p) (tname t) <-> exists w, In (ArcIn o k w) (pm_arcs m)).
  { intros p t o k tr Eo Ek. split.
    - intros (o' & k' & w & Ho & Hk & Hin). apply IPp in Ho. apply ITt in Hk. destruct Hk as [tr' Ek'].
      rewrite (KU _ _ _ _ _ Ek Ek'). assert (o' = o) by congruence. subst. eauto.
    - intros [w Hin]. exists o, k, w. split; [apply IPp; auto|]. split; [apply ITt; eauto|auto]. }
  assert (AO : forall p t o k tr, dict_get p d = Some o -> nth_error (transitions n) k = Some (t, tr) ->
     arc_out m (tname t) (pname p) <-> exists w, In (ArcOut k o w) (pm_arcs m)).
  { intros p t o k tr Eo Ek. split.
    - intros (o' & k' & w & Ho & Hk & Hin). apply IPp in Ho. apply ITt in Hk. destruct Hk as [tr' Ek'].
      rewrite (KU _ _ _ _ _ Ek Ek'). assert (o' = o) by congruence. subst. eauto.
    - intros [w Hin]. exists o, k, w. split; [apply IPp; auto|]. split; [apply ITt; eauto|auto]. }
  split; [|split; [|split; [|split; [|split; [|split; [|split; [|split]]]]]]].
  - split; [|split].
    + rewrite Q1, P1. apply seq_NoDup.
    + rewrite Q2, combine_fst by (rewrite seq_length, map_length; auto). apply seq_NoDup.
    + rewrite Q3. apply Forall_forall. intros a Ha. destruct (groups_number _ _ _ _ _ Q4 Ha) as (k & t & tr & Ek & Ea). cbn [plus] in Ea.
      destruct (GA k t tr Ek) as (g & G & Gi & Go). rewrite Q3 in Gi, Go.
      assert (Hk : exists t, is_transition m k t) by (exists (tname t); apply ITt; eauto).
      destruct a as [o k' w|k' o w]; cbn in Ea; subst k'.
      * apply Gi in Ha. destruct (g_sound _ _ _ _ _ _ G _ Ha) as [(s & o' & E' & Eo & _)|(s & o' & E' & _)]; [|discriminate].
        injection E' as -> ->. split; [exists (pname s); apply IPp; auto|auto].
      * apply Go in Ha. destruct (g_sound _ _ _ _ _ _ G _ Ha) as [(s & o' & E' & _)|(s & o' & E' & Eo & _)]; [discriminate|].
        injection E' as -> ->. split; [exists (pname s); apply IPp; auto|auto].
  - split.
    + rewrite Q1, P2. apply NoDup_map_inj; [apply pname_inj|apply (w_places n W)].
    + rewrite <- (map_map snd fst), Q2, combine_snd by (rewrite seq_length, map_length; auto). rewrite map_map.
      replace (map _ (transitions n)) with (map tname (keys (transitions n))).
      * apply NoDup_map_inj; [apply tname_inj|apply (w_trans n W)].
      * unfold keys. rewrite map_map. apply map_ext. intros [? ?]. auto.
  - split; [rewrite Q3; eapply groups_NoDup; eauto|]. rewrite Q3. apply Forall_forall. intros a Ha.
    destruct (groups_number _ _ _ _ _ Q4 Ha) as (k & t & tr & Ek & Ea). cbn [plus] in Ea.
    destruct (GA k t tr Ek) as (g & G & Gi & Go). rewrite Q3 in Gi, Go.
    destruct a as [o k' w|k' o w]; cbn in Ea; subst k'; [apply Gi in Ha|apply Go in Ha];
    destruct (g_sound _ _ _ _ _ _ G _ Ha) as [(s & o' & E' & _)|(s & o' & E' & _)]; try discriminate; injection E' as -> ->; auto.
  - rewrite Q1. auto.
  - rewrite Q2, combine_snd by (rewrite seq_length, map_length; auto). auto.
  - intros o p Ho. apply IPp in Ho. destruct (M1 o) as [A1 A2]. destruct (M2 o) as [B1 B2]. split; [|split; [|split]].
    + intros Hs. apply A1. exists p. rewrite Iso. auto.
    + intros Hs. rewrite A2; [auto|]. intros (q & Hq & Eq). apply Hs, Iso. rewrite (DI _ _ _ Ho Eq). auto.
    + intros Hs. apply B1. exists p. rewrite Isi. auto.
    + intros Hs. rewrite B2; [auto|]. intros (q & Hq & Eq). apply Hs, Isi. rewrite (DI _ _ _ Ho Eq). auto.
  - intros p t Hn. split.
    + intros A. pose proof A as (o & k & w & Ho & Hk & Hin). apply IPp in Ho. apply ITt in Hk. destruct Hk as [tr Ek].
      destruct (GA k t tr Ek) as (g & G & Gi & _). apply Gi in Hin.
      destruct (g_sound _ _ _ _ _ _ G _ Hin) as [(s & o' & E' & Eo & Hs & He)|(s & o' & E' & _)]; [|discriminate].
      injection E' as -> ->. rewrite (DI _ _ _ Ho Eo). auto.
    + intros [Hs He]. destruct (Sk t (or_intror He)) as (k & tr & Ek). destruct (DP p (w_sp n W t p Hs)) as [o Ho].
      apply (AI p t o k tr Ho Ek). exists 1%Z. destruct (GA k t tr Ek) as (g & G & Gi & _). apply Gi.
      apply (g_in _ _ _ _ _ _ G p o Hs He Ho). intros [-> Hi]. apply Hn. split; [auto|split; auto].
  - intros p t Hn. split.
    + intros A. pose proof A as (o & k & w & Ho & Hk & Hin). apply IPp in Ho. apply ITt in Hk. destruct Hk as [tr Ek].
      destruct (GA k t tr Ek) as (g & G & _ & Go). apply Go in Hin.
      destruct (g_sound _ _ _ _ _ _ G _ Hin) as [(s & o' & E' & _)|(s & o' & E' & Eo & Hs & He)]; [discriminate|].
      injection E' as -> ->. rewrite (DI _ _ _ Ho Eo). auto.
    + intros [Hs He]. destruct (Sk t (or_introl He)) as (k & tr & Ek). destruct (DP p (w_ep n W t p Hs)) as [o Ho].
      apply (AO p t o k tr Ho Ek). exists 1%Z. destruct (GA k t tr Ek) as (g & G & _ & Go). apply Go.
      apply (g_out _ _ _ _ _ _ G p o Hs He Ho). intros [-> Hi]. apply Hn. split; [auto|split; auto].
  - intros t [Hs He]. destruct (Sk t) as (k & tr & Ek); [left; intros X; rewrite X in Hs; destruct Hs|].
    destruct (DP t (w_sp n W t t Hs)) as [o Ho]. rewrite (AI t t o k tr Ho Ek), (AO t t o k tr Ho Ek).
    destruct (GA k t tr Ek) as (g & G & Gi & Go). pose proof (g_loop _ _ _ _ _ _ G o Hs He Ho) as L.
    assert (X1 : (exists w, In (ArcIn o k w) (pm_arcs m)) <-> In (ArcIn o k 1) g).
    { split; [|intros; exists 1%Z; apply Gi; auto]. intros [w Hin]. apply Gi in Hin.
      destruct (g_sound _ _ _ _ _ _ G _ Hin) as [(s & o' & E' & _)|(s & o' & E' & _)]; [|discriminate]. injection E' as -> ->. auto. }
    assert (X2 : (exists w, In (ArcOut k o w) (pm_arcs m)) <-> In (ArcOut k o 1) g).
    { split; [|intros; exists 1%Z; apply Go; auto]. intros [w Hin]. apply Go in Hin.
      destruct (g_sound _ _ _ _ _ _ G _ Hin) as [(s & o' & E' & _)|(s & o' & E' & _)]; [discriminate|]. injection E' as -> ->. auto. }
    rewrite X1, X2. exact L.
Qed.
