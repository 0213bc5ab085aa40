(** Activity patterns, part 11: properties *)
From Coq Require Import String Ascii ZArith Permutation.
From Verif.Model Require Import Base PetriNet ActivityPattern.
From Verif.Spec Require Import PetriSpec ActivityPatternSpec.
From Verif.Lib Require Import ListLib DictLib.
From Verif.Proofs Require Import PetriA PetriC PetriD ApA ApB ApC ApD ApE ApF ApG ApS ApH ApI ApJ ApN ApO.
Open Scope string_scope.
Open Scope list_scope.
Open Scope nat_scope.

Lemma source_not_sink n x y : source n x -> sink n y -> x <> y.
Proof. intros [H _] [_ H'] ->. auto. Qed.
Lemma source_place n x : wf n -> source n x -> has_place n x.
Proof. intros W [H _]. apply before_place; auto. Qed.
Lemma sink_place n x : wf n -> sink n x -> has_place n x.
Proof. intros W [H _]. apply behind_place; auto. Qed.

Definition binary := order -> store -> pattern -> pattern -> result (pattern * store).
Lemma incomplete_dec a b : good a -> good b -> (complete a /\ complete b) \/ ~ (complete a /\ complete b).
Proof.
  intros Ga Gb. destruct (complete_dec a Ga) as [Ca|Ca]; [|right; intros [[[? ?] [? ?]] _]; destruct Ca as [Ca|Ca]; eapply Ca; eauto].
  destruct (complete_dec b Gb) as [Cb|Cb]; [left; auto|right; intros [_ [[? ?] [? ?]]]; destruct Cb as [Cb|Cb]; eapply Cb; eauto].
Qed.

(*P C96 When compositions of activity patterns succeed *)
(** Compositions of patterns fail with a KeyError exactly when one of them has
    no source or no sink, and otherwise succeed or fail with a ValueError. What
    they give is a workflow net. *)
Lemma C96_errors : forall ord st a b (f : order -> store -> pattern -> pattern -> result (pattern * store)),
  any_order ord -> made a -> made b -> In f [sequence; choice; parallel; interleaving] ->
  match f ord st a b with
  | Ok (p, _) => complete a /\ complete b /\ made p /\ is_workflow_net (pnet p) = true
  | Err KeyError => ~ (complete a /\ complete b)
  | Err ValueError => complete a /\ complete b
  | Err _ => False
  end.
Proof.
  intros ord st a b f HO Ma Mb Hf. pose proof (made_good _ Ma) as Ga. pose proof (made_good _ Mb) as Gb.
  destruct (incomplete_dec a b Ga Gb) as [[Ca Cb]|N].
  - destruct Ca as [[s1 S1] [e1 E1]], Cb as [[s2 S2] [e2 E2]].
    assert (H : complete a /\ complete b) by (split; split; eauto).
    assert (F : (f ord st a b = Err ValueError) \/ exists p st', f ord st a b = Ok (p, st') /\ works p).
    { destruct Hf as [<-|[<-|[<-|[<-|[]]]]].
      - destruct (sequence_case ord st a b s1 e1 s2 e2 HO Ga Gb S1 E1 S2 E2) as [[F _]|(p & st' & F & W & _)]; eauto.
      - destruct (choice_case ord st a b s1 e1 s2 e2 HO Ga Gb S1 E1 S2 E2) as [[F _]|(p & st' & F & W & _)]; eauto.
      - destruct (parallel_case ord st a b s1 e1 s2 e2 HO Ga Gb S1 E1 S2 E2) as [[F _]|(p & st' & F & W & _)]; eauto.
      - destruct (interleaving_case ord st a b s1 e1 s2 e2 HO Ga Gb S1 E1 S2 E2) as [[F _]|(p & st' & F & W & _)]; eauto. }
    destruct F as [->|(p & st' & F & W)]; [exact H|]. rewrite F. split; [apply H|]. split; [apply H|]. split; [|apply W].
    destruct Hf as [<-|[<-|[<-|[<-|[]]]]]; [exact (m_sequence _ _ _ _ _ _ Ma Mb HO F)|exact (m_choice _ _ _ _ _ _ Ma Mb HO F)|exact (m_parallel _ _ _ _ _ _ Ma Mb HO F)|exact (m_interleaving _ _ _ _ _ _ Ma Mb HO F)].
  - destruct (composition_fails ord st a b HO Ga Gb N) as (F1 & F2 & F3 & F4).
    destruct Hf as [<-|[<-|[<-|[<-|[]]]]]; rewrite ?F1, ?F2, ?F3, ?F4; exact N.
Qed.
(** A repetition always succeeds, if there is a source and a sink. *)
Lemma C96_repetition : forall ord st a, any_order ord -> made a ->
  (complete a -> exists p st', unbounded_repetition ord st a = Ok (p, st') /\ made p /\ is_workflow_net (pnet p) = true) /\
  (~ complete a -> unbounded_repetition ord st a = Err KeyError).
Proof.
  intros ord st a HO Ma. pose proof (made_good _ Ma) as Ga. split.
  - intros [[s S] [e E]]. destruct (repetition_case ord st a s e HO Ga S E) as (p & st' & F & W & _). exists p, st'. split; [auto|].
    split; [eapply m_repetition; eauto|apply W].
  - intros N. apply repetition_fails; auto.
Qed.
(** A sequence succeeds if no transition has an id like the one of the
    transition between the two patterns. *)
Lemma C96_sequence : forall ord st a b s2 e1, any_order ord -> made a -> made b -> complete a -> complete b ->
  sink (pnet a) e1 -> source (pnet b) s2 ->
  (forall k, let id := (e1 ++ "," ++ quoted s2 k)%string in ~ has_transition (pnet a) id /\ unlike (pnet b) id) ->
  exists p st', sequence ord st a b = Ok (p, st').
Proof.
  intros ord st a b s2 e1 HO Ma Mb [[s1 S1] _] [_ [e2 E2]] E1 S2 H. pose proof (made_good _ Ma) as Ga. pose proof (made_good _ Mb) as Gb.
  destruct (sequence_case ord st a b s1 e1 s2 e2 HO Ga Gb S1 E1 S2 E2) as [[_ [k Hk]]|(p & st' & F & _)]; [|eauto].
  exfalso. destruct (H k) as [H1 H2]. destruct Hk as [Hk|(u & j & Hu & Hk)]; [auto|]. exact (H2 u j Hu Hk).
Qed.
(** Patterns without commas in their ids can be composed: always in sequence
    and as a choice, in parallel if the source of the first has not the id of
    a transition, and interleaved if no id ends with an underscore. *)
Lemma C96_plain : forall ord st a b, any_order ord -> made a -> made b -> complete a -> complete b -> plain a -> plain b ->
  (exists p st', sequence ord st a b = Ok (p, st')) /\
  (exists p st', choice ord st a b = Ok (p, st')) /\
  (forall s1, source (pnet a) s1 -> ~ has_transition (pnet a) s1 -> unlike (pnet b) s1 -> exists p st', parallel ord st a b = Ok (p, st')) /\
  (no_underscore a -> no_underscore b -> exists p st', interleaving ord st a b = Ok (p, st')).
Proof.
  intros ord st a b HO Ma Mb [[s1 S1] [e1 E1]] [[s2 S2] [e2 E2]] Pa Pb. pose proof (made_good _ Ma) as Ga. pose proof (made_good _ Mb) as Gb.
  assert (n1 : no_comma s1) by (apply Pa; left; apply source_place; auto; apply Ga). assert (n2 : no_comma e1) by (apply Pa; left; apply sink_place; auto; apply Ga).
  assert (n3 : forall k, no_comma (quoted s2 k)) by (intros; apply no_comma_quoted, Pb; left; apply source_place; auto; apply Gb).
  assert (n4 : forall k, no_comma (quoted e2 k)) by (intros; apply no_comma_quoted, Pb; left; apply sink_place; auto; apply Gb).
  assert (cp : forall x u v, old_p a b x -> x <> (u ++ "," ++ v)%string) by (intros x u v H ->; apply (comma_app u v), (old_no_comma_p a b); auto).
  assert (ct : forall x u v, old_t a b x -> x <> (u ++ "," ++ v)%string) by (intros x u v H ->; apply (comma_app u v), (old_no_comma_t a b); auto).
  split; [|split; [|split]].
  - destruct (sequence_case ord st a b s1 e1 s2 e2 HO Ga Gb S1 E1 S2 E2) as [[_ [k Hk]]|(p & st' & F & _)]; [|eauto].
    exfalso. exact (ct _ _ _ Hk eq_refl).
  - destruct (choice_case ord st a b s1 e1 s2 e2 HO Ga Gb S1 E1 S2 E2) as [[_ (k & j & ND & H)]|(p & st' & F & _)]; [|eauto].
    exfalso. cbv zeta in H. destruct H as [H|(e & He & H)]; [exact (cp _ _ _ H eq_refl)|].
    assert (d1 : e1 <> s1 /\ quoted e2 j <> s1).
    { inversion ND as [|? ? N1 N2]; subst. cbn in N1. split; intros Q; apply N1; rewrite <- Q; auto. }
    destruct He as [->| ->]; destruct H as [H|H]; try exact (cp _ _ _ H eq_refl); apply split_comma in H; auto; destruct H as [H _]; destruct d1; congruence.
  - intros s1' S1' N1 N2. assert (s1' = s1) by (apply (g_src _ Ga); auto). subst s1'.
    destruct (parallel_case ord st a b s1 e1 s2 e2 HO Ga Gb S1 E1 S2 E2) as [[_ (k & j & H)]|(p & st' & F & _)]; [|eauto].
    exfalso. cbv zeta in H. destruct H as [H|[H|[H|[H|[H|H]]]]].
    + exact (cp _ _ _ H eq_refl).
    + destruct H as [H|(u & i & Hu & H)]; [auto|]. exact (N2 u i Hu H).
    + apply split_comma in H; auto. destruct H as [H _]. exact (source_not_sink _ _ _ S1 E1 (eq_sym H)).
    + exact (cp _ _ _ H eq_refl).
    + apply (comma_app e1 (quoted e2 j)). rewrite H. auto.
    + exact (ct _ _ _ H eq_refl).
  - intros Na Nb. destruct (interleaving_case ord st a b s1 e1 s2 e2 HO Ga Gb S1 E1 S2 E2) as [[_ (k & j & ND & H)]|(p & st' & F & _)]; [|eauto].
    exfalso. cbv zeta in H. specialize (n3 k). specialize (n4 j). set (q2 := quoted s2 k) in *. set (f2 := quoted e2 j) in *.
    assert (c1 : forall u, ~ no_comma ((s1 ++ "," ++ q2) ++ u)%string).
    { intros u Hc. apply Hc. rewrite !chars_app, !in_app_iff. left. right. left. cbn. auto. }
    assert (dist : s1 <> e1 /\ s1 <> q2 /\ s1 <> f2 /\ e1 <> q2 /\ e1 <> f2 /\ q2 <> f2).
    { inversion ND as [|? ? N1 ND1]; subst. inversion ND1 as [|? ? N2 ND2]; subst. inversion ND2 as [|? ? N3 ND3]; subst. cbn in *. intuition. }
    destruct dist as (d1 & d2 & d3 & d4 & d5 & d6).
    assert (eps : (s1 ++ "," ++ q2 ++ ",px")%string = ((s1 ++ "," ++ q2) ++ ",px")%string).
    { apply chars_inj. rewrite !chars_app, <- !app_assoc. auto. }
    destruct H as [H|(x & Hx & H)].
    + apply H. assert (u : forall x, no_comma x -> no_comma (x ++ "_")%string) by apply no_comma_underscore.
      assert (a1 : forall x v w, no_comma x -> (x ++ "_")%string <> (v ++ "," ++ w)%string) by (intros x v w Hx Q; apply (comma_app v w); rewrite <- Q; auto).
      assert (a2 : forall x v, no_comma x -> (x ++ "_")%string <> ((s1 ++ "," ++ q2) ++ v)%string) by (intros x v Hx Q; apply (c1 v); rewrite <- Q; auto).
      assert (b1 : (s1 ++ "," ++ q2)%string <> (e1 ++ "," ++ f2)%string) by (intros Q; apply split_comma in Q; auto; destruct Q; auto).
      assert (b2 : (e1 ++ "," ++ f2)%string <> ((s1 ++ "," ++ q2) ++ ",px")%string) by (rewrite <- eps; intros Q; apply split_comma in Q; auto; destruct Q; auto).
      assert (b3 : (s1 ++ "," ++ q2)%string <> ((s1 ++ "," ++ q2) ++ ",px")%string).
      { rewrite <- eps. intros Q. apply split_comma in Q; auto. destruct Q as [_ Q]. revert n3. rewrite Q. change ",px" with ("," ++ "px")%string. apply comma_app. }
      assert (b4 : forall x y, x <> y -> (x ++ "_")%string <> (y ++ "_")%string) by (intros x y Hn Q; apply Hn, app_underscore_inj; auto).
      repeat (constructor; [cbn [In]; intros Q; decompose [or] Q; clear Q; try contradiction;
        match goal with Q : _ = _ |- _ => first [exact (b1 Q)|exact (b1 (eq_sym Q))|exact (b2 Q)|exact (b2 (eq_sym Q))|exact (b3 Q)|exact (b3 (eq_sym Q))
          |refine (a1 _ _ _ _ Q); assumption|refine (a1 _ _ _ _ (eq_sym Q)); assumption|refine (a2 _ _ _ Q); assumption|refine (a2 _ _ _ (eq_sym Q)); assumption
          |refine (b4 _ _ _ Q); auto] end|]). constructor; [cbn; tauto|constructor].
    + cbn [In] in Hx. decompose [or] Hx; clear Hx; try contradiction; subst x.
      * destruct H as [H|H]; [exact (cp _ _ _ H eq_refl)|exact (ct _ _ _ H eq_refl)].
      * destruct H as [H|H]; [exact (cp _ _ _ H eq_refl)|exact (ct _ _ _ H eq_refl)].
      * rewrite <- eps in H. destruct H as [H|H]; [exact (cp _ _ _ H eq_refl)|exact (ct _ _ _ H eq_refl)].
      * destruct H as [H|H]; [exact (old_no_underscore_p _ _ _ Na Nb H)|exact (old_no_underscore_t _ _ _ Na Nb H)].
      * destruct H as [H|H]; [exact (old_no_underscore_p _ _ _ Na Nb H)|exact (old_no_underscore_t _ _ _ Na Nb H)].
      * destruct H as [H|H]; [exact (old_no_underscore_p _ _ _ Na Nb H)|exact (old_no_underscore_t _ _ _ Na Nb H)].
      * destruct H as [H|H]; [exact (old_no_underscore_p _ _ _ Na Nb H)|exact (old_no_underscore_t _ _ _ Na Nb H)].
Qed.

(** the source and the sink of what was composed *)
Lemma parts_complete ord st a b (f : binary) p st' : any_order ord -> good a -> good b -> In f [sequence; choice; parallel; interleaving] ->
  f ord st a b = Ok (p, st') -> complete a /\ complete b.
Proof.
  intros HO Ga Gb Hf E. destruct (incomplete_dec a b Ga Gb) as [|N]; [auto|].
  destruct (composition_fails ord st a b HO Ga Gb N) as (F1 & F2 & F3 & F4). destruct Hf as [<-|[<-|[<-|[<-|[]]]]]; congruence.
Qed.

(*P C97 Words of composed activity patterns *)
(** A word of the first pattern and a word of the second pattern one after the
    other are a word of the sequence, and there are no others if the first
    pattern never puts two tokens on its sink. *)
Lemma C97_sequence : forall ord st a b p st', any_order ord -> made a -> made b -> sequence ord st a b = Ok (p, st') ->
  (forall st u v, speaks st a u -> speaks st b v -> speaks st p (u ++ v)) /\
  (forall st w, connected (pnet a) -> connected (pnet b) -> ends_once st a ->
    speaks st p w -> exists u v, w = u ++ v /\ speaks st a u /\ speaks st b v).
Proof.
  intros ord st a b p st' HO Ma Mb E. pose proof (made_good _ Ma) as Ga. pose proof (made_good _ Mb) as Gb.
  destruct (parts_complete ord st a b sequence p st' HO Ga Gb ltac:(cbn; auto) E) as [[[s1 S1] [e1 E1]] [[s2 S2] [e2 E2]]].
  destruct (sequence_case ord st a b s1 e1 s2 e2 HO Ga Gb S1 E1 S2 E2) as [[F _]|(p' & st'' & F & _ & _ & _ & H1 & H2)]; [congruence|].
  assert (p' = p) by congruence. subst p'. split; [exact H1|exact H2].
Qed.
(** The words of a choice are those of the one and those of the other. *)
Lemma C97_choice : forall ord st a b p st', any_order ord -> made a -> made b -> choice ord st a b = Ok (p, st') ->
  connected (pnet a) -> connected (pnet b) -> forall st w, speaks st p w <-> speaks st a w \/ speaks st b w.
Proof.
  intros ord st a b p st' HO Ma Mb E Ca Cb. pose proof (made_good _ Ma) as Ga. pose proof (made_good _ Mb) as Gb.
  destruct (parts_complete ord st a b choice p st' HO Ga Gb ltac:(cbn; auto) E) as [[[s1 S1] [e1 E1]] [[s2 S2] [e2 E2]]].
  destruct (choice_case ord st a b s1 e1 s2 e2 HO Ga Gb S1 E1 S2 E2) as [[F _]|(p' & st'' & F & _ & _ & _ & H)]; [congruence|].
  assert (p' = p) by congruence. subst p'. intros st0 w. apply H; auto.
Qed.
(** The words of a parallel net are the interleavings of the words of both. *)
Lemma C97_parallel : forall ord st a b p st', any_order ord -> made a -> made b -> parallel ord st a b = Ok (p, st') ->
  forall st w, speaks st p w <-> exists u v, shuffle u v w /\ speaks st a u /\ speaks st b v.
Proof.
  intros ord st a b p st' HO Ma Mb E. pose proof (made_good _ Ma) as Ga. pose proof (made_good _ Mb) as Gb.
  destruct (parts_complete ord st a b parallel p st' HO Ga Gb ltac:(cbn; auto) E) as [[[s1 S1] [e1 E1]] [[s2 S2] [e2 E2]]].
  destruct (parallel_case ord st a b s1 e1 s2 e2 HO Ga Gb S1 E1 S2 E2) as [[F _]|(p' & st'' & F & _ & _ & _ & H)]; [congruence|].
  assert (p' = p) by congruence. subst p'. exact H.
Qed.
(** One or more words of a pattern one after the other are a word of its
    repetition, and there are no others if nothing is left behind in the
    pattern when a token arrives at its sink. *)
Lemma C97_repetition : forall ord st a p st', any_order ord -> made a -> unbounded_repetition ord st a = Ok (p, st') ->
  (forall st w, repeated (speaks st a) w -> speaks st p w) /\
  (forall st w, connected (pnet a) -> ends_clean st a -> speaks st p w -> repeated (speaks st a) w).
Proof.
  intros ord st a p st' HO Ma E. pose proof (made_good _ Ma) as Ga.
  destruct (incomplete_dec a a Ga Ga) as [[[[s S] [e En]] _]|N]; [|rewrite repetition_fails in E; [discriminate|auto..]; intros H; auto].
  destruct (repetition_case ord st a s e HO Ga S En) as (p' & st'' & F & _ & _ & _ & H1 & H2). assert (p' = p) by congruence. subst p'. auto.
Qed.
Lemma assembled_made x p : assembled x p -> made p.
Proof. induction 1; [auto|eapply m_sequence|eapply m_choice|eapply m_parallel|eapply m_repetition]; [exact IHassembled1|exact IHassembled2|eauto|eauto|exact IHassembled1|exact IHassembled2|eauto|eauto|exact IHassembled1|exact IHassembled2|eauto|eauto|exact IHassembled|eauto|eauto]. Qed.
Lemma repeated_iff {X} (L L' : list X -> Prop) w : (forall w, L w <-> L' w) -> repeated L w <-> repeated L' w.
Proof. intros H. split; induction 1; [apply rp_one|apply rp_more|apply rp_one|apply rp_more]; auto; apply H; auto. Qed.
(** However sequences, choices, parallel nets and repetitions are nested: the
    words of the net are the words that the nesting should have, and nothing is
    ever left behind when a token arrives at the sink. *)
Lemma C97_nested : forall st x p, assembled x p -> (forall a, In a (tree_leaves x) -> connected (pnet a) /\ ends_clean st a) ->
  connected (pnet p) /\ ends_clean st p /\ forall w, speaks st p w <-> words st x w.
Proof.
  intros st x p A. induction A as [p M|ord st1 x y a b p st' Ax IHx Ay IHy HO E|ord st1 x y a b p st' Ax IHx Ay IHy HO E|ord st1 x y a b p st' Ax IHx Ay IHy HO E|ord st1 x a p st' Ax IHx HO E]; intros H; cbn [tree_leaves words] in *.
  - destruct (H p) as [H1 H2]; [cbn; auto|]. split; [auto|split; [auto|tauto]].
  - destruct IHx as (Ca & La & Wa); [intros; apply H, in_app_iff; auto|]. destruct IHy as (Cb & Lb & Wb); [intros; apply H, in_app_iff; auto|].
    pose proof (made_good _ (assembled_made _ _ Ax)) as Ga. pose proof (made_good _ (assembled_made _ _ Ay)) as Gb.
    destruct (parts_complete ord st1 a b sequence p st' HO Ga Gb ltac:(cbn; auto) E) as [[[s1 S1] [e1 E1]] [[s2 S2] [e2 E2]]].
    destruct (sequence_case ord st1 a b s1 e1 s2 e2 HO Ga Gb S1 E1 S2 E2) as [[F _]|(p' & st'' & F & _ & HC & HL & H1 & H2)]; [congruence|].
    assert (p' = p) by congruence. subst p'. split; [auto|]. split; [auto|]. intros w. split.
    + intros Hw. apply H2 in Hw; auto using clean_once. destruct Hw as (u & v & -> & Hu & Hv). exists u, v. rewrite <- Wa, <- Wb. auto.
    + intros (u & v & -> & Hu & Hv). apply H1; [apply Wa|apply Wb]; auto.
  - destruct IHx as (Ca & La & Wa); [intros; apply H, in_app_iff; auto|]. destruct IHy as (Cb & Lb & Wb); [intros; apply H, in_app_iff; auto|].
    pose proof (made_good _ (assembled_made _ _ Ax)) as Ga. pose proof (made_good _ (assembled_made _ _ Ay)) as Gb.
    destruct (parts_complete ord st1 a b choice p st' HO Ga Gb ltac:(cbn; auto) E) as [[[s1 S1] [e1 E1]] [[s2 S2] [e2 E2]]].
    destruct (choice_case ord st1 a b s1 e1 s2 e2 HO Ga Gb S1 E1 S2 E2) as [[F _]|(p' & st'' & F & _ & HC & HL & H1)]; [congruence|].
    assert (p' = p) by congruence. subst p'. split; [auto|]. split; [auto|]. intros w. rewrite H1, Wa, Wb by auto. tauto.
  - destruct IHx as (Ca & La & Wa); [intros; apply H, in_app_iff; auto|]. destruct IHy as (Cb & Lb & Wb); [intros; apply H, in_app_iff; auto|].
    pose proof (made_good _ (assembled_made _ _ Ax)) as Ga. pose proof (made_good _ (assembled_made _ _ Ay)) as Gb.
    destruct (parts_complete ord st1 a b parallel p st' HO Ga Gb ltac:(cbn; auto) E) as [[[s1 S1] [e1 E1]] [[s2 S2] [e2 E2]]].
    destruct (parallel_case ord st1 a b s1 e1 s2 e2 HO Ga Gb S1 E1 S2 E2) as [[F _]|(p' & st'' & F & _ & HC & HL & H1)]; [congruence|].
    assert (p' = p) by congruence. subst p'. split; [auto|]. split; [auto|]. intros w. rewrite H1. split; intros (u & v & S & Hu & Hv); exists u, v; split; auto; split; [apply Wa|apply Wb|apply Wa|apply Wb]; auto.
  - destruct IHx as (Ca & La & Wa); [auto|]. pose proof (made_good _ (assembled_made _ _ Ax)) as Ga.
    destruct (incomplete_dec a a Ga Ga) as [[[[s S] [e En]] _]|N]; [|rewrite repetition_fails in E; [discriminate|auto..]; intros Hc; auto].
    destruct (repetition_case ord st1 a s e HO Ga S En) as (p' & st'' & F & _ & HC & HL & H1 & H2). assert (p' = p) by congruence. subst p'.
    split; [auto|]. split; [auto|]. intros w. rewrite (repeated_iff (words st x) (speaks st a)) by (intros; symmetry; apply Wa). split; auto.
Qed.
