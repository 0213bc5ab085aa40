(** Events with sub-events: C149 *)
From Coq Require Import String ZArith Lia.
From Verif.Model Require Import Base EventLog ComplexEvents.
From Verif.Spec Require Import EventLogSpec ComplexEventSpec.
From Verif.Proofs Require Import EventLogC.
Open Scope list_scope.
Open Scope nat_scope.

Lemma Forall2_length {X Y} (R : X -> Y -> Prop) l m : Forall2 R l m -> length l = length m.
Proof. induction 1; cbn; auto. Qed.

Section C.
  Context {A V I : Type} `{EA : Eq A} `{EV : Eq V}.
  Notation any := (any_event A V).

  Lemma any_ind' (P : any -> Prop) : (forall e, P (Simple e)) -> (forall a d tr cs, Forall P cs -> P (Complex a d tr cs)) -> forall x, P x.
  Proof.
    intros H1 H2. fix IH 1. intros [e|a d tr cs]; [apply H1|]. apply H2. induction cs as [|c cs IHc]; constructor; auto.
  Qed.
  Lemma eqb_false (a b : A) : eqb a b = false -> a <> b.
  Proof. destruct (eqb_ok a b); congruence. Qed.

  (** elements *)
  Definition says {X} (eq : X -> X -> result bool) (same cl : X -> X -> Prop) (x y : X) : Prop :=
    (eq x y = Ok true <-> same x y) /\ (forall r, eq x y = Err r <-> r = AttributeError /\ cl x y).
  Lemma first_pair_cons {X} (same cl : X -> X -> Prop) x l y m :
    first_pair same cl (x :: l) (y :: m) <-> cl x y /\ length l = length m \/ same x y /\ first_pair same cl l m.
  Proof.
    split.
    - intros (l1 & x0 & l2 & m1 & y0 & m2 & E1 & E2 & F & Ln & C). destruct F as [|x1 y1 l1 m1 S F]; cbn in E1, E2; injection E1 as -> ->; injection E2 as -> ->; auto.
      right. split; auto. exists l1, x0, l2, m1, y0, m2. auto.
    - intros [[C L]|[S (l1 & x0 & l2 & m1 & y0 & m2 & -> & -> & F & Ln & C)]].
      + exists [], x, l, [], y, m. repeat split; auto.
      + exists (x :: l1), x0, l2, (y :: m1), y0, m2. repeat split; auto.
  Qed.
  Lemma says_elements {X} (eq : X -> X -> result bool) same cl (l m : list X) :
    length l = length m -> (forall x y, In x l -> In y m -> says eq same cl x y) ->
    (compare_elements eq l m = Ok true <-> Forall2 same l m) /\
    (forall r, compare_elements eq l m = Err r <-> r = AttributeError /\ first_pair same cl l m).
  Proof.
    revert m. induction l as [|x l IH]; intros [|y m] L H; cbn in L; try discriminate; cbn [compare_elements].
    - split; [split; constructor|]. intros r. split; [discriminate|]. intros (_ & l1 & x & l2 & m1 & y & m2 & E & _). destruct l1; discriminate.
    - destruct (H x y) as [H1 H2]; cbn; auto. destruct (IH m) as [I1 I2]; [lia|intros; apply H; cbn; auto|].
      assert (L' : length l = length m) by lia.
      destruct (eq x y) as [[|]|r0] eqn:E; cbn [bind].
      + assert (S : same x y) by (apply H1; auto). assert (NC : ~ cl x y) by (intros C; specialize (H2 AttributeError); intuition discriminate).
        split; [rewrite I1; split; [intros F; constructor; auto|intros F; inversion F; auto]|].
        intros r. rewrite I2, first_pair_cons. tauto.
      + assert (S : ~ same x y) by (intros S; apply H1 in S; discriminate). assert (NC : ~ cl x y) by (intros C; specialize (H2 AttributeError); intuition discriminate).
        split; [split; [discriminate|intros F; inversion F; tauto]|]. intros r. rewrite first_pair_cons. split; [discriminate|tauto].
      + assert (S : ~ same x y) by (intros S; apply H1 in S; discriminate). destruct (proj1 (H2 r0) eq_refl) as [-> C].
        split; [split; [discriminate|intros F; inversion F; tauto]|]. intros r. rewrite first_pair_cons. split; [intros E'; injection E' as <-; auto|intros [-> _]; auto].
  Qed.
  Lemma says_lists {X} (eq : X -> X -> result bool) same cl (l m : list X) : (forall x y, In x l -> In y m -> says eq same cl x y) ->
    (compare_lists eq l m = Ok true <-> Forall2 same l m) /\
    (forall r, compare_lists eq l m = Err r <-> r = AttributeError /\ first_pair same cl l m).
  Proof.
    intros H. unfold compare_lists. destruct (Nat.eqb_spec (length l) (length m)) as [L|L]; [apply says_elements; auto|].
    split; [split; [discriminate|intros F; apply Forall2_length in F; tauto]|]. intros r. split; [discriminate|].
    intros (_ & l1 & x0 & l2 & m1 & y0 & m2 & -> & -> & F & Ln & C). destruct L. apply Forall2_length in F. rewrite !app_length. cbn. lia.
  Qed.
  Lemma says_events : forall x y : any, proper x -> proper y -> says compare_events same_any clash x y.
  Proof.
    induction x as [e|a d tr cs IH] using any_ind'; intros [f|b d' tr' cs'] Px Py; cbn [compare_events].
    - inversion Px; subst. inversion Py; subst. unfold says. cbn [compare_events]. split.
      + split; [intros E; constructor; apply event_eqb_iff; congruence|intros S; inversion S; subst; f_equal; apply event_eqb_iff; auto].
      + intros r. split; [discriminate|]. intros [_ C]. inversion C.
    - unfold says. cbn [compare_events]. destruct (eqb_ok b (activity e)) as [->|N].
      + split; [split; [discriminate|intros S; inversion S]|]. intros r. split; [intros E; injection E as <-; split; auto; constructor; auto|intros [-> _]; auto].
      + split; [split; [discriminate|intros S; inversion S]|]. intros r. split; [discriminate|intros [_ C]; inversion C; tauto].
    - unfold says. cbn [compare_events]. destruct (eqb_ok a (activity f)) as [->|N].
      + split; [split; [discriminate|intros S; inversion S]|]. intros r. split; [intros E; injection E as <-; split; auto; constructor; auto|intros [-> _]; auto].
      + split; [split; [discriminate|intros S; inversion S]|]. intros r. split; [discriminate|intros [_ C]; inversion C; tauto].
    - inversion Px as [|? ? ? ? Pd Pc]; subst. inversion Py as [|? ? ? ? Pd' Pc']; subst. rewrite Forall_forall in IH, Pc, Pc'.
      unfold says. cbn [compare_events]. fold (compare_lists compare_events cs cs').
      destruct (says_lists compare_events same_any clash cs cs') as [L1 L2]; [intros x y Hx Hy; apply IH; auto|].
      destruct (eqb_ok a b) as [<-|N]; [|split; [split; [discriminate|intros S; inversion S; tauto]|]; intros r; split; [discriminate|intros [_ C]; inversion C; tauto]].
      destruct (compare_lists compare_events cs cs') as [[|]|r0]; cbn [bind].
      + split.
        * split; [intros E; constructor; [apply attrs_eqb_iff; auto; congruence|apply L1; auto]|].
          intros S; inversion S; subst. f_equal. apply attrs_eqb_iff; auto.
        * intros r. split; [discriminate|]. intros [_ C]. assert (E : Ok true = Err (A:=bool) AttributeError); [|discriminate]. apply L2. split; auto.
          inversion C; subst. do 6 eexists. repeat split; eauto.
      + split; [split; [discriminate|]; intros S; inversion S; subst; apply L1; auto|].
        intros r. split; [discriminate|]. intros [_ C]. assert (E : Ok false = Err (A:=bool) AttributeError); [|discriminate]. apply L2. split; auto.
        inversion C; subst. do 6 eexists. repeat split; eauto.
      + destruct (proj1 (L2 r0) eq_refl) as [-> (l1 & x0 & l2 & m1 & y0 & m2 & -> & -> & F & Ln & C)].
        split; [split; [discriminate|]; intros S; inversion S; subst; apply L1; auto|].
        intros r. split; [intros E; injection E as <-; split; auto; constructor; auto|intros [-> _]; auto].
  Qed.
  Lemma same_any_refl : forall x : any, same_any x x.
  Proof.
    induction x as [e|a d tr cs IH] using any_ind'; constructor; try (intros k; reflexivity).
    - repeat split.
    - induction IH; constructor; auto.
  Qed.
  Lemma same_any_sym : forall x y : any, same_any x y -> same_any y x.
  Proof.
    induction x as [e|a d tr cs IH] using any_ind'; intros y S; inversion S; subst; constructor.
    - destruct H0 as (H1 & H2 & H3). repeat split; auto. intros k. auto.
    - intros k. auto.
    - clear - IH H5. revert IH. induction H5; intros F; inversion F; subst; constructor; auto.
  Qed.
  Lemma same_any_trans : forall x y z : any, same_any x y -> same_any y z -> same_any x z.
  Proof.
    induction x as [e|a d tr cs IH] using any_ind'; intros y z S T; inversion S; subst; inversion T; subst; constructor.
    - match goal with E1 : same_event e _, E2 : same_event _ _ |- _ => destruct E1 as (K1 & K2 & K3), E2 as (K4 & K5 & K6) end. repeat split; try congruence.
    - intros k. rewrite H4. auto.
    - match goal with F1 : Forall2 same_any cs ?m, F2 : Forall2 same_any ?m ?m2 |- _ => clear - IH F1 F2; revert IH m2 F2; induction F1; intros F ? G; inversion F; subst; inversion G; subst; constructor; eauto end.
  Qed.
  Lemma clash_sym : forall x y : any, clash x y -> clash y x.
  Proof.
    induction x as [e|a d tr cs IH] using any_ind'; intros y C; inversion C; subst; constructor; auto.
    - clear - H4. induction H4; constructor; auto. apply same_any_sym. auto.
    - rewrite Forall_forall in IH. apply IH; auto. apply in_elt.
  Qed.
End C.

(*P C149 Comparisons of events with sub-events *)
(** [complex_event] *)
Lemma C149_create : forall (A V : Type) (a : A) (cs : list (any_event A V)) d tr,
  (cs = [] -> complex_event a cs d tr = Err ValueError) /\ (cs <> [] -> complex_event a cs d tr = Ok (Complex a d tr cs)).
Proof. intros A V a [|c cs] d tr; split; auto; congruence. Qed.
(** which events are equal *)
Lemma C149_equal : forall (A V : Type) (EA : Eq A) (EV : Eq V) (x y : any_event A V), proper x -> proper y ->
  compare_events x y = Ok true <-> same_any x y.
Proof. intros A V EA EV x y Px Py. apply says_events; auto. Qed.
(** the comparison raises an exception exactly if an event with sub-events
    meets one without them *)
Lemma C149_raises : forall (A V : Type) (EA : Eq A) (EV : Eq V) (x y : any_event A V) r, proper x -> proper y ->
  compare_events x y = Err r <-> r = AttributeError /\ clash x y.
Proof. intros A V EA EV x y r Px Py. apply says_events; auto. Qed.
(** it does not matter which one is on the left, and being equal is an
    equivalence *)
Lemma C149_equivalence : forall (A V : Type) (EA : Eq A) (EV : Eq V) (x y z : any_event A V), proper x -> proper y -> proper z ->
  compare_events x x = Ok true /\ compare_events x y = compare_events y x /\
  (compare_events x y = Ok true -> compare_events y z = Ok true -> compare_events x z = Ok true).
Proof.
  intros A V EA EV x y z Px Py Pz. split; [apply says_events; auto; apply same_any_refl|]. split.
  - destruct (says_events x y Px Py) as [S1 E1], (says_events y x Py Px) as [S2 E2].
    destruct (compare_events x y) as [[|]|r] eqn:Exy.
    + symmetry. apply S2, same_any_sym, S1. auto.
    + destruct (compare_events y x) as [[|]|r]; auto.
      * assert (E : Ok false = Ok true) by (apply S1, same_any_sym, S2; auto). discriminate.
      * destruct (proj1 (E2 r) eq_refl) as [-> C]. assert (E : Ok false = Err (A:=bool) AttributeError) by (apply E1; split; auto; apply clash_sym; auto). discriminate.
    + symmetry. destruct (proj1 (E1 r) eq_refl) as [-> C]. apply E2. split; auto. apply clash_sym; auto.
  - intros H1 H2. apply says_events; auto. apply says_events in H1, H2; auto. eapply same_any_trans; eauto.
Qed.
(** equal events have equal hashes *)
Lemma C149_hash : forall (A V : Type) (EA : Eq A) (EV : Eq V) hash_name (hash_pair : A -> attrs V -> Z) (x y : any_event A V), proper x -> proper y ->
  (forall a d e, same_attrs d e -> hash_pair a d = hash_pair a e) -> compare_events x y = Ok true ->
  hash_event hash_name hash_pair x = hash_event hash_name hash_pair y.
Proof.
  intros A V EA EV hn hp x y Px Py Hh E. apply says_events in E; auto. destruct E as [e f (E1 & _ & E3)|]; cbn [hash_event]; auto. rewrite E1. auto.
Qed.
(** traces: events, then attributes *)
Lemma C149_traces : forall (A V I : Type) (EA : Eq A) (EV : Eq V) (t u : any_trace A V I), proper_any_trace t -> proper_any_trace u ->
  (compare_traces t u = Ok true <-> Forall2 same_any (at_events t) (at_events u) /\ same_attrs (at_attrs t) (at_attrs u)) /\
  (forall r, compare_traces t u = Err r <-> r = AttributeError /\ first_pair same_any clash (at_events t) (at_events u)).
Proof.
  intros A V I EA EV t u [Pd Pt] [Pd' Pu]. rewrite Forall_forall in Pt, Pu. unfold compare_traces.
  destruct (says_lists compare_events same_any clash (at_events t) (at_events u)) as [L1 L2]; [intros x y Hx Hy; apply says_events; auto|].
  rewrite <- L1. split.
  - destruct (compare_lists compare_events (at_events t) (at_events u)) as [[|]|r]; cbn [bind]; try (split; [discriminate|intros [E _]; discriminate]).
    split; [intros E; split; auto; apply attrs_eqb_iff; auto; congruence|intros [_ E]; f_equal; apply attrs_eqb_iff; auto].
  - intros r. rewrite <- L2. destruct (compare_lists compare_events (at_events t) (at_events u)) as [[|]|r0]; cbn [bind]; split; intros E; try discriminate; congruence.
Qed.
(** events and traces read back from dictionaries have lost the sub-events, and
    cannot be compared with the original if there were any *)
Lemma C149_reread : forall (A V : Type) (EA : Eq A) (EV : Eq V) (x : any_event A V), proper x ->
  (is_complex x -> compare_events x (reread_event x) = Err AttributeError) /\
  (~ is_complex x -> compare_events x (reread_event x) = Ok (match x with Simple e => match transition e with None => true | Some _ => false end | _ => false end)).
Proof.
  intros A V EA EV [e|a d tr cs] Px; cbn [is_complex]; split; try tauto; intros _; cbn [reread_event compare_events activity_name attributes].
  - inversion Px; subst. f_equal. unfold event_eqb. cbn [activity ev_attrs transition]. destruct (eqb_ok (activity e) (activity e)); [|congruence].
    assert (Ea : attrs_eqb (ev_attrs e) (ev_attrs e) = true) by (apply attrs_eqb_iff; auto; intros k; reflexivity). rewrite Ea, andb_true_r. cbn [andb].
    destruct (transition e); reflexivity.
  - cbn [activity]. destruct (eqb_ok a a); [auto|congruence].
Qed.
Lemma C149_reread_trace : forall (A V I : Type) (EA : Eq A) (EV : Eq V) (t u : any_trace A V I), proper_any_trace t ->
  reread_trace t = Ok u -> Forall (fun x => match x with Simple e => transition e = None | _ => True end) (at_events t) ->
  compare_traces t u = if existsb (fun x => match x with Simple _ => false | _ => true end) (at_events t) then Err AttributeError else Ok true.
Proof.
  intros A V I EA EV [i es d] u [Pd Pt] E Ft. cbn [at_events at_attrs] in *. unfold reread_trace in E. cbn [at_events at_attrs at_id] in E.
  assert (Eu : u = AnyTrace i (map reread_event es) d) by (destruct es; [discriminate|injection E as <-; auto]). subst u. clear E.
  unfold compare_traces, compare_lists. cbn [at_events at_attrs]. rewrite map_length, Nat.eqb_refl.
  assert (Ed : attrs_eqb d d = true) by (apply attrs_eqb_iff; auto; intros k; reflexivity). rewrite Ed.
  induction es as [|x es IH]; cbn [map compare_elements existsb]; auto. inversion Pt; subst. inversion Ft; subst.
  destruct (C149_reread A V EA EV x H1) as [R1 R2]. destruct x as [e|a dd tr cs]; cbn [is_complex] in *.
  - rewrite R2 by auto. rewrite H3. cbn [bind orb]. apply IH; auto.
  - rewrite R1 by auto. auto.
Qed.
