(** Activity patterns, part 2: nets put side by side and connected *)
From Coq Require Import String ZArith Permutation.
From Verif.Model Require Import Base PetriNet ActivityPattern.
From Verif.Spec Require Import PetriSpec ActivityPatternSpec.
From Verif.Lib Require Import ListLib DictLib.
From Verif.Proofs Require Import PetriA PetriC ApA.
Open Scope string_scope.
Open Scope list_scope.
Open Scope nat_scope.

(** new ids *)
Lemma fresh_ok l : forall ex, exists m, fresh_ids l ex = Ok m /\ keys m = l /\ NoDup (values m) /\
  (forall v, In v (values m) -> ~ In v ex) /\ forall id v, In (id, v) m -> exists k, v = quoted id k.
Proof.
  induction l as [|id l IH]; intros ex; cbn [fresh_ids].
  - exists []. split; [auto|]. split; [auto|]. split; [constructor|]. split; intros; contradiction.
  - destruct (make_id_unique_ok id ex) as (k & E & Hn & _). rewrite E. cbn [bind].
    destruct (IH (ex ++ [quoted id k])) as (m & Em & Ek & N & D & Q). rewrite Em. cbn [bind].
    exists ((id, quoted id k) :: m). split; [auto|]. split; [cbn; f_equal; auto|]. split; [|split].
    + cbn. constructor; [|auto]. intros Hin. apply (D _ Hin). rewrite in_app_iff. cbn. auto.
    + intros v [<-|Hv]; [auto|]. intros Hx. apply (D _ Hv). rewrite in_app_iff. auto.
    + intros i v [Ei|Hi]; [injection Ei as <- <-; eauto|eauto].
Qed.
Lemma renamed_In m id : In id (keys m) -> In (id, renamed m id) m.
Proof. intros H. destruct (dict_get_key m id H) as [v E]. unfold renamed. rewrite E. apply dict_get_In. auto. Qed.
Lemma values_inj {K V} (m : list (K * V)) x y v : NoDup (values m) -> In (x, v) m -> In (y, v) m -> x = y.
Proof.
  unfold values. induction m as [|[k w] m IH]; [intros _ []|]. cbn. intros N Hx Hy. inversion N as [|? ? N1 N2]; subst.
  destruct Hx as [Ex|Hx], Hy as [Ey|Hy]; try congruence.
  - injection Ex as <- <-. exfalso. apply N1. apply (in_map snd) in Hy. exact Hy.
  - injection Ey as <- <-. exfalso. apply N1. apply (in_map snd) in Hx. exact Hx.
  - auto.
Qed.
Lemma renamed_map m : NoDup (keys m) -> map (renamed m) (keys m) = values m.
Proof.
  intros N. unfold keys, values. rewrite map_map. apply map_ext_in. intros [k v] H. cbn.
  unfold renamed. rewrite (dict_In_get m k v N H). auto.
Qed.
Lemma NoDup_map_inj {X Y} (f : X -> Y) l x y : NoDup (map f l) -> In x l -> In y l -> f x = f y -> x = y.
Proof.
  induction l as [|z l IH]; [intros _ []|]. cbn. intros N Hx Hy E. inversion N as [|? ? N1 N2]; subst.
  destruct Hx as [->|Hx], Hy as [->|Hy]; auto; exfalso; apply N1; [rewrite E|rewrite <- E]; apply in_map; auto.
Qed.
Lemma NoDup_app_inv {X} (l m : list X) : NoDup (l ++ m) -> NoDup l /\ NoDup m /\ forall x, In x l -> In x m -> False.
Proof.
  induction l as [|x l IH]; cbn; intros N; [split; [constructor|auto]|]. inversion N as [|? ? N1 N2]; subst.
  rewrite in_app_iff in N1. destruct (IH N2) as (A & B & C). split; [constructor; tauto|]. split; [auto|].
  intros y [<-|Hy] Hm; [tauto|eauto].
Qed.
Lemma NoDup_flat_same {X Y} (f : X -> list Y) l c d x : NoDup (flat_map f l) -> In c l -> In d l -> In x (f c) -> In x (f d) -> c = d.
Proof.
  induction l as [|z l IH]; [intros _ []|]. cbn. intros N Hc Hd Xc Xd. apply NoDup_app_inv in N. destruct N as (N1 & N2 & D).
  destruct Hc as [->|Hc], Hd as [->|Hd]; auto; exfalso; eapply D; eauto; apply in_flat_map; eauto.
Qed.
Lemma NoDup_flat_one {X Y} (f : X -> list Y) l c : NoDup (flat_map f l) -> In c l -> NoDup (f c).
Proof.
  induction l as [|z l IH]; [intros _ []|]. cbn. intros N Hc. apply NoDup_app_inv in N. destruct N as (N1 & N2 & D).
  destruct Hc as [->|Hc]; auto.
Qed.
Lemma NoDup_map_in {X Y} (f : X -> Y) l : NoDup l -> (forall x y, In x l -> In y l -> f x = f y -> x = y) -> NoDup (map f l).
Proof.
  induction 1 as [|x l Hx N IH]; intros H; cbn; [constructor|]. constructor.
  - rewrite in_map_iff. intros (y & E & Hy). apply Hx. rewrite (H x y); cbn; auto.
  - apply IH. intros a b Ha Hb. apply H; cbn; auto.
Qed.

(** a numbered net with its new ids, its source and its sink *)
Record comp := Comp { c_nr : nat; c_net : net; c_p : string -> string; c_t : string -> string; c_i : string; c_o : string }.
Definition comp_places (c : comp) := renamed_places (c_p c) (c_t c) (places (c_net c)).
Definition comp_transitions (c : comp) := renamed_transitions (c_p c) (c_t c) (transitions (c_net c)).
Definition union (cs : list comp) (v : dict string nat) : net := Net (flat_map comp_places cs) (flat_map comp_transitions cs) v.

(** [R] consists of the nets [cs], the places [G] and the unguarded invisible
    transitions [X] with the given pre- and postsets *)
Record composed (R : net) (cs : list comp) (X G : string -> Prop) (pre post : string -> string -> Prop) : Prop := {
  k_wf : wf R;
  k_in : forall c, In c cs -> inside (c_net c) R (c_p c) (c_t c);
  k_letter : forall c u tr, In c cs -> dict_get u (transitions (c_net c)) = Some tr ->
    exists tr', dict_get (c_t c u) (transitions R) = Some tr' /\ t_label tr' = t_label tr /\ t_visible tr' = t_visible tr;
  k_t : forall t, has_transition R t <-> X t \/ exists c u, In c cs /\ has_transition (c_net c) u /\ t = c_t c u;
  k_p : forall p, has_place R p <-> G p \/ exists c q, In c cs /\ has_place (c_net c) q /\ p = c_p c q;
  k_same_t : forall c d u v, In c cs -> In d cs -> has_transition (c_net c) u -> has_transition (c_net d) v ->
    c_t c u = c_t d v -> c = d /\ u = v;
  k_same_p : forall c d u v, In c cs -> In d cs -> has_place (c_net c) u -> has_place (c_net d) v ->
    c_p c u = c_p d v -> c = d /\ u = v;
  k_xt : forall t c u, X t -> In c cs -> has_transition (c_net c) u -> t <> c_t c u;
  k_gp : forall p c q, G p -> In c cs -> has_place (c_net c) q -> p <> c_p c q;
  k_glue : forall t, X t -> exists tr, dict_get t (transitions R) = Some tr /\ t_visible tr = false /\ t_guard tr = AcceptAlways;
  k_prex : forall t q, pre t q -> X t;
  k_postx : forall t q, post t q -> X t;
  k_pre : forall t q, X t -> In q (starts R t) <-> pre t q;
  k_post : forall t q, X t -> In q (ends R t) <-> post t q }.

Lemma comp_keys_t c : keys (comp_transitions c) = map (c_t c) (keys (transitions (c_net c))).
Proof. unfold comp_transitions, renamed_transitions, keys. rewrite !map_map. apply map_ext. intros [k v]. auto. Qed.
Lemma comp_keys_p c : keys (comp_places c) = map (c_p c) (keys (places (c_net c))).
Proof. unfold comp_places, renamed_places, keys. rewrite !map_map. apply map_ext. intros [k v]. auto. Qed.
Lemma keys_flat {A V} (f : A -> dict string V) l : keys (flat_map f l) = flat_map (fun c => keys (f c)) l.
Proof. induction l as [|c l IH]; cbn; [auto|]. unfold keys in *. rewrite map_app, IH. auto. Qed.

Lemma union_ok cs v : (forall c, In c cs -> wf (c_net c)) ->
  NoDup (keys (places (union cs v))) -> NoDup (keys (transitions (union cs v))) ->
  composed (union cs v) cs (fun _ => False) (fun _ => False) (fun _ _ => False) (fun _ _ => False).
Proof.
  intros W Np Nt. set (R := union cs v) in *.
  pose proof Np as Np'. pose proof Nt as Nt'. unfold R, union in Np', Nt'. cbn [places transitions] in Np', Nt'. rewrite keys_flat in Np'. rewrite keys_flat in Nt'.
  assert (Sp : forall c d u w, In c cs -> In d cs -> has_place (c_net c) u -> has_place (c_net d) w -> c_p c u = c_p d w -> c = d /\ u = w).
  { intros c d u w Hc Hd Hu Hw E. assert (c = d) as <-.
    { eapply (NoDup_flat_same _ _ c d (c_p c u) Np'); eauto; rewrite comp_keys_p; [|rewrite E]; apply in_map; auto. }
    split; [auto|]. pose proof (NoDup_flat_one _ _ c Np' Hc) as N. cbv beta in N. rewrite comp_keys_p in N. eapply NoDup_map_inj; eauto. }
  assert (St : forall c d u w, In c cs -> In d cs -> has_transition (c_net c) u -> has_transition (c_net d) w -> c_t c u = c_t d w -> c = d /\ u = w).
  { intros c d u w Hc Hd Hu Hw E. assert (c = d) as <-.
    { eapply (NoDup_flat_same _ _ c d (c_t c u) Nt'); eauto; rewrite comp_keys_t; [|rewrite E]; apply in_map; auto. }
    split; [auto|]. pose proof (NoDup_flat_one _ _ c Nt' Hc) as N. cbv beta in N. rewrite comp_keys_t in N. eapply NoDup_map_inj; eauto. }
  assert (Gt : forall c u tr, In c cs -> dict_get u (transitions (c_net c)) = Some tr ->
     dict_get (c_t c u) (transitions R) = Some (Transition (t_label tr) (t_visible tr) (map (c_p c) (t_start tr)) (map (c_p c) (t_end tr)) (t_guard tr))).
  { intros c u tr Hc E. apply dict_In_get; [auto|]. apply in_flat_map. exists c. split; [auto|]. unfold comp_transitions, renamed_transitions.
    apply in_map_iff. exists (u, tr). split; [auto|]. apply dict_get_In. auto. }
  assert (Ht : forall t, has_transition R t <-> exists c u, In c cs /\ has_transition (c_net c) u /\ t = c_t c u).
  { intros t. unfold has_transition at 1, R, union. cbn [places transitions]. rewrite keys_flat, in_flat_map. split.
    - intros (c & Hc & H). rewrite comp_keys_t, in_map_iff in H. destruct H as (u & <- & Hu). exists c, u. auto.
    - intros (c & u & Hc & Hu & ->). exists c. split; [auto|]. rewrite comp_keys_t. apply in_map. auto. }
  assert (Hp : forall p, has_place R p <-> exists c q, In c cs /\ has_place (c_net c) q /\ p = c_p c q).
  { intros t. unfold has_place at 1, R, union. cbn [places transitions]. rewrite keys_flat, in_flat_map. split.
    - intros (c & Hc & H). rewrite comp_keys_p, in_map_iff in H. destruct H as (u & <- & Hu). exists c, u. auto.
    - intros (c & u & Hc & Hu & ->). exists c. split; [auto|]. rewrite comp_keys_p. apply in_map. auto. }
  assert (Es : forall c u, In c cs -> has_transition (c_net c) u -> starts R (c_t c u) = map (c_p c) (starts (c_net c) u)).
  { intros c u Hc Hu. destruct (dict_get_key _ _ Hu) as [tr E]. unfold starts. rewrite (Gt c u tr Hc E), E. auto. }
  assert (Ee : forall c u, In c cs -> has_transition (c_net c) u -> ends R (c_t c u) = map (c_p c) (ends (c_net c) u)).
  { intros c u Hc Hu. destruct (dict_get_key _ _ Hu) as [tr E]. unfold ends. rewrite (Gt c u tr Hc E), E. auto. }
  assert (I : forall c, In c cs -> inside (c_net c) R (c_p c) (c_t c)).
  { intros c Hc. constructor; auto.
    - intros p Hpl. apply Hp. eauto.
    - intros p q H1 H2 E. eapply (Sp c c); eauto.
    - intros p q H1 H2 E. eapply (St c c); eauto.
    - intros t Htr. apply Ht. eauto.
    - intros t Htr. destruct (dict_get_key _ _ Htr) as [tr E]. unfold guard_of. rewrite (Gt c t tr Hc E), E. auto.
    - intros t q Htr. rewrite Es, in_map_iff by auto. split; intros (p & H1 & H2); exists p; auto.
    - intros t q Htr. rewrite Ee, in_map_iff by auto. split; intros (p & H1 & H2); exists p; auto. }
  assert (Str : forall t, (exists c u, In c cs /\ has_transition (c_net c) u /\ t = c_t c u) \/ (starts R t = [] /\ ends R t = [])).
  { intros t. unfold starts, ends. destruct (dict_get t (transitions R)) as [tr|] eqn:E; [left|right; auto].
    apply Ht. eapply dict_get_Some_key; eauto. }
  assert (WR : wf R).
  { constructor; auto.
    - intros t. destruct (Str t) as [(c & u & Hc & Hu & ->)|[-> _]]; [|constructor]. rewrite Es by auto. apply NoDup_map_in; [apply W; auto|].
      intros x y Hx Hy E. eapply (Sp c c); eauto; eapply w_sp; eauto.
    - intros t. destruct (Str t) as [(c & u & Hc & Hu & ->)|[_ ->]]; [|constructor]. rewrite Ee by auto. apply NoDup_map_in; [apply W; auto|].
      intros x y Hx Hy E. eapply (Sp c c); eauto; eapply w_ep; eauto.
    - intros t p. destruct (Str t) as [(c & u & Hc & Hu & ->)|[-> _]]; [|intros []]. rewrite Es, in_map_iff by auto.
      intros (q & <- & Hq). apply Hp. exists c, q. split; [auto|]. split; [eapply w_sp; eauto|auto].
    - intros t p. destruct (Str t) as [(c & u & Hc & Hu & ->)|[_ ->]]; [|intros []]. rewrite Ee, in_map_iff by auto.
      intros (q & <- & Hq). apply Hp. exists c, q. split; [auto|]. split; [eapply w_ep; eauto|auto].
    - intros p pl E. apply dict_get_In in E. unfold R in E. cbn in E. apply in_flat_map in E. destruct E as (c & Hc & E).
      unfold comp_places, renamed_places in E. apply in_map_iff in E. destruct E as ([q ql] & E & Hq). injection E as <- <-. cbn.
      assert (Gq : dict_get q (places (c_net c)) = Some ql) by (apply dict_In_get; [apply (W c Hc)|auto]).
      pose proof (dict_get_Some_key _ _ _ Gq) as Hqp. destruct (w_pt _ (W c Hc) q ql Gq) as (Q1 & Q2 & Q3).
      assert (Hpt : forall t, In t (p_transitions ql) -> has_transition (c_net c) t) by (intros t Ht'; eapply starts_has, Q3; eauto).
      split; [|split; [auto|]].
      + apply NoDup_map_in; [auto|]. intros x y Hx Hy E. eapply (St c c); eauto.
      + intros t. rewrite in_map_iff. split.
        * intros (u & <- & Hu). rewrite Es by auto. apply in_map. apply Q3. auto.
        * intros Hin. destruct (Str t) as [(d & u & Hd & Hu & ->)|[E _]]; [|rewrite E in Hin; contradiction].
          rewrite Es, in_map_iff in Hin by auto. destruct Hin as (x & Ex & Hx).
          destruct (Sp d c x q Hd Hc) as [-> ->]; auto; [eapply w_sp; eauto|]. exists u. split; [auto|]. apply Q3. auto. }
  constructor; auto; try tauto.
  - intros c u tr Hc E. eexists. split; [apply (Gt c u tr Hc E)|]. auto.
  - intros t. rewrite Ht. tauto.
  - intros t. rewrite Hp. tauto.
Qed.

(** growing such a net *)
Lemma composed_ext R R' cs X G pre post : composed R cs X G pre post -> wf R' -> places R' = places R -> transitions R' = transitions R ->
  composed R' cs X G pre post.
Proof.
  intros [] W Ep Et. assert (Es : forall t, starts R' t = starts R t) by (intros; unfold starts; rewrite Et; auto).
  assert (Ee : forall t, ends R' t = ends R t) by (intros; unfold ends; rewrite Et; auto).
  assert (Eg : forall t, guard_of R' t = guard_of R t) by (intros; unfold guard_of; rewrite Et; auto).
  constructor; auto; try (unfold has_transition, has_place in *; rewrite ?Et, ?Ep; auto; fail).
  - intros c Hc. destruct (k_in0 c Hc). constructor; auto; try (unfold has_transition, has_place in *; rewrite ?Et, ?Ep; auto; fail).
    + intros; rewrite Eg; auto.
    + intros; rewrite Es; auto.
    + intros; rewrite Ee; auto.
  - intros; rewrite Es; auto.
  - intros; rewrite Ee; auto.
Qed.
Lemma composed_place R cs X G pre post q : composed R cs X G pre post ->
  (has_place R q /\ add_place q "" 0 R = Err ValueError) \/
  (~ has_place R q /\ exists R', add_place q "" 0 R = Ok R' /\ composed R' cs X (fun p => p = q \/ G p) pre post).
Proof.
  intros K. destruct (add_place q "" 0 R) as [R'|e] eqn:E.
  - right. destruct (wf_place _ _ _ _ _ (k_wf _ _ _ _ _ _ K) E) as (W & Hn & Et & _ & Hp & _). split; [auto|]. exists R'. split; [auto|].
    assert (Es : forall t, starts R' t = starts R t) by (intros; unfold starts; rewrite Et; auto).
    assert (Ee : forall t, ends R' t = ends R t) by (intros; unfold ends; rewrite Et; auto).
    assert (Eg : forall t, guard_of R' t = guard_of R t) by (intros; unfold guard_of; rewrite Et; auto).
    destruct K. constructor; auto.
    + intros c Hc. destruct (k_in0 c Hc). constructor; auto.
      * intros p Hpl. apply Hp. auto.
      * intros; unfold has_transition; rewrite Et; apply in_trans; auto.
      * intros; rewrite Eg; auto.
      * intros; rewrite Es; auto.
      * intros; rewrite Ee; auto.
    + intros; rewrite Et; auto.
    + intros; unfold has_transition; rewrite Et; apply k_t0.
    + intros p. rewrite Hp, k_p0. tauto.
    + intros p c x [->|Hg] Hc Hx; [|eapply k_gp0; eauto]. intros ->. apply Hn. apply (in_place _ _ _ _ (k_in0 c Hc)); auto.
    + intros; rewrite Et; auto.
    + intros; rewrite Es; auto.
    + intros; rewrite Ee; auto.
  - left. unfold add_place in E. cbn in E. destruct (dict_has q (places R)) eqn:Eh; [|discriminate]. apply dict_has_In in Eh.
    split; [auto|congruence].
Qed.
Lemma composed_transition R cs X G pre post t : composed R cs X G pre post ->
  (has_transition R t /\ add_transition t None false R = Err ValueError) \/
  (~ has_transition R t /\ exists R', add_transition t None false R = Ok R' /\ composed R' cs (fun u => u = t \/ X u) G pre post).
Proof.
  intros K. destruct (add_transition t None false R) as [R'|e] eqn:E.
  - right. destruct (wf_transition _ _ _ _ _ (k_wf _ _ _ _ _ _ K) E) as (W & Hn & Ep & _ & Gt & Es & Ee). split; [auto|]. exists R'. split; [auto|].
    assert (Hne : forall c u, In c cs -> has_transition (c_net c) u -> c_t c u <> t).
    { intros c u Hc Hu <-. apply Hn. apply (in_trans _ _ _ _ (k_in _ _ _ _ _ _ K c Hc)). auto. }
    assert (Gc : forall c u, In c cs -> has_transition (c_net c) u -> dict_get (c_t c u) (transitions R') = dict_get (c_t c u) (transitions R)).
    { intros c u Hc Hu. rewrite Gt. destruct (eqb_ok (c_t c u) t); [exfalso; eapply Hne; eauto|auto]. }
    assert (Ht : forall u, has_transition R' u <-> u = t \/ has_transition R u).
    { intros u. unfold has_transition. rewrite !dict_get_Some_iff, Gt. destruct (eqb_ok u t) as [->|]; [split; eauto|]. intuition congruence. }
    assert (Hnx : ~ X t) by (intros Hx; apply Hn, (k_t _ _ _ _ _ _ K); auto).
    assert (S0 : starts R t = [] /\ ends R t = []).
    { unfold starts, ends. rewrite (proj2 (dict_get_None (transitions R) t) Hn). auto. }
    destruct K. constructor; auto.
    + intros c Hc. destruct (k_in0 c Hc). constructor; auto.
      * intros p Hpl. unfold has_place. rewrite Ep. apply in_place; auto.
      * intros u Hu. apply Ht. auto.
      * intros u Hu. unfold guard_of. rewrite Gc by auto. apply in_guard; auto.
      * intros; rewrite Es; auto.
      * intros; rewrite Ee; auto.
    + intros c u tr Hc Eu. rewrite Gc; auto. eapply dict_get_Some_key; eauto.
    + intros u. rewrite Ht, k_t0. tauto.
    + intros p. unfold has_place. rewrite Ep. apply k_p0.
    + intros u c x [->|Hx] Hc Hu; [|eapply k_xt0; eauto]. intros Ex. symmetry in Ex. revert Ex. apply Hne; auto.
    + intros u [->|Hu].
      * rewrite Gt, eqb_refl. eexists. split; [reflexivity|]. auto.
      * rewrite Gt. destruct (eqb_ok u t) as [->|]; [contradiction|]. auto.
    + intros u q Hu. right. eauto.
    + intros u q Hu. right. eauto.
    + intros u q [->|Hu]; rewrite Es; [|auto]. rewrite (proj1 S0). split; [intros []|]. intros Hp. exfalso. eauto.
    + intros u q [->|Hu]; rewrite Ee; [|auto]. rewrite (proj2 S0). split; [intros []|]. intros Hp. exfalso. eauto.
  - left. unfold add_transition in E. destruct (dict_has t (transitions R)) eqn:Eh; [|discriminate]. apply dict_has_In in Eh.
    split; [auto|congruence].
Qed.
Lemma composed_connection R cs X G pre post s t e : composed R cs X G pre post -> X t -> has_place R s -> has_place R e ->
  exists R', add_connection s t e R = Ok R' /\
    composed R' cs X G (fun u q => pre u q \/ (u = t /\ q = s)) (fun u q => post u q \/ (u = t /\ q = e)).
Proof.
  intros K Hx Hs He. destruct (add_connection s t e R) as [R'|err] eqn:E.
  2:{ exfalso. unfold add_connection in E. destruct (dict_get_key _ _ Hs) as [a Ea]. destruct (dict_get_key _ _ He) as [b Eb].
      destruct (k_glue _ _ _ _ _ _ K t Hx) as (tr & Et & _). rewrite Ea, Eb, Et in E. discriminate. }
  exists R'. split; [auto|].
  destruct (wf_connection _ _ _ _ _ (k_wf _ _ _ _ _ _ K) E) as (W & _ & _ & _ & Hp & Ht & _ & S2 & N2).
  apply connection_ok in E. destruct E as (_ & _ & _ & _ & _ & _ & tr & Etr & Gt).
  assert (Hne : forall c u, In c cs -> has_transition (c_net c) u -> c_t c u <> t).
  { intros c u Hc Hu Ex. symmetry in Ex. revert Ex. eapply (k_xt _ _ _ _ _ _ K); eauto. }
  assert (Gc : forall c u, In c cs -> has_transition (c_net c) u -> dict_get (c_t c u) (transitions R') = dict_get (c_t c u) (transitions R)).
  { intros c u Hc Hu. rewrite Gt. destruct (eqb_ok (c_t c u) t); [exfalso; eapply Hne; eauto|auto]. }
  destruct K. constructor; auto.
  - intros c Hc. destruct (k_in0 c Hc). constructor; auto.
    + intros p Hpl. apply Hp. auto.
    + intros u Hu. apply Ht. auto.
    + intros u Hu. unfold guard_of. rewrite Gc by auto. apply in_guard; auto.
    + intros u q Hu. unfold starts at 1. rewrite Gc by auto. apply in_starts; auto.
    + intros u q Hu. unfold ends at 1. rewrite Gc by auto. apply in_ends; auto.
  - intros c u x Hc Eu. rewrite Gc; auto. eapply dict_get_Some_key; eauto.
  - intros u. rewrite Ht. auto.
  - intros p. rewrite Hp. auto.
  - intros u Hu. rewrite Gt. destruct (eqb_ok u t) as [->|]; [|auto]. destruct (k_glue0 t Hu) as (x & Ex & V1 & V2).
    eexists. split; [reflexivity|]. cbn. rewrite Ex in Etr. injection Etr as <-. auto.
  - intros u q [Hu|[-> _]]; eauto.
  - intros u q [Hu|[-> _]]; eauto.
  - intros u q Hu. rewrite S2, k_pre0 by auto. tauto.
  - intros u q Hu. rewrite N2, k_post0 by auto. tauto.
Qed.
Lemma composed_unique R cs X G pre post id : composed R cs X G pre post ->
  exists t R', make_id_unique id (keys (transitions R)) = Ok t /\ ~ has_transition R t /\ add_transition t None false R = Ok R' /\
    composed R' cs (fun u => u = t \/ X u) G pre post.
Proof.
  intros K. destruct (make_id_unique_ok id (keys (transitions R))) as (k & E & Hn & _).
  destruct (composed_transition _ _ _ _ _ _ (quoted id k) K) as [[H _]|(_ & R' & E' & K')]; [exfalso; auto|].
  exists (quoted id k), R'. auto.
Qed.
