(** Activity patterns, part 3: what the compositions consist of *)
From Coq Require Import String ZArith Permutation.
From Verif.Model Require Import Base PetriNet ActivityPattern.
From Verif.Spec Require Import PetriSpec ActivityPatternSpec.
From Verif.Lib Require Import ListLib DictLib.
From Verif.Proofs Require Import PetriA PetriC PetriD ApA ApB.
Open Scope string_scope.
Open Scope list_scope.
Open Scope nat_scope.

(** invariant of patterns *)
Record good (p : pattern) : Prop := {
  g_wf : wf (pnet p);
  g_map : forall t tr, dict_get t (transitions (pnet p)) = Some tr -> t_visible tr = true -> exists a, dict_get t (amap p) = Some a;
  g_src : forall x y, source (pnet p) x -> source (pnet p) y -> x = y;
  g_snk : forall x y, sink (pnet p) x -> sink (pnet p) y -> x = y }.

Lemma pop_ok ord n P l : any_order ord -> NoDup l -> (forall p, In p l <-> P p) -> (forall x y : string, P x -> P y -> x = y) -> P n -> pop ord l = Ok n.
Proof.
  intros HO N HP U Hn. unfold pop. destruct (ord l) as [|x r] eqn:E.
  - exfalso. apply HP in Hn. pose proof (HO l) as Pm. rewrite E in Pm. apply Permutation_nil in Pm. subst. contradiction.
  - f_equal. apply U; [|auto]. apply HP. apply (Permutation_in x (HO l)). rewrite E. cbn. auto.
Qed.
Lemma pop_none ord l : any_order ord -> l = [] -> pop ord l = Err KeyError.
Proof. intros HO ->. unfold pop. pose proof (HO []) as P. apply Permutation_sym, Permutation_nil in P. rewrite P. auto. Qed.

Lemma map_id_renamed_p d : renamed_places (fun x => x) (fun x => x) d = d.
Proof. unfold renamed_places. rewrite <- (map_id d) at 2. apply map_ext. intros [k [a b c]]. cbn. rewrite map_id. auto. Qed.
Lemma map_id_renamed_t d : renamed_transitions (fun x => x) (fun x => x) d = d.
Proof. unfold renamed_transitions. rewrite <- (map_id d) at 2. apply map_ext. intros [k [a b c e f]]. cbn. rewrite !map_id. auto. Qed.

Lemma names_ok ft (m : dict string string) (T : dict string transition) (acc : dict string string) :
  (forall t tr, In (t, tr) T -> t_visible tr = true -> exists a, dict_get t m = Some a) ->
  exists names, foldM (fun names '(t, tr) =>
      if t_visible tr
      then do name <- of_option KeyError (dict_get t m) ; Ok (dict_set (ft t) name names)
      else Ok names) T acc = Ok names /\
  (forall x, (forall t tr, In (t, tr) T -> x <> ft t) -> dict_get x names = dict_get x acc) /\
  ((forall t u, In t (keys T) -> In u (keys T) -> ft t = ft u -> t = u) -> NoDup (keys T) ->
    forall t tr, In (t, tr) T -> t_visible tr = true -> dict_get (ft t) names = dict_get t m).
Proof.
  revert acc. induction T as [|[t tr] T IH]; intros acc H; cbn [foldM].
  - exists acc. split; [auto|]. split; [auto|]. intros _ _ t tr [].
  - assert (H' : forall t tr, In (t, tr) T -> t_visible tr = true -> exists a, dict_get t m = Some a) by (intros; eapply H; cbn; eauto).
    destruct (t_visible tr) eqn:V.
    + destruct (H t tr (or_introl eq_refl) V) as [a Ea]. rewrite Ea. cbn [of_option bind].
      destruct (IH (dict_set (ft t) a acc) H') as (names & E & K1 & K2). exists names. split; [auto|]. split.
      * intros x Hx. rewrite K1 by (intros; eapply Hx; cbn; eauto). rewrite dict_get_set.
        destruct (eqb_ok x (ft t)) as [->|]; [|auto]. exfalso. eapply (Hx t tr); cbn; auto.
      * intros Inj N u ur Hu V2. inversion N as [|? ? N1 N2]; subst. destruct Hu as [Eu|Hu].
        -- injection Eu as <- <-. rewrite K1, dict_get_set, eqb_refl; [auto|]. intros u ur Hu Eu.
           assert (t = u) as -> by (apply Inj; cbn; auto; right; apply (in_map fst) in Hu; exact Hu).
           apply N1. apply (in_map fst) in Hu. exact Hu.
        -- eapply K2; eauto. intros; apply Inj; cbn; auto.
    + destruct (IH acc H') as (names & E & K1 & K2). cbn [bind]. exists names. split; [auto|]. split.
      * intros x Hx. apply K1. intros; eapply Hx; cbn; eauto.
      * intros Inj N u ur Hu V2. inversion N as [|? ? N1 N2]; subst. destruct Hu as [Eu|Hu]; [congruence|].
        eapply K2; eauto. intros; apply Inj; cbn; auto.
Qed.

(** the letters of a composed net *)
Definition spelled (names : dict string string) (c : comp) (p : pattern) : Prop :=
  forall u tr, dict_get u (transitions (pnet p)) = Some tr -> t_visible tr = true -> dict_get (c_t c u) names = dict_get u (amap p).

Definition nothing : string -> Prop := fun _ => False.
Definition nothing2 : string -> string -> Prop := fun _ _ => False.

Lemma prepare_ok ord st a b s1 e1 s2 e2 : any_order ord -> good a -> good b ->
  source (pnet a) s1 -> sink (pnet a) e1 -> source (pnet b) s2 -> sink (pnet b) e2 ->
  exists fp ft names N st', prepare_composition ord st a b = Ok (s1, e1, fp s2, fp e2, names, N, st') /\
    let A := Comp 0 (pnet a) (fun x => x) (fun x => x) s1 e1 in let B := Comp 1 (pnet b) fp ft s2 e2 in
    composed N [A; B] nothing nothing nothing2 nothing2 /\ spelled names A a /\ spelled names B b /\
    (forall p, has_place (pnet b) p -> exists k, fp p = quoted p k) /\
    (forall t, has_transition (pnet b) t -> exists k, ft t = quoted t k).
Proof.
  intros HO Ga Gb S1 E1 S2 E2. unfold prepare_composition.
  destruct (copy st (pnet a)) as [[n1 st1]|] eqn:C1; [|rewrite copy_ok in C1 by apply Ga; discriminate].
  destruct (wf_copy _ _ _ _ (g_wf _ Ga) C1) as (W1 & Pl1 & Tr1). cbn [bind].
  destruct (copy st1 (pnet b)) as [[n2 st2]|] eqn:C2; [|rewrite copy_ok in C2 by apply Gb; discriminate].
  destruct (wf_copy _ _ _ _ (g_wf _ Gb) C2) as (W2 & Pl2 & Tr2). cbn [bind].
  assert (SS : forall p n, transitions n = transitions (pnet p) -> get_source_sink_places n = get_source_sink_places (pnet p)).
  { intros p n E. unfold get_source_sink_places. rewrite E. auto. }
  rewrite (SS a n1 Tr1), (SS b n2 Tr2), Pl1, Tr1, Pl2, Tr2.
  destruct (get_source_sink_places (pnet a)) as [so1 si1] eqn:Q1. destruct (get_source_sink_places (pnet b)) as [so2 si2] eqn:Q2.
  apply source_sink_ok in Q1; [|apply (w_trans _ (g_wf _ Ga))]. apply source_sink_ok in Q2; [|apply (w_trans _ (g_wf _ Gb))].
  destruct Q1 as (D1 & D2 & D3 & D4). destruct Q2 as (D5 & D6 & D7 & D8).
  destruct (fresh_ok (keys (places (pnet b))) (keys (places (pnet a)))) as (pm & Ep & Kp & Np & Fp & Qp). rewrite Ep. cbn [bind].
  destruct (fresh_ok (keys (transitions (pnet b))) (keys (transitions (pnet a)))) as (tm & Et & Kt & Nt & Ft & Qt). rewrite Et. cbn [bind].
  destruct (names_ok (renamed tm) (amap b) (transitions (pnet b)) (amap a)) as (names & En & Na & Nb).
  { intros t tr H V. eapply (g_map _ Gb); [|exact V]. apply dict_In_get; [apply (g_wf _ Gb)|auto]. }
  rewrite En. cbn [bind].
  rewrite (pop_ok ord s1 (source (pnet a)) so1 HO D1 D3 (g_src _ Ga) S1). cbn [bind].
  rewrite (pop_ok ord e1 (sink (pnet a)) si1 HO D2 D4 (g_snk _ Ga) E1). cbn [bind].
  rewrite (pop_ok ord s2 (source (pnet b)) so2 HO D5 D7 (g_src _ Gb) S2). cbn [bind].
  rewrite (pop_ok ord e2 (sink (pnet b)) si2 HO D6 D8 (g_snk _ Gb) E2). cbn [bind].
  exists (renamed pm), (renamed tm), names. eexists. exists st2. split; [reflexivity|]. cbv zeta.
  set (A := Comp 0 (pnet a) (fun x => x) (fun x => x) s1 e1). set (B := Comp 1 (pnet b) (renamed pm) (renamed tm) s2 e2).
  assert (EN : Net (places (pnet a) ++ renamed_places (renamed pm) (renamed tm) (places (pnet b)))
       (transitions (pnet a) ++ renamed_transitions (renamed pm) (renamed tm) (transitions (pnet b))) (variables n1) = union [A; B] (variables n1)).
  { unfold union. cbn [flat_map]. unfold comp_places, comp_transitions, A, B. cbn [c_net c_p c_t].
    rewrite map_id_renamed_p, map_id_renamed_t, !app_nil_r. auto. }
  rewrite EN.
  assert (Vp : map (renamed pm) (keys (places (pnet b))) = values pm).
  { rewrite <- Kp. apply renamed_map. rewrite Kp. apply (g_wf _ Gb). }
  assert (Vt : map (renamed tm) (keys (transitions (pnet b))) = values tm).
  { rewrite <- Kt. apply renamed_map. rewrite Kt. apply (g_wf _ Gb). }
  assert (nd : forall l m : list string, NoDup l -> NoDup m -> (forall v, In v m -> ~ In v l) -> NoDup (l ++ m)).
  { clear. induction l as [|x l IH]; cbn; intros m N1 N2 H; [auto|]. inversion N1; subst. constructor.
    - rewrite in_app_iff. intros [?|?]; [auto|]. eapply H; cbn; eauto.
    - apply IH; auto. intros v Hv Hl. eapply H; cbn; eauto. }
  assert (CO : composed (union [A; B] (variables n1)) [A; B] nothing nothing nothing2 nothing2).
  { apply union_ok.
    - intros c [<-|[<-|[]]]; cbn; [apply Ga|apply Gb].
    - unfold union. cbn [places]. rewrite keys_flat. cbn [flat_map]. rewrite !comp_keys_p. cbn [c_net c_p A B]. rewrite map_id, Vp, app_nil_r.
      apply nd; auto. apply (g_wf _ Ga).
    - unfold union. cbn [transitions]. rewrite keys_flat. cbn [flat_map]. rewrite !comp_keys_t. cbn [c_net c_t A B]. rewrite map_id, Vt, app_nil_r.
      apply nd; auto. apply (g_wf _ Ga). }
  split; [auto|]. split; [|split; [|split]].
  - intros u tr Eu V. cbn. apply Na. intros t t' Ht ->. apply (Ft (renamed tm t)).
    + rewrite <- Vt. apply in_map. apply (in_map fst) in Ht. exact Ht.
    + eapply dict_get_Some_key; eauto.
  - intros u tr Eu V. cbn. eapply Nb; eauto.
    + intros t v Ht Hv E. destruct (k_same_t _ _ _ _ _ _ CO B B t v); cbn; auto.
    + apply (g_wf _ Gb).
    + apply dict_get_In. auto.
  - intros p Hp. apply Qp. apply renamed_In. rewrite Kp. auto.
  - intros p Hp. apply Qt. apply renamed_In. rewrite Kt. auto.
Qed.

Lemma prepare_fails ord st a b : any_order ord -> good a -> good b ->
  (forall p, ~ source (pnet a) p) \/ (forall p, ~ sink (pnet a) p) \/ (forall p, ~ source (pnet b) p) \/ (forall p, ~ sink (pnet b) p) ->
  prepare_composition ord st a b = Err KeyError.
Proof.
  intros HO Ga Gb H. unfold prepare_composition.
  destruct (copy st (pnet a)) as [[n1 st1]|] eqn:C1; [|rewrite copy_ok in C1 by apply Ga; discriminate].
  destruct (wf_copy _ _ _ _ (g_wf _ Ga) C1) as (W1 & Pl1 & Tr1). cbn [bind].
  destruct (copy st1 (pnet b)) as [[n2 st2]|] eqn:C2; [|rewrite copy_ok in C2 by apply Gb; discriminate].
  destruct (wf_copy _ _ _ _ (g_wf _ Gb) C2) as (W2 & Pl2 & Tr2). cbn [bind].
  assert (SS : forall p n, transitions n = transitions (pnet p) -> get_source_sink_places n = get_source_sink_places (pnet p)).
  { intros p n E. unfold get_source_sink_places. rewrite E. auto. }
  rewrite (SS a n1 Tr1), (SS b n2 Tr2), Pl1, Tr1, Pl2, Tr2.
  destruct (get_source_sink_places (pnet a)) as [so1 si1] eqn:Q1. destruct (get_source_sink_places (pnet b)) as [so2 si2] eqn:Q2.
  apply source_sink_ok in Q1; [|apply (w_trans _ (g_wf _ Ga))]. apply source_sink_ok in Q2; [|apply (w_trans _ (g_wf _ Gb))].
  destruct Q1 as (D1 & D2 & D3 & D4). destruct Q2 as (D5 & D6 & D7 & D8).
  destruct (fresh_ok (keys (places (pnet b))) (keys (places (pnet a)))) as (pm & Ep & Kp & Np & Fp & Qp). rewrite Ep. cbn [bind].
  destruct (fresh_ok (keys (transitions (pnet b))) (keys (transitions (pnet a)))) as (tm & Et & Kt & Nt & Ft & Qt). rewrite Et. cbn [bind].
  destruct (names_ok (renamed tm) (amap b) (transitions (pnet b)) (amap a)) as (names & En & Na & Nb).
  { intros t tr Hi V. eapply (g_map _ Gb); [|exact V]. apply dict_In_get; [apply (g_wf _ Gb)|auto]. }
  rewrite En. cbn [bind].
  assert (em : forall l (P : string -> Prop), (forall p, In p l <-> P p) -> (forall p, ~ P p) -> pop ord l = Err KeyError).
  { intros l P HP Hn. apply pop_none; [auto|]. destruct l as [|x l]; [auto|]. exfalso. apply (Hn x), HP. cbn. auto. }
  assert (ca : forall l, pop ord l = Err KeyError \/ exists x, pop ord l = Ok x).
  { intros l. unfold pop. destruct (ord l); eauto. }
  destruct H as [H|[H|[H|H]]].
  - rewrite (em so1 _ D3 H). auto.
  - destruct (ca so1) as [->|[x ->]]; [auto|]. cbn [bind]. rewrite (em si1 _ D4 H). auto.
  - destruct (ca so1) as [->|[x ->]]; [auto|]. destruct (ca si1) as [->|[y ->]]; [auto|]. cbn [bind]. rewrite (em so2 _ D7 H). auto.
  - destruct (ca so1) as [->|[x ->]]; [auto|]. destruct (ca si1) as [->|[y ->]]; [auto|]. destruct (ca so2) as [->|[z ->]]; [auto|]. cbn [bind].
    rewrite (em si2 _ D8 H). auto.
Qed.

(** places before and behind transitions of a composed net *)
Section Comp.
  Variables (R : net) (cs : list comp) (X G : string -> Prop) (pre post : string -> string -> Prop).
  Hypothesis K : composed R cs X G pre post.
  Lemma k_before q : before_some R q <-> (exists t, pre t q) \/ exists c p, In c cs /\ before_some (c_net c) p /\ q = c_p c p.
  Proof.
    split.
    - intros [t Ht]. pose proof (starts_has _ _ _ Ht) as Hh. apply (k_t _ _ _ _ _ _ K) in Hh. destruct Hh as [Hx|(c & u & Hc & Hu & ->)].
      + left. exists t. apply (k_pre _ _ _ _ _ _ K); auto.
      + right. apply (in_starts _ _ _ _ (k_in _ _ _ _ _ _ K c Hc)) in Ht; [|auto]. destruct Ht as (p & Hp & ->). exists c, p. split; [auto|]. split; [exists u; auto|auto].
    - intros [[t Ht]|(c & p & Hc & [u Hu] & ->)].
      + exists t. apply (k_pre _ _ _ _ _ _ K); [|auto]. eapply (k_prex _ _ _ _ _ _ K); eauto.
      + exists (c_t c u). apply (in_starts _ _ _ _ (k_in _ _ _ _ _ _ K c Hc)); [eapply starts_has; eauto|eauto].
  Qed.
  Lemma k_behind q : behind_some R q <-> (exists t, post t q) \/ exists c p, In c cs /\ behind_some (c_net c) p /\ q = c_p c p.
  Proof.
    split.
    - intros [t Ht]. pose proof (ends_has _ _ _ Ht) as Hh. apply (k_t _ _ _ _ _ _ K) in Hh. destruct Hh as [Hx|(c & u & Hc & Hu & ->)].
      + left. exists t. apply (k_post _ _ _ _ _ _ K); auto.
      + right. apply (in_ends _ _ _ _ (k_in _ _ _ _ _ _ K c Hc)) in Ht; [|auto]. destruct Ht as (p & Hp & ->). exists c, p. split; [auto|]. split; [exists u; auto|auto].
    - intros [[t Ht]|(c & p & Hc & [u Hu] & ->)].
      + exists t. apply (k_post _ _ _ _ _ _ K); [|auto]. eapply (k_postx _ _ _ _ _ _ K); eauto.
      + exists (c_t c u). apply (in_ends _ _ _ _ (k_in _ _ _ _ _ _ K c Hc)); [eapply ends_has; eauto|eauto].
  Qed.
  Lemma k_connected : (forall c, In c cs -> connected (c_net c)) -> (forall t, X t -> (exists q, pre t q) /\ exists q, post t q) -> connected R.
  Proof.
    intros HC HX t Ht. apply (k_t _ _ _ _ _ _ K) in Ht. destruct Ht as [Hx|(c & u & Hc & Hu & ->)].
    - destruct (HX t Hx) as [[q Hq] [r Hr]]. apply (k_pre _ _ _ _ _ _ K) in Hq; [|auto]. apply (k_post _ _ _ _ _ _ K) in Hr; [|auto].
      split; intros E; rewrite E in *; contradiction.
    - destruct (HC c Hc u Hu) as [N1 N2]. destruct (starts (c_net c) u) as [|p l] eqn:E1; [congruence|]. destruct (ends (c_net c) u) as [|q m] eqn:E2; [congruence|].
      assert (H1 : In (c_p c p) (starts R (c_t c u))).
      { apply (in_starts _ _ _ _ (k_in _ _ _ _ _ _ K c Hc)); [auto|]. exists p. rewrite E1. cbn. auto. }
      assert (H2 : In (c_p c q) (ends R (c_t c u))).
      { apply (in_ends _ _ _ _ (k_in _ _ _ _ _ _ K c Hc)); [auto|]. exists q. rewrite E2. cbn. auto. }
      split; intros E; rewrite E in *; contradiction.
  Qed.
  (** the constructor on such a net *)
  Lemma k_new ord st names i o : (forall p, source R p <-> p = i) -> (forall p, sink R p <-> p = o) ->
    (forall c, In c cs -> exists p, pnet p = c_net c /\ good p /\ spelled names c p) ->
    new_pattern ord st R (Named names) = Ok (Pattern R names, st) /\ is_workflow_net R = true /\ good (Pattern R names).
  Proof.
    intros Hi Ho HN. assert (WF : is_workflow_net R = true).
    { apply is_workflow_ok; [apply (k_wf _ _ _ _ _ _ K)|]. split; [exists i|exists o]; (split; [apply Hi || apply Ho; auto|]); intros x Hx; symmetry; [apply Hi|apply Ho]; auto. }
    assert (MP : forall t tr, dict_get t (transitions R) = Some tr -> t_visible tr = true -> exists a, dict_get t names = Some a).
    { intros t tr E V. pose proof (dict_get_Some_key _ _ _ E) as Ht. apply (k_t _ _ _ _ _ _ K) in Ht. destruct Ht as [Hx|(c & u & Hc & Hu & ->)].
      - destruct (k_glue _ _ _ _ _ _ K t Hx) as (tr' & E' & V' & _). congruence.
      - destruct (HN c Hc) as (p & Ep & Gp & Sp). destruct (dict_get_key _ _ Hu) as [tu Eu].
        destruct (k_letter _ _ _ _ _ _ K c u tu Hc Eu) as (tr' & E' & L & V'). rewrite E in E'. injection E' as <-.
        rewrite <- Ep in Eu. destruct (g_map _ Gp u tu Eu) as [a Ea]; [congruence|]. exists a. rewrite (Sp u tu Eu); [auto|congruence]. }
    split; [|split; [auto|]].
    - unfold new_pattern. rewrite WF. cbn [bind].
      replace (forallb _ (transitions R)) with true; [auto|]. symmetry. apply forallb_forall. intros [t tr] Hin.
      destruct (t_visible tr) eqn:V; [|auto]. cbn. destruct (MP t tr) as [a Ea]; [|auto|].
      { apply dict_In_get; [apply (k_wf _ _ _ _ _ _ K)|auto]. }
      unfold dict_has. rewrite Ea. auto.
    - constructor; cbn; auto.
      + apply (k_wf _ _ _ _ _ _ K).
      + intros x y Hx Hy. apply Hi in Hx. apply Hi in Hy. congruence.
      + intros x y Hx Hy. apply Ho in Hx. apply Ho in Hy. congruence.
  Qed.
End Comp.

Lemma composed_iff R cs (X G X' G' : string -> Prop) (pre post pre' post' : string -> string -> Prop) : composed R cs X G pre post ->
  (forall t, X t <-> X' t) -> (forall p, G p <-> G' p) -> (forall t q, pre t q <-> pre' t q) -> (forall t q, post t q <-> post' t q) ->
  composed R cs X' G' pre' post'.
Proof.
  intros [] EX EG E1 E2. constructor; auto.
  - intros t. rewrite <- EX. auto.
  - intros t. rewrite <- EG. auto.
  - intros t c u H. apply k_xt, EX, H.
  - intros t c u H. apply k_gp, EG, H.
  - intros t H. apply k_glue, EX, H.
  - intros t q H. rewrite <- EX. eapply k_prex, E1, H.
  - intros t q H. rewrite <- EX. eapply k_postx, E2, H.
  - intros t q H. rewrite <- E1. apply k_pre, EX, H.
  - intros t q H. rewrite <- E2. apply k_post, EX, H.
Qed.

(** the further transitions take from the sinks of the nets and put on their
    sources only *)
Record linked (R : net) (cs : list comp) (X G : string -> Prop) (pre post : string -> string -> Prop) : Prop := {
  l_k : composed R cs X G pre post;
  l_i : forall c p, In c cs -> source (c_net c) p <-> p = c_i c;
  l_o : forall c p, In c cs -> sink (c_net c) p <-> p = c_o c;
  l_pre : forall c t p, In c cs -> has_place (c_net c) p -> pre t (c_p c p) -> p = c_o c;
  l_post : forall c t p, In c cs -> has_place (c_net c) p -> post t (c_p c p) -> p = c_i c }.
Section Linked.
  Variables (R : net) (cs : list comp) (X G : string -> Prop) (pre post : string -> string -> Prop).
  Hypothesis L : linked R cs X G pre post.
  Let K := l_k _ _ _ _ _ _ L.
  Lemma l_wf c : In c cs -> wf (c_net c).
  Proof. intros Hc. apply (in_wf _ _ _ _ (k_in _ _ _ _ _ _ K c Hc)). Qed.
  Lemma before_place n p : wf n -> before_some n p -> has_place n p.
  Proof. intros W [t Ht]. eapply w_sp; eauto. Qed.
  Lemma behind_place n p : wf n -> behind_some n p -> has_place n p.
  Proof. intros W [t Ht]. eapply w_ep; eauto. Qed.
  Lemma l_ip c : In c cs -> has_place (c_net c) (c_i c).
  Proof. intros Hc. apply before_place; [apply l_wf; auto|]. apply (l_i _ _ _ _ _ _ L c (c_i c) Hc). auto. Qed.
  Lemma l_op c : In c cs -> has_place (c_net c) (c_o c).
  Proof. intros Hc. apply behind_place; [apply l_wf; auto|]. apply (l_o _ _ _ _ _ _ L c (c_o c) Hc). auto. Qed.
  Lemma l_io c : In c cs -> c_i c <> c_o c.
  Proof.
    intros Hc E. pose proof (proj2 (l_i _ _ _ _ _ _ L c (c_i c) Hc) eq_refl) as [_ H].
    pose proof (proj2 (l_o _ _ _ _ _ _ L c (c_o c) Hc) eq_refl) as [H2 _]. rewrite E in H. auto.
  Qed.
  Lemma l_gates c : In c cs -> gates (c_net c) R (c_p c) (c_t c) (c_i c) (c_o c).
  Proof.
    intros Hc. split; [apply l_ip; auto|]. split; [apply l_op; auto|]. intros t p Ht Ho Hp.
    apply (k_t _ _ _ _ _ _ K) in Ht. destruct Ht as [Hx|(d & u & Hd & Hu & ->)].
    - rewrite (k_pre _ _ _ _ _ _ K), (k_post _ _ _ _ _ _ K) by auto. split; [eapply l_post; eauto|eapply l_pre; eauto].
    - pose proof (proj1 (owner_None _ _ _) Ho) as Hno. pose proof (k_in _ _ _ _ _ _ K d Hd) as I.
      rewrite (in_starts _ _ _ _ I), (in_ends _ _ _ _ I) by auto. split; intros (q & Hq & E).
      + destruct (k_same_p _ _ _ _ _ _ K c d p q) as [-> ->]; auto; [eapply w_ep; [apply l_wf; auto|eauto]|]. exfalso. eapply Hno; eauto.
      + destruct (k_same_p _ _ _ _ _ _ K c d p q) as [-> ->]; auto; [eapply w_sp; [apply l_wf; auto|eauto]|]. exfalso. eapply Hno; eauto.
  Qed.
  Lemma l_before_comp c p : In c cs -> has_place (c_net c) p -> before_some R (c_p c p) <-> before_some (c_net c) p \/ exists t, pre t (c_p c p).
  Proof.
    intros Hc Hp. rewrite (k_before _ _ _ _ _ _ K). split.
    - intros [?|(d & q & Hd & Hq & E)]; [auto|]. destruct (k_same_p _ _ _ _ _ _ K c d p q) as [-> ->]; auto. apply before_place; [apply l_wf; auto|auto].
    - intros [?|?]; [right; eauto|auto].
  Qed.
  Lemma l_behind_comp c p : In c cs -> has_place (c_net c) p -> behind_some R (c_p c p) <-> behind_some (c_net c) p \/ exists t, post t (c_p c p).
  Proof.
    intros Hc Hp. rewrite (k_behind _ _ _ _ _ _ K). split.
    - intros [?|(d & q & Hd & Hq & E)]; [auto|]. destruct (k_same_p _ _ _ _ _ _ K c d p q) as [-> ->]; auto. apply behind_place; [apply l_wf; auto|auto].
    - intros [?|?]; [right; eauto|auto].
  Qed.
  Lemma l_before_G q : G q -> before_some R q <-> exists t, pre t q.
  Proof.
    intros Hg. rewrite (k_before _ _ _ _ _ _ K). split; [|auto]. intros [?|(d & p & Hd & Hq & E)]; [auto|].
    exfalso. eapply (k_gp _ _ _ _ _ _ K); eauto. apply before_place; [apply l_wf; auto|auto].
  Qed.
  Lemma l_behind_G q : G q -> behind_some R q <-> exists t, post t q.
  Proof.
    intros Hg. rewrite (k_behind _ _ _ _ _ _ K). split; [|auto]. intros [?|(d & p & Hd & Hq & E)]; [auto|].
    exfalso. eapply (k_gp _ _ _ _ _ _ K); eauto. apply behind_place; [apply l_wf; auto|auto].
  Qed.
  Lemma l_source q : source R q <-> (G q /\ (exists t, pre t q) /\ ~ exists t, post t q) \/ (exists c, In c cs /\ q = c_p c (c_i c) /\ ~ exists t, post t q).
  Proof.
    split.
    - intros [B N]. pose proof (before_place _ _ (k_wf _ _ _ _ _ _ K) B) as Hp. apply (k_p _ _ _ _ _ _ K) in Hp. destruct Hp as [Hg|(c & p & Hc & Hp & ->)].
      + left. rewrite (l_before_G q Hg) in B. rewrite (l_behind_G q Hg) in N. auto.
      + right. exists c. rewrite (l_before_comp c p Hc Hp) in B. rewrite (l_behind_comp c p Hc Hp) in N.
        assert (p = c_i c) as ->; [|split; [auto|split; [auto|tauto]]].
        apply (l_i _ _ _ _ _ _ L c p Hc). split; [|tauto]. destruct B as [B|[t Ht]]; [auto|]. exfalso. apply N. left.
        apply (l_pre _ _ _ _ _ _ L) in Ht; auto. apply (l_o _ _ _ _ _ _ L c p Hc) in Ht. apply Ht.
    - intros [(Hg & B & N)|(c & Hc & -> & N)].
      + split; [apply l_before_G; auto|]. rewrite l_behind_G by auto. auto.
      + pose proof (l_ip c Hc) as Hp. pose proof (proj2 (l_i _ _ _ _ _ _ L c (c_i c) Hc) eq_refl) as [H1 H2].
        split; [apply l_before_comp; auto|]. rewrite l_behind_comp by auto. tauto.
  Qed.
  Lemma l_sink q : sink R q <-> (G q /\ (exists t, post t q) /\ ~ exists t, pre t q) \/ (exists c, In c cs /\ q = c_p c (c_o c) /\ ~ exists t, pre t q).
  Proof.
    split.
    - intros [B N]. pose proof (behind_place _ _ (k_wf _ _ _ _ _ _ K) B) as Hp. apply (k_p _ _ _ _ _ _ K) in Hp. destruct Hp as [Hg|(c & p & Hc & Hp & ->)].
      + left. rewrite (l_behind_G q Hg) in B. rewrite (l_before_G q Hg) in N. auto.
      + right. exists c. rewrite (l_behind_comp c p Hc Hp) in B. rewrite (l_before_comp c p Hc Hp) in N.
        assert (p = c_o c) as ->; [|split; [auto|split; [auto|tauto]]].
        apply (l_o _ _ _ _ _ _ L c p Hc). split; [|tauto]. destruct B as [B|[t Ht]]; [auto|]. exfalso. apply N. left.
        apply (l_post _ _ _ _ _ _ L) in Ht; auto. apply (l_i _ _ _ _ _ _ L c p Hc) in Ht. apply Ht.
    - intros [(Hg & B & N)|(c & Hc & -> & N)].
      + split; [apply l_behind_G; auto|]. rewrite l_before_G by auto. auto.
      + pose proof (l_op c Hc) as Hp. pose proof (proj2 (l_o _ _ _ _ _ _ L c (c_o c) Hc) eq_refl) as [H1 H2].
        split; [apply l_behind_comp; auto|]. rewrite l_before_comp by auto. tauto.
  Qed.
End Linked.
