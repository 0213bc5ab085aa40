(** Activity patterns, part 13: interleaving and examples *)
From Coq Require Import String Ascii ZArith Permutation.
From Verif.Model Require Import Base PetriNet ActivityPattern.
From Verif.Spec Require Import PetriSpec ActivityPatternSpec.
From Verif.Lib Require Import ListLib DictLib.
From Verif.Proofs Require Import PetriA PetriC PetriD PetriH ApA ApC ApH ApI ApJ ApN ApO ApK ApL.
Open Scope string_scope.
Open Scope list_scope.
Open Scope nat_scope.

(** runs by computation *)
Definition firesb (n : net) (M : string -> Z) (t : string) : bool :=
  match dict_get t (transitions n) with
  | Some tr => match t_guard tr with AcceptAlways => true | _ => false end && forallb (fun p => (1 <=? M p)%Z) (t_start tr)
  | None => false
  end.
Fixpoint runb (n : net) (M : string -> Z) (l : list string) : option (string -> Z) :=
  match l with
  | [] => Some M
  | t :: l' => if firesb n M t then runb n (fun p => M p + effect n t p)%Z l' else None
  end.
Lemma runb_ok n st : forall l M M1, runb n M l = Some M1 -> run n st M l M1.
Proof.
  induction l as [|t l IH]; intros M M1 E; cbn [runb] in E.
  - injection E as <-. constructor. auto.
  - destruct (firesb n M t) eqn:F; [|discriminate]. unfold firesb in F. destruct (dict_get t (transitions n)) as [tr|] eqn:Et; [|discriminate].
    apply andb_true_iff in F. destruct F as [F1 F2]. rewrite forallb_forall in F2. econstructor; [|apply IH, E].
    split; [eapply dict_get_Some_key; eauto|]. unfold guard_of, starts. rewrite Et. destruct (t_guard tr); try discriminate.
    split; [auto|]. split; [|auto]. intros p Hp. apply F2 in Hp. apply Z.leb_le. auto.
Qed.
Definition spelled_run (p : pattern) (i o : string) (l : list string) : bool :=
  match runb (pnet p) (one_at i) l with
  | Some M => forallb (fun q => (M q =? one_at o q)%Z) (keys (places (pnet p)))
  | None => false
  end.
Lemma spelled_run_ok st p i o l : made p -> source (pnet p) i -> sink (pnet p) o -> spelled_run p i o l = true -> speaks st p (letters p l).
Proof.
  intros M Hi Ho E. pose proof (made_good _ M) as G. unfold spelled_run in E. destruct (runb (pnet p) (one_at i) l) as [M1|] eqn:R; [|discriminate].
  apply (runb_ok (pnet p) st) in R. exists i, o, l. split; [auto|]. split; [auto|]. split; [|auto].
  eapply run_ext; [exact R|auto|]. intros q. rewrite forallb_forall in E. destruct (in_dec string_dec q (keys (places (pnet p)))) as [Hq|Hq].
  - symmetry. apply Z.eqb_eq, E, Hq.
  - rewrite (run_tokens _ _ _ _ _ q R). rewrite (sum_ext _ (fun _ => 0%Z)); [|intros t _; apply effect_no_place; [apply G|auto]]. rewrite sum_0.
    rewrite !one_at_other; [auto|..]; intros ->; apply Hq; [apply source_place|apply sink_place]; auto; apply G.
Qed.
Definition the (r : result (pattern * store)) : pattern := match r with Ok (p, _) => p | Err _ => Pattern new_net [] end.
Definition pattern_of (l : list cmd) (s : string) : pattern := the (new_pattern (fun l => l) [] (run_net l) (OneName s)).
Lemma pattern_of_made l s : is_workflow_net (run_net l) = true -> made (pattern_of l s).
Proof.
  intros E. apply (m_new (fun l => l) [] (run_net l) (OneName s) _ []); [apply run_built|intros x; apply Permutation_refl|].
  unfold pattern_of, new_pattern. rewrite E. reflexivity.
Qed.
Lemma works_ends p : made p -> is_workflow_net (pnet p) = true -> forall i o, pop (fun l => l) (fst (get_source_sink_places (pnet p))) = Ok i ->
  pop (fun l => l) (snd (get_source_sink_places (pnet p))) = Ok o -> source (pnet p) i /\ sink (pnet p) o.
Proof.
  intros M _ i o Ei Eo. pose proof (made_good _ M) as G. destruct (get_source_sink_places (pnet p)) as [so si] eqn:Q.
  apply source_sink_ok in Q; [|apply (w_trans _ (g_wf _ G))]. destruct Q as (_ & _ & D3 & D4). cbn [fst snd] in *. unfold pop in *.
  destruct so as [|x so]; [discriminate|]. destruct si as [|y si]; [discriminate|]. injection Ei as ->. injection Eo as ->.
  split; [apply D3|apply D4]; cbn; auto.
Qed.
(** one activity between the places s and e *)
Definition single_activity (x : string) : pattern := pattern_of [AddP "s" 0; AddP "e" 0; AddT x; Conn "s" x "e"] x.
Lemma any_in_order : any_order in_order.
Proof. intros l. apply Permutation_refl. Qed.
(** Sequences and parallel nets of patterns with the same ids can be nested to
    the left but not to the right. *)
Lemma C96_nesting_witness : exists a b c, made a /\ made b /\ made c /\ complete a /\ complete b /\ complete c /\
  forall f, In f [sequence; parallel] ->
    (exists p st p' st', f in_order [] a b = Ok (p, st) /\ f in_order st p c = Ok (p', st')) /\
    (exists p st, f in_order [] b c = Ok (p, st) /\ f in_order st a p = Err ValueError).
Proof.
  exists (single_activity "a"), (single_activity "b"), (single_activity "c").
  assert (C : forall x, In x ["a"; "b"; "c"] -> made (single_activity x) /\ complete (single_activity x)).
  { intros x Hx. assert (M : made (single_activity x)) by (apply pattern_of_made; destruct Hx as [<-|[<-|[<-|[]]]]; vm_compute; auto).
    split; [auto|]. apply (C95_made _ M). destruct Hx as [<-|[<-|[<-|[]]]]; vm_compute; auto. }
  destruct (C "a") as [Ma Ca]; [cbn; auto|]. destruct (C "b") as [Mb Cb]; [cbn; auto|]. destruct (C "c") as [Mc Cc]; [cbn; auto|].
  do 6 (split; [auto|]). intros f [<-|[<-|[]]]; (split; [do 4 eexists; split; [vm_compute; reflexivity|vm_compute; reflexivity]|do 2 eexists; split; [vm_compute; reflexivity|vm_compute; reflexivity]]).
Qed.

(** runs keep a weighted sum of tokens *)
Lemma run_weight n st w M l M1 : (forall t, has_transition n t -> fold_right Z.add 0%Z (map (fun '(p, k) => (k * effect n t p)%Z) w) = 0%Z) ->
  run n st M l M1 -> fold_right Z.add 0%Z (map (fun '(p, k) => (k * M1 p)%Z) w) = fold_right Z.add 0%Z (map (fun '(p, k) => (k * M p)%Z) w).
Proof.
  intros H R. induction R as [M M' E|M t M1 l M2 (F1 & F2 & F3 & F4) R IH].
  - f_equal. apply map_ext. intros [p k]. rewrite E. auto.
  - rewrite IH. specialize (H t F1). clear -F4 H. revert H.
    assert (forall d e : Z, fold_right Z.add 0%Z (map (fun '(p, k) => (k * effect n t p)%Z) w) = (d - e)%Z ->
      (fold_right Z.add 0 (map (fun '(p, k) => k * M1 p) w) = fold_right Z.add 0 (map (fun '(p, k) => k * M p) w) + (d - e))%Z); [|intros Q; rewrite (H 0%Z 0%Z Q); lia].
    induction w as [|[p k] w IH]; cbn [map fold_right]; intros d e E; [lia|]. rewrite (IH d (e + k * effect n t p)%Z) by lia. rewrite F4. lia.
Qed.
(** x puts a token on the sink and one on q, y brings the latter to the sink *)
Definition leaky : pattern := pattern_of [AddP "s" 0; AddP "q" 0; AddP "e" 0; AddT "x"; AddT "y"; Conn "s" "x" "e"; Conn "s" "x" "q"; Conn "q" "y" "e"] "n".
(** z takes one token and v another one *)
Definition greedy : pattern := pattern_of [AddP "s" 0; AddP "m" 0; AddP "e" 0; AddT "z"; AddT "v"; Conn "s" "z" "m"; Conn "s" "v" "e"; Conn "m" "v" "e"] "n".
(** x puts a token on the sink and one on q, which y takes with one from the source *)
Definition again : pattern := pattern_of [AddP "s" 0; AddP "q" 0; AddP "e" 0; AddT "x"; AddT "y"; Conn "s" "x" "e"; Conn "s" "x" "q"; Conn "q" "y" "e"; Conn "s" "y" "e"] "n".
Lemma connected_b n : forallb (fun t => negb (length (starts n t) =? 0) && negb (length (ends n t) =? 0)) (keys (transitions n)) = true -> connected n.
Proof.
  intros H t Ht. rewrite forallb_forall in H. apply H in Ht. apply andb_true_iff in Ht. destruct Ht as [H1 H2].
  destruct (starts n t); [discriminate|]. destruct (ends n t); [discriminate|]. split; discriminate.
Qed.
(** Without the condition that no second token comes to the sink, a sequence can
    have words although neither part has any. *)
Lemma C97_sequence_witness : exists a b p st' w, made a /\ made b /\ connected (pnet a) /\ connected (pnet b) /\
  sequence in_order [] a b = Ok (p, st') /\ (forall st u, ~ speaks st a u) /\ (forall st v, ~ speaks st b v) /\ forall st, speaks st p w.
Proof.
  assert (Ma : made leaky) by (apply pattern_of_made; vm_compute; auto).
  assert (Mb : made greedy) by (apply pattern_of_made; vm_compute; auto).
  exists leaky, greedy.
  destruct (sequence in_order [] leaky greedy) as [[p st']|] eqn:E; [|vm_compute in E; discriminate].
  exists p, st', (letters p ["x"; "y"; "e,s'"; "z"; "e,s'"; "v"]). split; [auto|]. split; [auto|].
  split; [apply connected_b; vm_compute; auto|]. split; [apply connected_b; vm_compute; auto|]. split; [auto|].
  assert (Mp : made p) by (exact (m_sequence _ _ _ _ _ _ Ma Mb any_in_order E)).
  split; [|split].
  - intros st u (i & o & l & Hi & Ho & R & _).
    destruct (works_ends leaky Ma) with (i := "s") (o := "e") as [So Si]; [vm_compute; auto..|].
    assert (i = "s") by (apply (g_src _ (made_good _ Ma)); auto). assert (o = "e") by (apply (g_snk _ (made_good _ Ma)); auto). subst.
    pose proof (run_weight (pnet leaky) st [("s", 2%Z); ("q", 1%Z); ("e", 1%Z)] _ _ _ ltac:(intros t Ht; vm_compute in Ht; destruct Ht as [<-|[<-|[]]]; vm_compute; auto) R) as W.
    vm_compute in W. discriminate.
  - intros st u (i & o & l & Hi & Ho & R & _).
    destruct (works_ends greedy Mb) with (i := "s") (o := "e") as [So Si]; [vm_compute; auto..|].
    assert (i = "s") by (apply (g_src _ (made_good _ Mb)); auto). assert (o = "e") by (apply (g_snk _ (made_good _ Mb)); auto). subst.
    pose proof (run_weight (pnet greedy) st [("s", 1%Z); ("m", 1%Z); ("e", 2%Z)] _ _ _ ltac:(intros t Ht; vm_compute in Ht; destruct Ht as [<-|[<-|[]]]; vm_compute; auto) R) as W.
    vm_compute in W. discriminate.
  - intros st. vm_compute in E. injection E as <- _. clear Mp. idtac.
    match goal with |- speaks st ?p _ => assert (Mp : made p) end; [|].
    { apply (m_sequence in_order [] leaky greedy _ [] Ma Mb any_in_order). vm_compute. reflexivity. }
    match goal with |- speaks st ?p _ => destruct (works_ends p Mp) with (i := "s") (o := "e'") as [So Si]; [vm_compute; auto..|] end.
    refine (spelled_run_ok st _ _ _ _ Mp So Si _). vm_compute. reflexivity.
Qed.
Lemma fires_from n st M t M1 : fires n st M t M1 -> has_transition n t /\ (forall p, In p (starts n t) -> (1 <= M p)%Z) /\ forall p, M1 p = (M p + effect n t p)%Z.
Proof. intros (H1 & _ & H2 & H3). auto. Qed.
(** Without the condition that nothing is left behind, a repetition can have
    words although the pattern has none. *)
Lemma C97_repetition_witness : exists a p st' w, made a /\ connected (pnet a) /\ unbounded_repetition in_order [] a = Ok (p, st') /\
  (forall st u, ~ speaks st a u) /\ forall st, speaks st p w.
Proof.
  assert (Ma : made again) by (apply pattern_of_made; vm_compute; auto).
  exists again. destruct (unbounded_repetition in_order [] again) as [[p st']|] eqn:E; [|vm_compute in E; discriminate].
  exists p, st', (letters p ["s"; "x"; "s,e"; "y"; "e"]). split; [auto|]. split; [apply connected_b; vm_compute; auto|]. split; [auto|]. split.
  - intros st u (i & o & l & Hi & Ho & R & _).
    destruct (works_ends again Ma) with (i := "s") (o := "e") as [So Si]; [vm_compute; auto..|].
    assert (i = "s") by (apply (g_src _ (made_good _ Ma)); auto). assert (o = "e") by (apply (g_snk _ (made_good _ Ma)); auto). subst.
    assert (T : forall t, has_transition (pnet again) t -> t = "x" \/ t = "y") by (intros t Ht; vm_compute in Ht; destruct Ht as [<-|[<-|[]]]; auto).
    destruct l as [|t l]; [apply run_nil_inv with (p := "s") in R; vm_compute in R; discriminate|].
    apply run_cons_inv in R. destruct R as (M1 & F & R). apply fires_from in F. destruct F as (F1 & F2 & F3). apply T in F1. destruct F1 as [->| ->].
    + destruct l as [|t l].
      * apply run_nil_inv with (p := "q") in R. rewrite F3 in R. vm_compute in R. discriminate.
      * apply run_cons_inv in R. destruct R as (M2 & F & R). apply fires_from in F. destruct F as (F4 & F5 & _). specialize (F5 "s"). rewrite F3 in F5.
        apply T in F4. assert (In "s" (starts (pnet again) t)) as S by (destruct F4 as [->| ->]; vm_compute; auto). apply F5 in S. vm_compute in S. destruct S; auto.
    + specialize (F2 "q" ltac:(vm_compute; auto)). vm_compute in F2. destruct F2; auto.
  - intros st. vm_compute in E. injection E as <- _.
    match goal with |- speaks st ?p _ => assert (Mp : made p) end.
    { apply (m_repetition in_order [] again _ [] Ma any_in_order). vm_compute. reflexivity. }
    match goal with |- speaks st ?p _ => destruct (works_ends p Mp) with (i := "s'") (o := "e'") as [So Si]; [vm_compute; auto..|] end.
    refine (spelled_run_ok st _ _ _ _ Mp So Si _). vm_compute. reflexivity.
Qed.

(*P C98 Interleavings of activity patterns *)
(** The net that interleaves two patterns never gets rid of its mutex token: no
    word leads to the marking with one token on the sink and no other. *)
Lemma C98_no_words : forall ord st a b p st', any_order ord -> made a -> made b -> interleaving ord st a b = Ok (p, st') ->
  forall st w, ~ speaks st p w.
Proof.
  intros ord st a b p st' HO Ma Mb E. pose proof (made_good _ Ma) as Ga. pose proof (made_good _ Mb) as Gb.
  destruct (parts_complete ord st a b interleaving p st' HO Ga Gb ltac:(cbn; auto) E) as [[[s1 S1] [e1 E1]] [[s2 S2] [e2 E2]]].
  destruct (interleaving_case ord st a b s1 e1 s2 e2 HO Ga Gb S1 E1 S2 E2) as [[F _]|(p' & st'' & F & _ & _ & H & _)]; [congruence|].
  assert (p' = p) by congruence. subst p'. exact H.
Qed.
(** The words with which a token comes to its sink are all the interleavings of
    such words of both patterns: they do not exclude one another. *)
Lemma C98_arrives : forall ord st a b p st', any_order ord -> made a -> made b -> interleaving ord st a b = Ok (p, st') ->
  forall st w, arrives st p w <-> exists u v, shuffle u v w /\ arrives st a u /\ arrives st b v.
Proof.
  intros ord st a b p st' HO Ma Mb E. pose proof (made_good _ Ma) as Ga. pose proof (made_good _ Mb) as Gb.
  destruct (parts_complete ord st a b interleaving p st' HO Ga Gb ltac:(cbn; auto) E) as [[[s1 S1] [e1 E1]] [[s2 S2] [e2 E2]]].
  destruct (interleaving_case ord st a b s1 e1 s2 e2 HO Ga Gb S1 E1 S2 E2) as [[F _]|(p' & st'' & F & _ & _ & _ & H)]; [congruence|].
  assert (p' = p) by congruence. subst p'. exact H.
Qed.
(** two activities one after the other *)
Definition two_steps (x y : string) : pattern := pattern_of [AddP "s" 0; AddP "m" 0; AddP "e" 0; AddT x; AddT y; Conn "s" x "m"; Conn "m" y "e"] "n".
Lemma two_steps_words x y st w : (x, y) = ("a", "b") \/ (x, y) = ("c", "d") ->
  speaks st (two_steps x y) w <-> w = [(x, Some "n"); (y, Some "n")].
Proof.
  intros C. assert (M : made (two_steps x y)) by (apply pattern_of_made; destruct C as [C|C]; injection C as -> ->; vm_compute; auto).
  assert (S : source (pnet (two_steps x y)) "s" /\ sink (pnet (two_steps x y)) "e") by (apply works_ends; auto; destruct C as [C|C]; injection C as -> ->; vm_compute; auto).
  destruct S as [So Si]. assert (L : letters (two_steps x y) [x; y] = [(x, Some "n"); (y, Some "n")]) by (destruct C as [C|C]; injection C as -> ->; vm_compute; auto).
  split.
  - intros (i & o & l & Hi & Ho & R & <-).
    assert (i = "s") by (apply (g_src _ (made_good _ M)); auto). assert (o = "e") by (apply (g_snk _ (made_good _ M)); auto). subst.
    rewrite <- L. f_equal.
    assert (T : forall t, has_transition (pnet (two_steps x y)) t -> t = x \/ t = y) by (intros t Ht; destruct C as [C|C]; injection C as -> ->; vm_compute in Ht; destruct Ht as [<-|[<-|[]]]; auto).
    assert (T1 : In "s" (starts (pnet (two_steps x y)) x) /\ In "m" (starts (pnet (two_steps x y)) y)) by (destruct C as [C|C]; injection C as -> ->; vm_compute; auto).
    assert (T2 : map (effect (pnet (two_steps x y)) x) ["s"; "m"; "e"] = [-1; 1; 0]%Z /\ map (effect (pnet (two_steps x y)) y) ["s"; "m"; "e"] = [0; -1; 1]%Z)
      by (destruct C as [C|C]; injection C as -> ->; vm_compute; auto).
    clear L C So Si Hi Ho M. destruct T1 as [T1 T3]. cbn [map] in T2. destruct T2 as [T2 T4]. injection T2 as A1 A2 A3. injection T4 as B1 B2 B3.
    assert (O1 : one_at "s" "s" = 1%Z) by reflexivity. assert (O2 : one_at "s" "m" = 0%Z) by reflexivity. assert (O3 : one_at "s" "e" = 0%Z) by reflexivity.
    assert (P1 : one_at "e" "s" = 0%Z) by reflexivity. assert (P2 : one_at "e" "m" = 0%Z) by reflexivity.
    destruct l as [|t l]; [apply run_nil_inv with (p := "s") in R; lia|].
    apply run_cons_inv in R. destruct R as (M1 & F & R). apply fires_from in F. destruct F as (F1 & F2 & F3).
    destruct (T _ F1) as [-> | ->]; [|specialize (F2 "m" T3); lia].
    pose proof (F3 "s") as G1. pose proof (F3 "m") as G2. pose proof (F3 "e") as G3.
    destruct l as [|t l]; [apply run_nil_inv with (p := "m") in R; lia|].
    apply run_cons_inv in R. destruct R as (M2 & F & R). apply fires_from in F. destruct F as (F4 & F5 & F6).
    destruct (T _ F4) as [-> | ->]; [specialize (F5 "s" T1); lia|].
    pose proof (F6 "s") as K1. pose proof (F6 "m") as K2.
    destruct l as [|t l]; [auto|]. apply run_cons_inv in R. destruct R as (M3 & F & R). apply fires_from in F. destruct F as (F7 & F8 & _).
    destruct (T _ F7) as [-> | ->]; [specialize (F8 "s" T1)|specialize (F8 "m" T3)]; lia.
  - intros ->. rewrite <- L. apply (spelled_run_ok st _ "s" "e" [x; y]); auto. destruct C as [C|C]; injection C as -> ->; vm_compute; auto.
Qed.
Lemma speaks_arrives st p w : speaks st p w -> arrives st p w.
Proof. intros (i & o & l & H1 & H2 & H3 & H4). exists i, o, l, (one_at o). rewrite one_at_same. do 3 (split; [assumption|]). split; [lia|assumption]. Qed.
(** so the activities of one pattern come between those of the other *)
Lemma C98_mutex_witness : exists a b p st' u1 u2 v1 v2, made a /\ made b /\ interleaving in_order [] a b = Ok (p, st') /\
  (forall st w, speaks st a w <-> w = [u1; u2]) /\ (forall st w, speaks st b w <-> w = [v1; v2]) /\ forall st, arrives st p [u1; v1; u2; v2].
Proof.
  assert (Ma : made (two_steps "a" "b")) by (apply pattern_of_made; vm_compute; auto).
  assert (Mb : made (two_steps "c" "d")) by (apply pattern_of_made; vm_compute; auto).
  exists (two_steps "a" "b"), (two_steps "c" "d").
  destruct (interleaving in_order [] (two_steps "a" "b") (two_steps "c" "d")) as [[p st']|] eqn:E; [|vm_compute in E; discriminate].
  exists p, st', ("a", Some "n"), ("b", Some "n"), ("c", Some "n"), ("d", Some "n"). split; [auto|]. split; [auto|]. split; [auto|].
  split; [intros; apply two_steps_words; auto|]. split; [intros; apply two_steps_words; auto|].
  intros st. apply (C98_arrives _ _ _ _ _ _ any_in_order Ma Mb E). exists [("a", Some "n"); ("b", Some "n")], [("c", Some "n"); ("d", Some "n")].
  split; [repeat constructor|]. split; apply speaks_arrives, two_steps_words; auto.
Qed.
