(** Integer graphs: the adjacency lists with order and multiplicity (C47) *)
From Verif.Model Require Import Base IntGraph.
From Verif.Spec Require Import Graphs IntGraphSpec.
From Verif.Lib Require Import ListLib.
From Verif.Proofs Require Import IntGraphA IntGraphB.
Open Scope nat_scope.

Definition exact_lists (h : list op) (s : store) : Prop :=
  forall i p g a l, nth_error (objects s) i = Some p -> nth_error (arrays s) p = Some g -> nth_error g a = Some l ->
    l = ends_after h i a.
Lemma exact_alloc h s o g : store_ok h s -> exact_lists h s ->
  (forall a l, nth_error g a = Some l -> l = ends_after (o :: h) (created h) a) ->
  (forall i a, i < created h -> ends_after (o :: h) i a = ends_after h i a) -> exact_lists (o :: h) (alloc s g).
Proof.
  intros S X Hg Ho i p g' a l Ep Eg El. cbn [alloc objects arrays] in *.
  destruct (Nat.lt_ge_cases i (length (objects s))) as [Hi|Hi].
  - rewrite nth_error_app1 in Ep by auto. destruct (s_obj _ _ S i p Ep) as (g0 & n & E0 & _).
    rewrite nth_error_app1 in Eg by (eapply nth_error_Some_lt; eauto). rewrite Ho by (rewrite <- (s_len _ _ S); auto). eauto.
  - assert (i = length (objects s)) as -> by (apply nth_error_Some_lt in Ep; rewrite app_length in Ep; cbn in Ep; lia).
    rewrite nth_error_app2, Nat.sub_diag in Ep by auto. injection Ep as <-.
    rewrite nth_error_app2, Nat.sub_diag in Eg by auto. injection Eg as <-. rewrite (s_len _ _ S). auto.
Qed.
Lemma exact_write h s o j p g s' : store_ok h s -> exact_lists h s -> nth_error (objects s) j = Some p ->
  (forall a l, nth_error g a = Some l -> l = ends_after (o :: h) j a) ->
  (forall i a, i <> j -> ends_after (o :: h) i a = ends_after h i a) -> write s p g = Ok s' -> exact_lists (o :: h) s'.
Proof.
  intros S X Ej Hg Ho Ew i q g' a l Ep Eg El. destruct (s_obj _ _ S j p Ej) as (g0 & n0 & Eg0 & _). apply nth_error_Some_lt in Eg0.
  unfold write in Ew. destruct (list_set_spec (arrays s) p g Eg0) as (ar & E1 & L1 & N1). rewrite E1 in Ew. cbn [of_option bind] in Ew.
  injection Ew as <-. cbn [objects arrays] in *. rewrite N1 in Eg. destruct (Nat.eqb_spec q p) as [->|Hne].
  - injection Eg as <-. assert (i = j) as ->; [|auto]. apply (proj1 (NoDup_nth_error (objects s)) (s_nd _ _ S)); [|congruence].
    eapply nth_error_Some_lt; eauto.
  - rewrite Ho by congruence. eauto.
Qed.
Lemma step_exact h s o s' : store_ok h s -> exact_lists h s -> step s o = Ok s' -> exact_lists (o :: h) s'.
Proof.
  intros S X E. destruct o as [n|j|j c d|j c d]; cbn [step] in E.
  - injection E as <-. apply exact_alloc; auto; cbn [ends_after].
    + intros a l El. rewrite Nat.eqb_refl. eapply repeat_spec, nth_error_In; eauto.
    + intros i a Hi. destruct (Nat.eqb_spec i (created h)); [lia|auto].
  - destruct (array_of s j) as [[p g]|] eqn:Ea; cbn [bind] in E; [|discriminate]. rewrite copy_graph_ok in E. cbn [bind] in E.
    injection E as <-. unfold array_of in Ea. destruct (nth_error (objects s) j) as [p'|] eqn:Ej; cbn [of_option bind] in Ea; [|discriminate].
    destruct (nth_error (arrays s) p') as [g'|] eqn:Eg; cbn [of_option bind] in Ea; [|discriminate]. injection Ea as -> ->.
    apply exact_alloc; auto; cbn [ends_after].
    + intros a l El. rewrite Nat.eqb_refl. eauto.
    + intros i a Hi. destruct (Nat.eqb_spec i (created h)); [lia|auto].
  - destruct (array_of s j) as [[p g]|] eqn:Ea; cbn [bind] in E; [|discriminate].
    unfold array_of in Ea. destruct (nth_error (objects s) j) as [p'|] eqn:Ej; cbn [of_option bind] in Ea; [|discriminate].
    destruct (nth_error (arrays s) p') as [g'|] eqn:Eg; cbn [of_option bind] in Ea; [|discriminate]. injection Ea as -> ->.
    unfold add_edge, adj_of in E. destruct (nth_error g c) as [l0|] eqn:E0; cbn [of_option bind] in E; [|discriminate].
    unfold set_adj in E. destruct (list_set_spec g c (l0 ++ [d])) as (h' & E1 & L1 & N1); [eapply nth_error_Some_lt; eauto|].
    rewrite E1 in E. cbn [of_option bind] in E. apply (exact_write h s (Add j c d) j p h' s' S X Ej); [| |exact E]; cbn [ends_after].
    + intros a l El. rewrite N1 in El. rewrite Nat.eqb_refl. cbn [andb]. destruct (Nat.eqb_spec a c) as [->|Hne].
      * injection El as <-. f_equal. eauto.
      * rewrite app_nil_r. eauto.
    + intros i a Hi. destruct (Nat.eqb_spec i j); [congruence|]. cbn [andb]. apply app_nil_r.
  - destruct (array_of s j) as [[p g]|] eqn:Ea; cbn [bind] in E; [|discriminate].
    unfold array_of in Ea. destruct (nth_error (objects s) j) as [p'|] eqn:Ej; cbn [of_option bind] in Ea; [|discriminate].
    destruct (nth_error (arrays s) p') as [g'|] eqn:Eg; cbn [of_option bind] in Ea; [|discriminate]. injection Ea as -> ->.
    unfold remove_edge, adj_of in E. destruct (nth_error g c) as [l0|] eqn:E0; cbn [of_option bind] in E; [|discriminate].
    unfold set_adj in E. destruct (list_set_spec g c (filter (fun x => negb (x =? d)) l0)) as (h' & E1 & L1 & N1); [eapply nth_error_Some_lt; eauto|].
    rewrite E1 in E. cbn [of_option bind] in E. apply (exact_write h s (Remove j c d) j p h' s' S X Ej); [| |exact E]; cbn [ends_after].
    + intros a l El. rewrite N1 in El. rewrite Nat.eqb_refl. cbn [andb]. destruct (Nat.eqb_spec a c) as [->|Hne].
      * injection El as <-. f_equal. eauto.
      * eauto.
    + intros i a Hi. destruct (Nat.eqb_spec i j); [congruence|]. auto.
Qed.
Lemma run_exact l : legal (rev l) -> exists s, run l = Ok s /\ store_ok (rev l) s /\ exact_lists (rev l) s.
Proof.
  induction l as [|o l IH] using rev_ind; intros HL.
  - eexists. split; [reflexivity|]. split; [constructor; cbn; [auto|constructor|]; intros [|i] p; discriminate|].
    intros [|i] p; discriminate.
  - rewrite rev_app_distr in *. cbn [rev app] in *. destruct IH as (s & E & S & X).
    { destruct o; cbn in HL; tauto. }
    unfold run in *. rewrite foldM_snoc, E. cbn [bind]. destruct (step_ok _ _ _ S HL) as (s' & E' & S'). exists s'.
    split; [auto|]. split; [auto|]. eapply step_exact; eauto.
Qed.

(** in the order of the additions, an edge added several times as often *)
Lemma C47_adjacent_list : forall l i n a, legal (rev l) -> size_after (rev l) i = Some n -> a < n ->
  exists s, run l = Ok s /\ ancestors s i a = Ok (ends_after (rev l) i a).
Proof.
  intros l i n a HL Hn Ha. destruct (run_exact l HL) as (s & Es & S & X).
  destruct (store_get _ s i n S Hn) as (p & g & Ea & Ep & Eg & G). destruct (nth_error_lt g a) as [m Em]; [destruct G; lia|].
  exists s. split; [auto|]. unfold ancestors, get_ancestors, adj_of. rewrite Ea. cbn [bind]. rewrite Em. cbn [of_option].
  f_equal. eauto.
Qed.
