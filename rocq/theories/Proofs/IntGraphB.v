(** Histories of calls on integer graphs *)
From Coq Require Import Relations.
From Verif.Model Require Import Base IntGraph.
From Verif.Lib Require Import ListLib DictLib.
From Verif.Spec Require Import Lists Logs Graphs IntGraphSpec.
From Verif.Proofs Require Import Selection DfgA DfgH DfgJ IntGraphA.
Open Scope list_scope.
Open Scope nat_scope.

Lemma foldM_snoc {A B} (f : B -> A -> result B) l x : forall b,
  foldM f (l ++ [x]) b = do b' <- foldM f l b ; f b' x.
Proof.
  induction l as [|y l IH]; intros b; cbn [foldM app bind].
  - destruct (f b x); auto.
  - destruct (f b y); cbn [bind]; auto.
Qed.

Lemma copy_graph_ok g : copy_graph g = Ok g.
Proof.
  unfold copy_graph.
  assert (G : forall k h, k <= length g -> length h = length g ->
     exists h', foldM (fun h v => do l <- adj_of g v ; set_adj h v l) (seq 0 k) h = Ok h' /\ length h' = length g /\
       forall i, nth_error h' i = if i <? k then nth_error g i else nth_error h i).
  { intros k h Hk Hh. induction k as [|k IH].
    - exists h. split; [auto|]. split; [auto|]. intros i. now destruct i.
    - destruct IH as (h1 & E1 & L1 & N1); [lia|]. rewrite seq_S, foldM_snoc, E1. cbn [bind plus].
      destruct (nth_error_lt g k) as [l El]; [lia|]. unfold adj_of. rewrite El. cbn [of_option bind]. unfold set_adj.
      destruct (list_set_spec h1 k l) as (h2 & E2 & L2 & N2); [lia|]. rewrite E2. cbn [of_option]. exists h2. split; [auto|]. split; [lia|].
      intros i. rewrite N2. destruct (Nat.eqb_spec i k) as [->|Hne].
      + rewrite (proj2 (Nat.ltb_lt k (S k))) by lia. auto.
      + rewrite N1. destruct (Nat.ltb_spec i k), (Nat.ltb_spec i (S k)); auto; lia. }
  destruct (G (length g) (repeat [] (length g))) as (h & E & L & N); [auto|apply repeat_length|].
  rewrite E. f_equal. apply nth_error_ext. intros i. rewrite N. destruct (Nat.ltb_spec i (length g)) as [|Hi]; [auto|].
  rewrite !(proj2 (nth_error_None _ _)); rewrite ?repeat_length; auto.
Qed.

Definition good (g : adjs) (n : nat) (E : nat -> nat -> Prop) : Prop :=
  length g = n /\ in_range g /\ forall a b, arc g a b <-> E a b.
Lemma change_adj g a l n E l' : good g n E -> nth_error g a = Some l -> Forall (fun w => w < n) l' ->
  exists h, set_adj g a l' = Ok h /\ good h n (fun x y => if x =? a then In y l' else E x y).
Proof.
  intros (H1 & H2 & H3) El Hl. apply nth_error_Some_lt in El as Ha. unfold set_adj.
  destruct (list_set_spec g a l' Ha) as (h & E1 & L1 & N1). rewrite E1. exists h. split; [auto|].
  split; [lia|]. split.
  - unfold in_range in *. apply Forall_forall. intros m Hm. apply In_nth_error in Hm as [i Hi]. rewrite N1 in Hi.
    rewrite L1, H1. destruct (Nat.eqb_spec i a); [congruence|]. rewrite Forall_forall in H2. apply nth_error_In in Hi.
    rewrite <- H1. auto.
  - intros x y. unfold arc. rewrite N1. destruct (Nat.eqb_spec x a) as [->|Hne]; [|apply H3].
    split; [intros (m & [= <-] & Hm); auto|eauto].
Qed.
Lemma good_ext g n E E' : (forall a b, E a b <-> E' a b) -> good g n E -> good g n E'.
Proof. intros HE (H1 & H2 & H3). split; [auto|]. split; [auto|]. intros. now rewrite H3. Qed.
Lemma good_lists g n E a l : good g n E -> nth_error g a = Some l -> Forall (fun w => w < n) l /\ forall y, In y l <-> E a y.
Proof.
  intros (H1 & H2 & H3) El. split.
  - unfold in_range in H2. rewrite Forall_forall in H2. rewrite <- H1. apply H2. eapply nth_error_In; eauto.
  - intros y. rewrite <- H3. unfold arc. rewrite El. split; [eauto|]. intros (m & [= <-] & Hm). auto.
Qed.
Lemma add_edge_ok g n E a b : good g n E -> a < n -> b < n ->
  exists h, add_edge g a b = Ok h /\ good h n (fun x y => (x = a /\ y = b) \/ E x y).
Proof.
  intros G Ha Hb. destruct (nth_error_lt g a) as [l El]; [destruct G; lia|]. unfold add_edge, adj_of. rewrite El. cbn [of_option bind].
  destruct (good_lists _ _ _ _ _ G El) as [F1 F2].
  destruct (change_adj g a l n E (l ++ [b]) G El) as (h & E1 & G1); [apply Forall_app; auto|].
  exists h. split; [auto|]. eapply good_ext; [|exact G1]. intros x y. cbn. destruct (Nat.eqb_spec x a) as [->|Hne].
  - rewrite in_app_iff, F2. cbn. intuition.
  - intuition.
Qed.
Lemma remove_edge_ok g n E a b : good g n E -> a < n ->
  exists h, remove_edge g a b = Ok h /\ good h n (fun x y => ~ (x = a /\ y = b) /\ E x y).
Proof.
  intros G Ha. destruct (nth_error_lt g a) as [l El]; [destruct G; lia|]. unfold remove_edge, adj_of. rewrite El. cbn [of_option bind].
  destruct (good_lists _ _ _ _ _ G El) as [F1 F2].
  destruct (change_adj g a l n E (filter (fun x => negb (x =? b)) l) G El) as (h & E1 & G1).
  { apply Forall_forall. intros x Hx. apply filter_In in Hx as [Hx _]. rewrite Forall_forall in F1. auto. }
  exists h. split; [auto|]. eapply good_ext; [|exact G1]. intros x y. cbn. destruct (Nat.eqb_spec x a) as [->|Hne].
  - rewrite filter_In, F2, negb_true_iff, Nat.eqb_neq. intuition.
  - intuition.
Qed.

Record store_ok (h : list op) (s : store) : Prop := {
  s_len : length (objects s) = created h;
  s_nd : NoDup (objects s);
  s_obj : forall i p, nth_error (objects s) i = Some p -> exists g n, nth_error (arrays s) p = Some g /\
     size_after h i = Some n /\ good g n (edge_after h i)
}.
Lemma size_none h i : created h <= i -> size_after h i = None.
Proof.
  revert i. induction h as [|[n|j|j a b|j a b] h IH]; intros i Hi; cbn in *; auto.
  - destruct (Nat.eqb_spec i (created h)); [lia|]. apply IH. lia.
  - destruct (Nat.eqb_spec i (created h)); [lia|]. apply IH. lia.
Qed.
Lemma store_get h s i n : store_ok h s -> size_after h i = Some n ->
  exists p g, array_of s i = Ok (p, g) /\ nth_error (objects s) i = Some p /\ nth_error (arrays s) p = Some g /\ good g n (edge_after h i).
Proof.
  intros S Hi. assert (Hlt : i < created h).
  { destruct (Nat.lt_ge_cases i (created h)) as [|Hge]; [auto|]. rewrite (size_none h i Hge) in Hi. discriminate. }
  destruct (nth_error_lt (objects s) i) as [p Ep]; [rewrite (s_len _ _ S); auto|].
  destruct (s_obj _ _ S i p Ep) as (g & n' & Eg & En & G). exists p, g. unfold array_of. rewrite Ep. cbn [of_option bind].
  rewrite Eg. cbn. split; [auto|]. split; [auto|]. split; [auto|]. congruence.
Qed.
Lemma alloc_ok h s o g n E : store_ok h s -> good g n E -> created (o :: h) = S (created h) ->
  (forall i, size_after (o :: h) i = if i =? created h then Some n else size_after h i) ->
  (forall i a b, edge_after (o :: h) i a b <-> if i =? created h then E a b else edge_after h i a b) ->
  store_ok (o :: h) (alloc s g).
Proof.
  intros S G Hc Hs He. constructor; cbn [alloc objects arrays].
  - rewrite app_length, Hc, (s_len _ _ S). cbn. lia.
  - apply NoDup_snoc; [apply S|]. intros Hin. apply In_nth_error in Hin as [i Hi].
    destruct (s_obj _ _ S i _ Hi) as (g' & n' & Eg & _). apply nth_error_Some_lt in Eg. lia.
  - intros i p Ep. rewrite Hs. destruct (Nat.eqb_spec i (created h)) as [->|Hne].
    + rewrite nth_error_app2 in Ep by (rewrite (s_len _ _ S); auto). rewrite (s_len _ _ S), Nat.sub_diag in Ep.
      injection Ep as <-. exists g, n. rewrite nth_error_app2, Nat.sub_diag by auto. split; [auto|]. split; [auto|].
      eapply good_ext; [|exact G]. intros a b. rewrite He, Nat.eqb_refl. tauto.
    + assert (Hi : i < length (objects s)).
      { apply nth_error_Some_lt in Ep. rewrite app_length, (s_len _ _ S) in Ep. cbn in Ep. rewrite (s_len _ _ S). lia. }
      rewrite nth_error_app1 in Ep by auto. destruct (s_obj _ _ S i p Ep) as (g' & n' & Eg & En & G').
      exists g', n'. rewrite nth_error_app1 by (eapply nth_error_Some_lt; eauto). split; [auto|]. split; [auto|].
      eapply good_ext; [|exact G']. intros a b. rewrite He. destruct (Nat.eqb_spec i (created h)); [congruence|tauto].
Qed.
Lemma write_ok h s o j p g n E : store_ok h s -> nth_error (objects s) j = Some p -> size_after h j = Some n -> good g n E ->
  created (o :: h) = created h -> (forall i, size_after (o :: h) i = size_after h i) ->
  (forall i a b, edge_after (o :: h) i a b <-> if i =? j then E a b else edge_after h i a b) ->
  exists s', write s p g = Ok s' /\ store_ok (o :: h) s'.
Proof.
  intros S Ej Hj G Hc Hs He. destruct (s_obj _ _ S j p Ej) as (g0 & n0 & Eg0 & _). apply nth_error_Some_lt in Eg0.
  unfold write. destruct (list_set_spec (arrays s) p g Eg0) as (ar & E1 & L1 & N1). rewrite E1. cbn [of_option bind].
  eexists. split; [reflexivity|]. constructor; cbn [objects arrays].
  - now rewrite Hc, (s_len _ _ S).
  - apply S.
  - intros i q Eq. destruct (s_obj _ _ S i q Eq) as (g' & n' & Eg & En & G').
    assert (Hij : q = p <-> i = j).
    { split; [|intros ->; congruence]. intros ->. apply (proj1 (NoDup_nth_error (objects s)) (s_nd _ _ S)); [|congruence].
      eapply nth_error_Some_lt; eauto. }
    rewrite N1, Hs. destruct (Nat.eqb_spec q p) as [->|Hne].
    + assert (i = j) by now apply Hij. subst i. exists g, n. split; [auto|]. split; [auto|].
      eapply good_ext; [|exact G]. intros a b. rewrite He, Nat.eqb_refl. tauto.
    + exists g', n'. split; [auto|]. split; [auto|]. eapply good_ext; [|exact G']. intros a b. rewrite He.
      destruct (Nat.eqb_spec i j) as [->|]; [exfalso; apply Hne, Hij; auto|tauto].
Qed.

Lemma step_ok h s o : store_ok h s -> legal (o :: h) -> exists s', step s o = Ok s' /\ store_ok (o :: h) s'.
Proof.
  intros S HL. destruct o as [n|j|j a b|j a b]; cbn [legal] in HL; cbn [step].
  - eexists. split; [reflexivity|]. apply (alloc_ok h s (New n) (new_graph n) n (fun _ _ => False)); auto.
    + split; [apply repeat_length|]. split.
      * apply Forall_forall. intros l Hl. apply repeat_spec in Hl. subst l. constructor.
      * intros x y. split; [|tauto]. intros (l & El & Hl). apply nth_error_In, repeat_spec in El. subst l. contradiction.
    + intros i x y. cbn. destruct (Nat.eqb_spec i (created h)); tauto.
  - destruct HL as [Hj HL]. destruct (nth_error_lt (objects s) j) as [p0 Ep0]; [rewrite (s_len _ _ S); auto|].
    destruct (s_obj _ _ S j p0 Ep0) as (g0 & n & _ & En & _).
    destruct (store_get h s j n S En) as (p & g & Ea & Ep & Eg & G). rewrite Ea. cbn [bind]. rewrite copy_graph_ok. cbn [bind].
    eexists. split; [reflexivity|]. apply (alloc_ok h s (Copy j) g n (edge_after h j)); auto.
    + intros i. cbn. rewrite En. auto.
    + intros i x y. cbn. destruct (Nat.eqb_spec i (created h)); tauto.
  - destruct HL as [(n & En & Ha & Hb) HL]. destruct (store_get h s j n S En) as (p & g & Ea & Ep & Eg & G).
    rewrite Ea. cbn [bind]. destruct (add_edge_ok g n _ a b G Ha Hb) as (g' & E' & G'). rewrite E'. cbn [bind].
    apply (write_ok h s (Add j a b) j p g' n _ S Ep En G'); auto. intros i x y. cbn.
    destruct (Nat.eqb_spec i j) as [->|Hne]; split.
    + intros [[= -> ->]|]; auto. + intros [[-> ->]|]; auto. + intros [[= ]|]; [congruence|auto]. + auto.
  - destruct HL as [(n & En & Ha & Hb) HL]. destruct (store_get h s j n S En) as (p & g & Ea & Ep & Eg & G).
    rewrite Ea. cbn [bind]. destruct (remove_edge_ok g n _ a b G Ha) as (g' & E' & G'). rewrite E'. cbn [bind].
    apply (write_ok h s (Remove j a b) j p g' n _ S Ep En G'); auto. intros i x y. cbn.
    destruct (Nat.eqb_spec i j) as [->|Hne]; split.
    + intros [H1 H2]. split; [|auto]. intros [-> ->]. auto.
    + intros [H1 H2]. split; [|auto]. intros [= -> ->]. auto.
    + tauto. + intros H. split; [congruence|auto].
Qed.
Lemma run_ok l : legal (rev l) -> exists s, run l = Ok s /\ store_ok (rev l) s.
Proof.
  induction l as [|o l IH] using rev_ind; intros HL.
  - eexists. split; [reflexivity|]. constructor; cbn; [auto|constructor|]. intros [|i] p; discriminate.
  - rewrite rev_app_distr in *. cbn [rev app] in *. destruct IH as (s & E & S).
    { destruct o; cbn in HL; tauto. }
    unfold run in *. rewrite foldM_snoc, E. cbn [bind]. now apply step_ok.
Qed.

(*P C46 Strongly connected components *)
Lemma C46_strongly_connected_components : forall l i n, legal (rev l) -> size_after (rev l) i = Some n ->
  let E := edge_after (rev l) i in
  exists s cs, run l = Ok s /\ find_strongly_connected_components s i = Ok cs /\
    NoDup (concat cs) /\ (forall x, In x (concat cs) <-> x < n) /\
    forall c, In c cs -> c <> [] /\
      forall x y, In x c -> In y c <-> connected0 E x y /\ connected0 E y x.
Proof.
  intros l i n HL Hn E. destruct (run_ok l HL) as (s & Es & S).
  destruct (store_get _ s i n S Hn) as (p & g & Ea & _ & _ & (G1 & G2 & G3)).
  destruct (scc_ok g G2) as (cs & Ec & H1 & H2 & H3 & _). exists s, cs. split; [auto|].
  unfold find_strongly_connected_components. rewrite Ea. cbn [bind]. split; [auto|]. split; [auto|].
  split; [intros x; rewrite H2, G1; tauto|]. intros c Hc. destruct (H3 c Hc) as [H4 H5]. split; [auto|].
  intros x y Hx. rewrite (H5 x y Hx). unfold mutually. rewrite !(connected0_ext (arc g) E); auto. tauto.
Qed.
(** no path leads from a later component to an earlier one *)
Lemma C46_components_in_topological_order : forall l i n, legal (rev l) -> size_after (rev l) i = Some n ->
  exists s cs, run l = Ok s /\ find_strongly_connected_components s i = Ok cs /\
    forall j k c d x y, j < k -> nth_error cs j = Some c -> nth_error cs k = Some d ->
      In x c -> In y d -> ~ connected0 (edge_after (rev l) i) y x.
Proof.
  intros l i n HL Hn. destruct (run_ok l HL) as (s & Es & S).
  destruct (store_get _ s i n S Hn) as (p & g & Ea & _ & _ & (G1 & G2 & G3)).
  destruct (scc_ok g G2) as (cs & Ec & _ & _ & _ & H5). exists s, cs. split; [auto|].
  unfold find_strongly_connected_components. rewrite Ea. cbn [bind]. split; [auto|].
  clear Ec. intros j k c d x y Hjk Hc Hd Hx Hy. rewrite <- (connected0_ext (arc g) _ y x (G3)).
  revert j k Hjk Hc Hd. induction H5 as [|c0 cs0 Hf Ho IH]; intros j k Hjk Hc Hd; [destruct j; discriminate|].
  destruct k as [|k]; [lia|]. destruct j as [|j]; cbn in Hc, Hd.
  - injection Hc as ->. rewrite Forall_forall in Hf. apply (Hf d); [eapply nth_error_In; eauto|auto|auto].
  - apply (IH j k); auto. lia.
Qed.

(*P C47 Integer graph edge operations *)
Lemma C47_edges_after_history : forall l i n a b, legal (rev l) -> size_after (rev l) i = Some n -> a < n ->
  exists s r, run l = Ok s /\ contains s i a b = Ok r /\ (r = true <-> edge_after (rev l) i a b).
Proof.
  intros l i n a b HL Hn Ha. destruct (run_ok l HL) as (s & Es & S).
  destruct (store_get _ s i n S Hn) as (p & g & Ea & _ & _ & G). destruct (nth_error_lt g a) as [m Em]; [destruct G; lia|].
  destruct (good_lists _ _ _ _ _ G Em) as [_ F]. unfold contains, contains_edge, adj_of. exists s, (existsb (Nat.eqb b) m).
  rewrite Ea. cbn [bind]. rewrite Em. cbn [of_option bind]. split; [auto|]. split; [auto|]. rewrite existsb_exists, <- F. split.
  - intros (x & Hx & Hb). apply Nat.eqb_eq in Hb. now subst.
  - intros Hb. exists b. split; [auto|apply Nat.eqb_refl].
Qed.
(** get_ancestors lists the nodes that the edges of a node lead to *)
Lemma C47_adjacent_nodes : forall l i n a, legal (rev l) -> size_after (rev l) i = Some n -> a < n ->
  exists s r, run l = Ok s /\ ancestors s i a = Ok r /\ forall b, In b r <-> edge_after (rev l) i a b.
Proof.
  intros l i n a HL Hn Ha. destruct (run_ok l HL) as (s & Es & S).
  destruct (store_get _ s i n S Hn) as (p & g & Ea & _ & _ & G). destruct (nth_error_lt g a) as [m Em]; [destruct G; lia|].
  destruct (good_lists _ _ _ _ _ G Em) as [_ F]. unfold ancestors, get_ancestors, adj_of. exists s, m.
  rewrite Ea. cbn [bind]. rewrite Em. auto.
Qed.
