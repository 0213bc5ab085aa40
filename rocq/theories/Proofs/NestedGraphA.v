(** Nested graphs: equality of edges, subgraphs, lowest level nodes (for C65) *)
From Coq Require Import String.
From Verif.Model Require Import Base NestedGraph Transactions.
From Verif.Spec Require Import NestedSpec.
From Verif.Lib Require Import ListLib DictLib.
From Verif.Proofs Require Import PetriC Transactions.
Open Scope string_scope.
Open Scope list_scope.
Open Scope nat_scope.

Lemma dict_eqb_refl {K W} `{Eq K} (eq : W -> W -> bool) (d : dict K W) :
  (forall w, eq w w = true) -> NoDup (keys d) -> dict_eqb eq d d = true.
Proof.
  intros He Hn. unfold dict_eqb. rewrite Nat.eqb_refl. cbn [andb]. apply forallb_forall. intros [k v] Hin.
  rewrite (dict_In_get _ _ _ Hn Hin). auto.
Qed.
Lemma NoDup_keys_pairs {K W} (d : dict K W) : NoDup (keys d) -> NoDup d.
Proof. apply NoDup_map_inv. Qed.
Lemma dict_eqb_get {K W} `{Eq K} `{Eq W} (d e : dict K W) : NoDup (keys d) -> NoDup (keys e) ->
  dict_eqb eqb d e = true <-> forall k, dict_get k d = dict_get k e.
Proof.
  intros Hd He. unfold dict_eqb. rewrite andb_true_iff, forallb_forall, Nat.eqb_eq. split.
  - intros [Hl Hs].
    assert (Hi : incl d e).
    { intros [k v] Hin. specialize (Hs _ Hin). cbn in Hs. destruct (dict_get k e) eqn:E; [|discriminate].
      destruct (eqb_ok v w); [subst|discriminate]. apply dict_get_In. auto. }
    assert (Hj : incl e d) by (apply NoDup_length_incl; [apply NoDup_keys_pairs; auto|lia|auto]).
    intros k. destruct (dict_get k d) as [v|] eqn:E1; symmetry.
    + apply dict_In_get; auto. apply Hi, dict_get_In. auto.
    + apply dict_get_None. intros Hk. destruct (dict_get_key _ _ Hk) as [v E2]. apply dict_get_In in E2. apply Hj in E2.
      apply (dict_In_get _ _ _ Hd) in E2. congruence.
  - intros Hg. split.
    + assert (Hinc : forall (a b : dict K W), NoDup (keys a) -> NoDup (keys b) -> (forall k, dict_get k a = dict_get k b) -> length a <= length b).
      { intros a b Ha Hb Hab. apply NoDup_incl_length; [apply NoDup_keys_pairs; auto|]. intros [k v] Hin.
        apply (dict_In_get _ _ _ Ha) in Hin. rewrite Hab in Hin. apply dict_get_In; auto. }
      apply Nat.le_antisymm; apply Hinc; auto.
    + intros [k v] Hin. apply (dict_In_get _ _ _ Hd) in Hin. rewrite <- Hg, Hin. apply eqb_refl.
Qed.

Lemma foldM_collect {X Y} (f : list Y -> X -> result (list Y)) (P : X -> Y -> Prop) (l : list X) :
  (forall x acc, In x l -> exists r, f acc x = Ok (acc ++ r) /\ forall y, In y r <-> P x y) ->
  forall acc, exists r, foldM f l acc = Ok r /\ forall y, In y r <-> In y acc \/ exists x, In x l /\ P x y.
Proof.
  induction l as [|x l IH]; intros Hf acc; cbn [foldM].
  - exists acc. split; auto. intros y. split; [auto|]. intros [|(x & [] & _)]; auto.
  - destruct (Hf x acc (or_introl eq_refl)) as (r & E & Hr). rewrite E. cbn [bind].
    destruct (IH (fun x acc Hx => Hf x acc (or_intror Hx)) (acc ++ r)) as (r' & E' & Hr'). exists r'. split; auto.
    intros y. rewrite Hr', in_app_iff, Hr. split.
    + intros [[|]|(z & ? & ?)]; [auto|right; exists x; cbn; auto|right; exists z; cbn; auto].
    + intros [|(z & [<-|Hz] & Hp)]; [auto|auto|right; exists z; auto].
Qed.

Section G.
  Context {V : Type} `{HV : Eq V}.
  Implicit Types (g : graph V) (n : node V) (e : edge V).

  Lemma edge_eqb_iff e e' : NoDup (keys (e_attributes e)) -> NoDup (keys (e_attributes e')) ->
    edge_eqb e e' = true <-> e_id e = e_id e' /\ source e = source e' /\ target e = target e' /\
      forall k, dict_get k (e_attributes e) = dict_get k (e_attributes e').
  Proof.
    intros H1 H2. unfold edge_eqb. rewrite !andb_true_iff, dict_eqb_get by auto.
    destruct (eqb_ok (e_id e) (e_id e')), (eqb_ok (source e) (source e')), (eqb_ok (target e) (target e')); intuition congruence.
  Qed.
  Lemma edge_eqb_new a b c e : edge_eqb (Edge a b c []) e = true <-> e = Edge a b c [].
  Proof.
    unfold edge_eqb. destruct e as [a' b' c' d]. cbn [e_id source target e_attributes]. rewrite !andb_true_iff.
    destruct (eqb_ok a a') as [<-|], (eqb_ok b b') as [<-|], (eqb_ok c c') as [<-|]; split; try (intuition congruence).
    - destruct d; [auto|]. cbn. intuition discriminate.
    - intros Q. injection Q as ->. cbn. auto.
  Qed.
  Lemma edge_set_add_new a b c s e : In e (edge_set_add (Edge a b c []) s) <-> e = Edge a b c [] \/ In e s.
  Proof.
    unfold edge_set_add. destruct (existsb (edge_eqb (Edge a b c [])) s) eqn:E.
    - split; [auto|]. intros [->|]; auto. apply existsb_exists in E. destruct E as (f & Hf & E). apply edge_eqb_new in E. subst; auto.
    - rewrite in_app_iff. cbn. intuition.
  Qed.

  (** lists of edges in which equal edges are identical *)
  Definition apart (l : list (edge V)) : Prop :=
    (forall e, In e l -> edge_eqb e e = true) /\ forall e f, In e l -> In f l -> edge_eqb e f = true -> e = f.
  Lemma edge_set_add_apart l e s f : apart l -> In e l -> incl s l -> In f (edge_set_add e s) <-> f = e \/ In f s.
  Proof.
    intros [Hr Ha] He Hs. unfold edge_set_add. destruct (existsb (edge_eqb e) s) eqn:E.
    - split; [auto|]. intros [->|]; auto. apply existsb_exists in E. destruct E as (f' & Hf & E). apply Ha in E; auto. subst; auto.
    - rewrite in_app_iff. cbn. intuition.
  Qed.
  Lemma edge_set_add_NoDup l e s : apart l -> In e l -> incl s l -> NoDup s -> NoDup (edge_set_add e s).
  Proof.
    intros [Hr Ha] He Hs Hn. unfold edge_set_add. destruct (existsb (edge_eqb e) s) eqn:E; auto.
    apply (NoDup_Add (a:=e) (l:=s)); [rewrite <- (app_nil_r s) at 1; apply Add_app|]. split; auto.
    intros Hin. rewrite (proj2 (existsb_exists _ s)) in E; [discriminate|]. exists e. auto.
  Qed.
  Lemma proper_apart g : proper g -> apart (edges g) /\ NoDup (edges g).
  Proof.
    intros (_ & _ & _ & Ha & Hd).
    assert (Hr : forall e, In e (edges g) -> edge_eqb e e = true).
    { intros e He. apply edge_eqb_iff; auto. }
    split; [split; [auto|]|].
    - intros e f He Hf E. apply In_nth_error in He, Hf. destruct He as [i Hi], Hf as [j Hj]. pose proof (Hd i j e f Hi Hj E). congruence.
    - apply NoDup_nth_error. intros i j Hi E. destruct (nth_error (edges g) i) as [e|] eqn:Ei; [|apply nth_error_None in Ei; lia].
      apply (Hd i j e e); auto. apply Hr. eapply nth_error_In; eauto.
  Qed.

  Lemma proper_ids g : proper g -> map id (values (nodes g)) = keys (nodes g).
  Proof.
    intros (_ & Hid & _). unfold values, keys. rewrite map_map. apply map_ext_in. intros [k n] Hin. apply Hid. auto.
  Qed.
  Lemma proper_node_inj g n m : proper g -> has_node g n -> has_node g m -> id n = id m -> n = m.
  Proof.
    intros Hp Hn Hm E. pose proof (proper_ids g Hp) as Ei. destruct Hp as (Hk & _). rewrite <- Ei in Hk. unfold has_node in *.
    clear Ei. induction (values (nodes g)) as [|x l IH]; [destruct Hn|]. cbn in Hk. inversion Hk; subst.
    destruct Hn as [<-|Hn], Hm as [<-|Hm]; auto.
    - exfalso. apply H1. rewrite E. apply in_map; auto.
    - exfalso. apply H1. rewrite <- E. apply in_map; auto.
  Qed.
  Lemma get_node_ok g n : proper g -> has_node g n -> get_node_by_id (id n) g = Ok n.
  Proof.
    intros (Hk & Hid & _) Hn. unfold get_node_by_id. unfold has_node, values in Hn. apply in_map_iff in Hn. destruct Hn as ([k n'] & <- & Hin).
    cbn. rewrite (Hid _ _ Hin). rewrite (dict_In_get _ _ _ Hk Hin). auto.
  Qed.
  Lemma get_node_inv g i n : proper g -> get_node_by_id i g = Ok n -> has_node g n /\ id n = i.
  Proof.
    intros (Hk & Hid & _) E. unfold get_node_by_id in E. destruct (dict_get i (nodes g)) eqn:Q; [|discriminate]. injection E as ->.
    apply dict_get_In in Q. split; [apply (in_map snd) in Q; auto|]. eauto.
  Qed.
  Lemma has_children_ok g i : has_children i g = true <-> exists c, child g c i.
  Proof.
    unfold has_children. rewrite existsb_exists. split.
    - intros (n & Hn & E). exists (id n), n. split; [auto|]. split; [auto|]. apply (proj1 (eqb_eq _ _)) in E. auto.
    - intros (c & n & Hn & _ & E). exists n. split; auto. rewrite E. apply eqb_refl.
  Qed.
  Lemma has_children_false g i : has_children i g = false <-> forall c, ~ child g c i.
  Proof.
    split.
    - intros E c Hc. rewrite (proj2 (has_children_ok g i)) in E; [discriminate|eauto].
    - intros Hn. destruct (has_children i g) eqn:E; auto. apply has_children_ok in E. destruct E as [c Hc]. destruct (Hn c Hc).
  Qed.

  Lemma children_In g i n : In n (get_children i g) <-> has_node g n /\ parent n = Some i.
  Proof.
    unfold get_children. rewrite filter_In. unfold has_node. split; intros [Hn E]; (split; [auto|]).
    - apply (proj1 (eqb_eq _ _)) in E. auto.
    - rewrite E. apply eqb_refl.
  Qed.
  Lemma add_edges_nodes (l : list (edge V)) : forall g, nodes (fold_left (fun sub e => add_edge e sub) l g) = nodes g.
  Proof. induction l as [|e l IH]; intros g; cbn [fold_left]; auto. rewrite IH. auto. Qed.
  Lemma add_edges_In E0 (l : list (edge V)) : apart E0 -> incl l E0 -> forall g, incl (edges g) E0 -> forall e,
    In e (edges (fold_left (fun sub e => add_edge e sub) l g)) <-> In e l \/ In e (edges g).
  Proof.
    intros Ha. induction l as [|x l IH]; intros Hl g Hg e; cbn [fold_left]; [cbn; tauto|].
    assert (Hx : forall f, In f (edges (add_edge x g)) <-> f = x \/ In f (edges g)).
    { intros f. apply (edge_set_add_apart E0); auto. apply Hl; cbn; auto. }
    rewrite IH; [rewrite Hx; cbn; intuition|intros f Hf; apply Hl; cbn; auto|].
    intros f Hf. apply Hx in Hf. destruct Hf as [->|]; auto. apply Hl; cbn; auto.
  Qed.
  Lemma subgraph_ok g i : proper g ->
    values (nodes (get_subgraph i g)) = get_children i g /\
    forall e, In e (edges (get_subgraph i g)) <-> has_edge g e /\ child g (source e) i.
  Proof.
    intros Hp. pose proof (proper_apart g Hp) as [Ha _].
    assert (Hn : NoDup (map id (get_children i g))).
    { pose proof (proper_ids g Hp) as Ei. destruct Hp as (Hk & _). rewrite <- Ei in Hk. unfold get_children. clear - Hk.
      induction (values (nodes g)) as [|x l IH]; cbn [filter map]; [constructor|]. cbn in Hk. inversion Hk; subst.
      destruct (eqb (parent x) (Some i)); auto. cbn. constructor; auto. intros Hin. apply H1. apply in_map_iff in Hin.
      destruct Hin as (y & E & Hy). apply filter_In in Hy. rewrite <- E. apply in_map. tauto. }
    assert (Hc : forall n, In n (get_children i g) -> has_node g n /\ parent n = Some i) by (intros n; apply children_In).
    assert (G : forall l s, NoDup (keys (nodes s) ++ map id l) -> incl (edges s) (edges g) ->
      let s' := fold_left (fun sub n => fold_left (fun sub e => add_edge e sub) (get_outgoing_edges (id n) g) (add_node n sub)) l s in
      nodes s' = nodes s ++ map (fun n => (id n, n)) l /\
      forall e, In e (edges s') <-> In e (edges s) \/ has_edge g e /\ exists n, In n l /\ source e = id n).
    { induction l as [|n l IH]; intros s Hs Hinc; cbn [fold_left].
      - cbn [map]. rewrite app_nil_r. split; auto. intros e. split; [auto|]. intros [|(_ & n & [] & _)]; auto.
      - set (s1 := fold_left (fun sub e => add_edge e sub) (get_outgoing_edges (id n) g) (add_node n s)).
        assert (E1 : nodes s1 = nodes s ++ [(id n, n)]).
        { unfold s1. rewrite add_edges_nodes. cbn [add_node nodes]. apply set_fresh. cbn [map] in Hs. apply NoDup_remove_2 in Hs.
          intros Hk. apply Hs. apply in_or_app. auto. }
        assert (Ho : forall e, In e (get_outgoing_edges (id n) g) <-> has_edge g e /\ source e = id n).
        { intros e. unfold get_outgoing_edges, has_edge. rewrite filter_In. destruct (eqb_ok (source e) (id n)); intuition congruence. }
        assert (E2 : forall e, In e (edges s1) <-> (has_edge g e /\ source e = id n) \/ In e (edges s)).
        { intros e. unfold s1. rewrite (add_edges_In (edges g)); auto.
          - rewrite Ho. cbn [add_node edges]. tauto.
          - intros f Hf. apply Ho in Hf. apply Hf. }
        destruct (IH s1) as [H1 H2].
        + rewrite E1, keys_app, <- app_assoc. auto.
        + intros e He. apply E2 in He. destruct He as [[He _]|He]; auto.
        + split.
          * rewrite H1, E1, <- app_assoc. auto.
          * intros e. rewrite H2, E2. split.
            -- intros [[[He Es]|]|(He & m & Hm & Es)]; [right|auto|right]; (split; [auto|]); eexists; (split; [|exact Es]); cbn; auto.
            -- intros [|(He & m & [<-|Hm] & Es)]; [auto|auto|right]. split; eauto. }
    destruct (G (get_children i g) empty) as [H1 H2]; [auto|intros e []|]. fold (get_subgraph i g) in H1, H2. split.
    - rewrite H1. cbn [empty nodes app]. unfold values. rewrite map_map. cbn. apply map_id.
    - intros e. rewrite H2. cbn [empty edges]. split.
      + intros [[]|(He & n & Hn' & Es)]. split; auto. exists n. rewrite Es. apply Hc in Hn'. tauto.
      + intros (He & n & Hn' & Es & Hpar). right. split; auto. exists n. split; [apply children_In; auto|auto].
  Qed.
  Lemma subgraph_sinks g i n : proper g ->
    In n (get_sink_nodes (get_subgraph i g)) <-> has_node g n /\ parent n = Some i /\ forall e, has_edge g e -> source e <> id n.
  Proof.
    intros Hp. destruct (subgraph_ok g i Hp) as [H1 H2]. unfold get_sink_nodes. rewrite filter_In, H1, children_In, Nat.eqb_eq.
    unfold get_outgoing_edges. split.
    - intros [[Hn Hpar] E]. split; [auto|]. split; [auto|]. intros e He Es.
      assert (Hf : In e (filter (fun e => eqb (source e) (id n)) (edges (get_subgraph i g)))).
      { apply filter_In. rewrite Es. split; [|apply eqb_refl]. apply H2. split; auto. exists n. rewrite Es. auto. }
      destruct (filter _ _); [destruct Hf|discriminate].
    - intros (Hn & Hpar & Hs). split; [auto|]. destruct (filter _ _) as [|e l] eqn:E; auto.
      assert (Hf : In e (filter (fun e => eqb (source e) (id n)) (edges (get_subgraph i g)))) by (rewrite E; cbn; auto).
      apply filter_In in Hf. destruct Hf as [Hf Es]. apply (proj1 (eqb_eq _ _)) in Es. apply H2 in Hf. destruct (Hs e); tauto.
  Qed.
  Lemma subgraph_sources g i n : proper g ->
    In n (get_source_nodes (get_subgraph i g)) <-> has_node g n /\ parent n = Some i /\
      forall e, has_edge g e -> child g (source e) i -> target e <> id n.
  Proof.
    intros Hp. destruct (subgraph_ok g i Hp) as [H1 H2]. unfold get_source_nodes. rewrite filter_In, H1, children_In, Nat.eqb_eq.
    unfold get_ingoing_edges. split.
    - intros [[Hn Hpar] E]. split; [auto|]. split; [auto|]. intros e He Hc Es.
      assert (Hf : In e (filter (fun e => eqb (target e) (id n)) (edges (get_subgraph i g)))).
      { apply filter_In. rewrite Es. split; [|apply eqb_refl]. apply H2. auto. }
      destruct (filter _ _); [destruct Hf|discriminate].
    - intros (Hn & Hpar & Hs). split; [auto|]. destruct (filter _ _) as [|e l] eqn:E; auto.
      assert (Hf : In e (filter (fun e => eqb (target e) (id n)) (edges (get_subgraph i g)))) by (rewrite E; cbn; auto).
      apply filter_In in Hf. destruct Hf as [Hf Es]. apply (proj1 (eqb_eq _ _)) in Es. apply H2 in Hf. destruct (Hs e); tauto.
  Qed.

  (** both notions of lowest level nodes at once *)
  Inductive below g (good : V -> V -> Prop) : V -> V -> Prop :=
  | below_leaf x : leaf g x -> below g good x x
  | below_child x c y : child g c x -> good x c -> below g good c y -> below g good x y.
  Lemma low_level_ok g rank pick good : proper g -> nested_by rank g ->
    (forall i n, In n (pick (get_subgraph i g)) <-> has_node g n /\ parent n = Some i /\ good i (id n)) ->
    forall fuel i, rank i < fuel -> (exists n, has_node g n /\ id n = i) ->
    exists l, low_level pick fuel i g = Ok l /\ forall n, In n l <-> has_node g n /\ below g good i (id n).
  Proof.
    intros Hp Hnest Hpick. induction fuel as [|fuel IH]; intros i Hi Hex; [lia|]. cbn [low_level].
    destruct (has_children i g) eqn:Ec; cbn [negb].
    - assert (Hstep : forall n acc, In n (pick (get_subgraph i g)) -> exists r,
        (if negb (has_children (id n) g) then Ok (acc ++ [n]) else do more <- low_level pick fuel (id n) g ; Ok (acc ++ more)) = Ok (acc ++ r) /\
        forall m, In m r <-> has_node g m /\ below g good (id n) (id m)).
      { intros n acc Hn. apply Hpick in Hn. destruct Hn as (Hn & Hpar & Hgood).
        destruct (has_children (id n) g) eqn:En; cbn [negb].
        - destruct (IH (id n)) as (l & El & Hl); [|eauto|].
          + assert (rank (id n) < rank i) by (apply Hnest; exists n; auto). lia.
          + rewrite El. cbn [bind]. eauto.
        - exists [n]. split; auto. pose proof (proj1 (has_children_false g (id n)) En) as Hleaf. intros m. split.
          + intros [<-|[]]. split; auto. constructor. split; eauto.
          + intros [Hm Hb]. inversion Hb as [x Hx|x c y Hc]; subst.
            * left. apply (proper_node_inj g); auto.
            * destruct (Hleaf c Hc). }
      destruct (foldM_collect _ _ (pick (get_subgraph i g)) Hstep []) as (r & E & Hr). exists r. split; [exact E|].
      intros m. rewrite Hr. split.
      + intros [[]|(n & Hn & Hm & Hb)]. split; auto. apply Hpick in Hn. apply below_child with (id n); [exists n; tauto|tauto|auto].
      + intros [Hm Hb]. right. inversion Hb as [x Hx|x c y Hc Hg Hb']; subst.
        * apply has_children_ok in Ec. destruct Ec as [c Hc]. destruct Hx as [_ Hx]. destruct (Hx c Hc).
        * destruct Hc as (n & Hn & <- & Hpar). exists n. split; [apply Hpick; auto|auto].
    - destruct Hex as (n & Hn & <-). rewrite (get_node_ok g n) by auto. cbn [bind]. exists [n]. split; auto.
      pose proof (proj1 (has_children_false g (id n)) Ec) as Hleaf. intros m. split.
      + intros [<-|[]]. split; auto. constructor. split; eauto.
      + intros [Hm Hb]. inversion Hb as [x Hx|x c y Hc]; subst; [left; apply (proper_node_inj g); auto|destruct (Hleaf c Hc)].
  Qed.
  Lemma below_leaf_end g good x y : below g good x y -> leaf g y.
  Proof. induction 1; auto. Qed.
  Lemma exit_below g x y : exit_of g x y <-> below g (fun _ c => forall e, has_edge g e -> source e <> c) x y.
  Proof. split; induction 1; [constructor; auto|eapply below_child; eauto|constructor; auto|eapply exit_child; eauto]. Qed.
  Lemma entry_below g x y : entry_of g x y <-> below g (fun p c => forall e, has_edge g e -> child g (source e) p -> target e <> c) x y.
  Proof. split; induction 1; [constructor; auto|eapply below_child; eauto|constructor; auto|eapply entry_child; eauto]. Qed.
  Lemma sinks_ok g rank fuel i : proper g -> nested_by rank g -> rank i < fuel -> (exists n, has_node g n /\ id n = i) ->
    exists l, get_low_level_sink_nodes fuel i g = Ok l /\ forall n, In n l <-> has_node g n /\ exit_of g i (id n).
  Proof.
    intros Hp Hn Hr Hex. destruct (low_level_ok g rank get_sink_nodes (fun _ c => forall e, has_edge g e -> source e <> c) Hp Hn
      (fun i n => subgraph_sinks g i n Hp) fuel i Hr Hex) as (l & E & Hl). exists l. split; auto.
    intros n. rewrite Hl, exit_below. tauto.
  Qed.
  Lemma sources_ok g rank fuel i : proper g -> nested_by rank g -> rank i < fuel -> (exists n, has_node g n /\ id n = i) ->
    exists l, get_low_level_source_nodes fuel i g = Ok l /\ forall n, In n l <-> has_node g n /\ entry_of g i (id n).
  Proof.
    intros Hp Hn Hr Hex. destruct (low_level_ok g rank get_source_nodes (fun p c => forall e, has_edge g e -> child g (source e) p -> target e <> c) Hp Hn
      (fun i n => subgraph_sources g i n Hp) fuel i Hr Hex) as (l & E & Hl). exists l. split; auto.
    intros n. rewrite Hl, entry_below. tauto.
  Qed.
End G.
