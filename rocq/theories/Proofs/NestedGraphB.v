(** Nested graphs: flattening, dictionaries, equality (C65) *)
From Coq Require Import String.
From Verif.Model Require Import Base NestedGraph Transactions.
From Verif.Spec Require Import NestedSpec.
From Verif.Lib Require Import ListLib DictLib.
From Verif.Proofs Require Import PetriC Transactions NestedGraphA.
Open Scope string_scope.
Open Scope list_scope.
Open Scope nat_scope.

Section G.
  Context {V : Type} `{HV : Eq V}.
  Implicit Types (g : graph V) (n : node V) (e : edge V).

  Lemma low_edges_In (arrow : V -> V -> V) (ends : list (node V)) : forall starts acc e,
    In e (fold_left (fun acc a => fold_left (fun acc b =>
          edge_set_add (Edge (arrow (id a) (id b)) (id a) (id b) []) acc) ends acc) starts acc) <->
    In e acc \/ exists a b, In a starts /\ In b ends /\ e = Edge (arrow (id a) (id b)) (id a) (id b) [].
  Proof.
    assert (G : forall a ends acc e,
      In e (fold_left (fun acc b => edge_set_add (Edge (arrow (id a) (id b)) (id a) (id b) []) acc) ends acc) <->
      In e acc \/ exists b, In b ends /\ e = Edge (arrow (id a) (id b)) (id a) (id b) []).
    { clear. intros a. induction ends as [|b ends IH]; intros acc e; cbn [fold_left].
      - split; [auto|]. intros [|(b & [] & _)]; auto.
      - rewrite IH, edge_set_add_new. split.
        + intros [[->|]|(b' & Hb & ->)]; [right; exists b; cbn; auto|auto|right; exists b'; cbn; auto].
        + intros [|(b' & [<-|Hb] & ->)]; [auto|auto|right; exists b'; auto]. }
    induction starts as [|a starts IH]; intros acc e; cbn [fold_left].
    - split; [auto|]. intros [|(a & b & [] & _)]; auto.
    - rewrite IH, G. split.
      + intros [[|(b & Hb & ->)]|(a' & b & Ha & Hb & ->)]; [auto|right; exists a, b; cbn; auto|right; exists a', b; cbn; auto].
      + intros [|(a' & b & [<-|Ha] & Hb & ->)]; [auto|left; right; eauto|right; exists a', b; auto].
  Qed.
  Lemma remove_edges_ok E0 : apart E0 -> forall l g, NoDup l -> incl (edges g) E0 -> incl l (edges g) ->
    exists g', foldM (fun g e => remove_edge e g) l g = Ok g' /\ nodes g' = nodes g /\
      forall e, In e (edges g') <-> In e (edges g) /\ ~ In e l.
  Proof.
    intros [Hr Ha]. induction l as [|x l IH]; intros g Hn Hg Hl; cbn [foldM].
    - exists g. split; auto. split; auto. intros e. cbn. tauto.
    - assert (Hx : In x (edges g)) by (apply Hl; cbn; auto). inversion Hn; subst.
      unfold remove_edge at 1. rewrite (proj2 (existsb_exists _ _)) by (exists x; split; auto). cbn [bind].
      set (g1 := Graph (nodes g) (filter (fun f => negb (edge_eqb x f)) (edges g))).
      assert (H1i : forall f, In f (edges g1) <-> In f (edges g) /\ f <> x).
      { intros f. cbn [g1 edges]. rewrite filter_In, negb_true_iff. split; intros [Hf Hq]; (split; [auto|]).
        - intros ->. rewrite Hr in Hq; [discriminate|auto].
        - destruct (edge_eqb x f) eqn:E; auto. apply Ha in E; auto. congruence. }
      destruct (IH g1) as (g' & E & En & Hi); auto.
      + intros f Hf. apply H1i in Hf. apply Hg. tauto.
      + intros f Hf. apply H1i. split; [apply Hl; cbn; auto|]. intros ->. contradiction.
      + exists g'. split; auto. split; auto. intros e. rewrite Hi, H1i. cbn. intuition congruence.
  Qed.

  Definition high g e := has_children (source e) g || has_children (target e) g = true.
  Lemma collect_ok arrow fuel rank g : proper g -> nested_by rank g ->
    forall l, incl l (edges g) ->
    (forall e, In e l -> rank (source e) < fuel /\ rank (target e) < fuel) ->
    (forall e, In e l -> (exists n, has_node g n /\ id n = source e) /\ (exists n, has_node g n /\ id n = target e)) ->
    forall R A, incl R (edges g) -> NoDup R ->
    exists R' A', foldM (fun '(to_remove, to_add) e =>
        do s <- get_node_by_id (source e) g ;
        do t <- get_node_by_id (target e) g ;
        if has_children (id s) g || has_children (id t) g then
          do to_add' <- add_low_level_edges arrow fuel s t g to_add ;
          Ok (edge_set_add e to_remove, to_add')
        else Ok (to_remove, to_add)) l (R, A) = Ok (R', A') /\
      incl R' (edges g) /\ NoDup R' /\
      (forall e, In e R' <-> In e R \/ In e l /\ high g e) /\
      (forall e, In e A' <-> In e A \/ exists e0 a b, In e0 l /\ high g e0 /\ exit_of g (source e0) a /\ entry_of g (target e0) b /\ e = Edge (arrow a b) a b []).
  Proof.
    intros Hp Hnest. pose proof (proper_apart g Hp) as [Hap _].
    induction l as [|x l IH]; intros Hl Hrk Hcl R A HR HnR; cbn [foldM].
    - exists R, A. split; auto. split; auto. split; auto. split.
      + intros e. cbn. tauto.
      + intros e. split; [auto|]. intros [|(e0 & a & b & [] & _)]; auto.
    - destruct (Hcl x (or_introl eq_refl)) as [(s & Hs & Es) (t & Ht & Et)]. destruct (Hrk x (or_introl eq_refl)) as [Hr1 Hr2].
      rewrite <- Es, (get_node_ok g s), <- Et, (get_node_ok g t) by auto. cbn [bind].
      assert (Hx : In x (edges g)) by (apply Hl; cbn; auto).
      assert (Hl' : incl l (edges g)) by (intros f Hf; apply Hl; cbn; auto).
      assert (Hrk' : forall e, In e l -> rank (source e) < fuel /\ rank (target e) < fuel) by (intros; apply Hrk; cbn; auto).
      assert (Hcl' : forall e, In e l -> (exists n, has_node g n /\ id n = source e) /\ (exists n, has_node g n /\ id n = target e)) by (intros; apply Hcl; cbn; auto).
      destruct (has_children (id s) g || has_children (id t) g) eqn:Eh.
      + unfold add_low_level_edges.
        destruct (sinks_ok g rank fuel (id s)) as (ls & Els & Hls); [auto|auto|congruence|eauto|].
        destruct (sources_ok g rank fuel (id t)) as (lt & Elt & Hlt); [auto|auto|congruence|eauto|].
        rewrite Els, Elt. cbn [bind].
        set (A1 := fold_left _ ls A).
        assert (HA1 : forall e, In e A1 <-> In e A \/ exists a b, exit_of g (source x) a /\ entry_of g (target x) b /\ e = Edge (arrow a b) a b []).
        { intros e. unfold A1. rewrite low_edges_In. rewrite Es, Et in *. split.
          - intros [|(a & b & Ha & Hb & ->)]; [auto|right]. exists (id a), (id b). apply Hls in Ha. apply Hlt in Hb. tauto.
          - intros [|(a & b & Ha & Hb & ->)]; [auto|right].
            assert (La : exists n, has_node g n /\ id n = a) by (apply exit_below in Ha; apply below_leaf_end in Ha; apply Ha).
            assert (Lb : exists n, has_node g n /\ id n = b) by (apply entry_below in Hb; apply below_leaf_end in Hb; apply Hb).
            destruct La as (na & Hna & <-), Lb as (nb & Hnb & <-). exists na, nb. split; [apply Hls; auto|]. split; [apply Hlt; auto|auto]. }
        assert (HR1 : forall e, In e (edge_set_add x R) <-> e = x \/ In e R) by (intros e; apply (edge_set_add_apart (edges g)); auto).
        destruct (IH Hl' Hrk' Hcl' (edge_set_add x R) A1) as (R' & A' & E & H1 & H2 & H3 & H4).
        * intros f Hf. apply HR1 in Hf. destruct Hf as [->|]; auto.
        * apply (edge_set_add_NoDup (edges g)); auto.
        * exists R', A'. split; [exact E|]. split; auto. split; auto.
          assert (Hhx : high g x) by (unfold high; rewrite <- Es, <- Et; auto). split.
          -- intros e. rewrite H3, HR1. cbn. split; [intros [[->|]|]; tauto|]. intros [|[[<-|] ]]; auto.
          -- intros e. rewrite H4, HA1. split.
             ++ intros [[|(a & b & ?)]|(e0 & a & b & ? & ?)]; [auto|right; exists x, a, b; cbn; tauto|right; exists e0, a, b; cbn; auto].
             ++ intros [|(e0 & a & b & [<-|] & Hh & ?)]; [auto|left; right; exists a, b; auto|right; exists e0, a, b; auto].
      + destruct (IH Hl' Hrk' Hcl' R A HR HnR) as (R' & A' & E & H1 & H2 & H3 & H4).
        exists R', A'. split; [exact E|]. split; auto. split; auto.
        assert (Hhx : ~ high g x) by (unfold high; rewrite <- Es, <- Et, Eh; discriminate). split.
        * intros e. rewrite H3. cbn. split; [tauto|]. intros [|[[<-|] ]]; auto. contradiction.
        * intros e. rewrite H4. split.
          -- intros [|(e0 & a & b & ? & ?)]; [auto|right; exists e0, a, b; cbn; auto].
          -- intros [|(e0 & a & b & [<-|] & Hh & ?)]; [auto|contradiction|right; exists e0, a, b; auto].
  Qed.
  Lemma high_iff g e : closed g -> has_edge g e -> high g e <-> ~ (leaf g (source e) /\ leaf g (target e)).
  Proof.
    intros Hc He. destruct (Hc e He) as [Hs Ht]. unfold high. rewrite orb_true_iff. split.
    - intros [Hh|Hh] [[_ L1] [_ L2]]; apply has_children_ok in Hh; destruct Hh as [c Hh]; [eapply L1|eapply L2]; eauto.
    - intros Hn. destruct (has_children (source e) g) eqn:E1; auto. destruct (has_children (target e) g) eqn:E2; auto.
      exfalso. apply Hn. split; (split; [auto|]); apply has_children_false; auto.
  Qed.
  Lemma add_new_edges (l : list (edge V)) : (forall e, In e l -> e_attributes e = []) -> forall g e,
    In e (edges (fold_left (fun g e => add_edge e g) l g)) <-> In e l \/ In e (edges g).
  Proof.
    induction l as [|x l IH]; intros Hl g e; cbn [fold_left]; [cbn; tauto|].
    rewrite IH by (intros; apply Hl; cbn; auto). unfold add_edge. cbn [edges].
    assert (Ex : x = Edge (e_id x) (source x) (target x) []) by (specialize (Hl x (or_introl eq_refl)); destruct x; cbn in *; congruence).
    rewrite Ex at 1. rewrite edge_set_add_new, <- Ex. cbn. intuition.
  Qed.
  Lemma fold_dict_app {W} (a : dict string W) : forall d, NoDup (keys (d ++ a)) ->
    fold_left (fun d '(k, v) => dict_set k v d) a d = d ++ a.
  Proof.
    induction a as [|[k v] a IH]; intros d Hd; cbn [fold_left]; [rewrite app_nil_r; auto|].
    rewrite set_fresh.
    - rewrite IH; rewrite <- app_assoc; auto.
    - rewrite keys_app in Hd. cbn [keys map fst] in Hd. apply NoDup_remove_2 in Hd. intros Hk. apply Hd. apply in_or_app. auto.
  Qed.
  Lemma without_keep names (a : dict string V) : (forall k, In k names -> ~ In k (keys a)) -> without names a = a.
  Proof.
    intros Hn. unfold without. induction a as [|[k v] a IH]; cbn [filter]; auto.
    assert (Hk : ~ In k names) by (intros Hk; apply (Hn k Hk); cbn; auto).
    rewrite (proj2 (mem_not_In k names) Hk). cbn [negb]. f_equal. apply IH. intros k' Hk' Hin. apply (Hn k' Hk'). cbn; auto.
  Qed.
  Lemma get_absent {W} k (a : dict string W) : ~ In k (keys a) -> dict_get k a = None.
  Proof. intros Hn. apply dict_get_None. auto. Qed.
  Lemma node_dict_ok n : NoDup (keys (n_attributes n)) -> (forall k, In k ["id"; "label"; "parent"] -> ~ In k (keys (n_attributes n))) ->
    let d := node_to_dict n in
    dict_get "id" d = Some (id n) /\ dict_get "label" d = Some (label n) /\ dict_get "parent" d = parent n /\
    without ["id"; "label"; "parent"] d = n_attributes n.
  Proof.
    intros Hn Hp. destruct n as [i l p a]. cbn [n_attributes id label parent] in *.
    assert (E : node_to_dict (Node i l p a) = match p with Some q => [("id", i); ("label", l); ("parent", q)] | None => [("id", i); ("label", l)] end ++ a).
    { unfold node_to_dict. cbn [n_attributes id label parent]. destruct p as [q|]; apply fold_dict_app; cbn.
      - constructor; [intros [Q|[Q|Q]]; try discriminate; eapply (Hp "id"); cbn; eauto|].
        constructor; [intros [Q|Q]; try discriminate; eapply (Hp "label"); cbn; eauto|].
        constructor; auto. apply Hp. cbn; auto.
      - constructor; [intros [Q|Q]; try discriminate; eapply (Hp "id"); cbn; eauto|].
        constructor; auto. apply Hp. cbn; auto. }
    cbv zeta. rewrite E. pose proof (without_keep _ _ Hp) as Ew. pose proof (get_absent "parent" a (Hp "parent" ltac:(cbn; auto))) as Ep.
    destruct p as [q|]; cbn; auto.
  Qed.
  Lemma edge_dict_ok e : NoDup (keys (e_attributes e)) -> (forall k, In k ["id"; "source"; "target"] -> ~ In k (keys (e_attributes e))) ->
    let d := edge_to_dict e in
    dict_get "id" d = Some (e_id e) /\ dict_get "source" d = Some (source e) /\ dict_get "target" d = Some (target e) /\
    without ["id"; "source"; "target"] d = e_attributes e.
  Proof.
    intros Hn Hp. destruct e as [i s t a]. cbn [e_attributes e_id source target] in *.
    assert (E : edge_to_dict (Edge i s t a) = [("id", i); ("source", s); ("target", t)] ++ a).
    { unfold edge_to_dict. cbn [e_attributes e_id source target]. apply fold_dict_app; cbn.
      constructor; [intros [Q|[Q|Q]]; try discriminate; eapply (Hp "id"); cbn; eauto|].
      constructor; [intros [Q|Q]; try discriminate; eapply (Hp "source"); cbn; eauto|].
      constructor; auto. apply Hp. cbn; auto. }
    cbv zeta. rewrite E. pose proof (without_keep _ _ Hp) as Ew. cbn. auto.
  Qed.
  Lemma edge_eqb_sym e f : NoDup (keys (e_attributes e)) -> NoDup (keys (e_attributes f)) -> edge_eqb e f = edge_eqb f e.
  Proof.
    intros H1 H2. destruct (edge_eqb e f) eqn:E; symmetry.
    - apply edge_eqb_iff in E; auto. apply edge_eqb_iff; auto. destruct E as (? & ? & ? & Hk). repeat (split; [congruence|]). intros k. symmetry. auto.
    - destruct (edge_eqb f e) eqn:E'; auto. apply edge_eqb_iff in E'; auto. rewrite <- E. symmetry. apply edge_eqb_iff; auto.
      destruct E' as (? & ? & ? & Hk). repeat (split; [congruence|]). intros k. symmetry. auto.
  Qed.
End G.

(*P C65 Nested graph flattening *)

(** Graphs built with the API are proper, in the sense the other theorems use. *)
Lemma C65_proper : forall (V : Type) (HV : Eq V),
  proper (V:=V) empty /\
  (forall (g : graph V) n, proper g -> NoDup (keys (n_attributes n)) -> proper (add_node n g)) /\
  (forall (g : graph V) e, proper g -> NoDup (keys (e_attributes e)) -> proper (add_edge e g)) /\
  (forall (g g' : graph V) e, proper g -> remove_edge e g = Ok g' -> proper g').
Proof.
  intros V HV. split; [|split; [|split]].
  - split; [constructor|]. split; [intros k n []|]. split; [intros n []|]. split; [intros e []|]. intros [|i]; discriminate.
  - intros g n (H1 & H2 & H3 & H4 & H5) Hn. unfold proper, has_node, has_edge, add_node. cbn [nodes edges]. split; [apply keys_dict_set_NoDup; auto|].
    assert (Hin : forall k m, In (k, m) (dict_set (id n) n (nodes g)) -> (k = id n /\ m = n) \/ In (k, m) (nodes g)).
    { clear. intros k m. induction (nodes g) as [|[k' m'] l IH]; cbn [dict_set]; [intros [Q|[]]; injection Q; auto|].
      destruct (eqb_ok (id n) k') as [<-|]; intros [Q|Hin]; [injection Q; auto|cbn; auto|cbn; auto|destruct (IH Hin); cbn; auto]. }
    split.
    + intros k m Hm. apply Hin in Hm. destruct Hm as [[-> ->]|]; auto.
    + split; [|auto]. intros m Hm. unfold values in Hm. apply in_map_iff in Hm. destruct Hm as ([k m'] & <- & Hm). apply Hin in Hm.
      destruct Hm as [[_ ->]|Hm]; auto. apply H3. apply (in_map snd) in Hm. auto.
  - intros g e (H1 & H2 & H3 & H4 & H5) He. unfold proper, has_node, has_edge, add_edge. cbn [nodes edges]. split; [auto|]. split; [auto|]. split; [auto|].
    unfold edge_set_add. destruct (existsb (edge_eqb e) (edges g)) eqn:E; [auto|].
    split; [intros f Hf; apply in_app_iff in Hf; destruct Hf as [|[<-|[]]]; auto|].
    assert (Hno : forall f, In f (edges g) -> edge_eqb e f = false).
    { intros f Hf. destruct (edge_eqb e f) eqn:Q; auto. rewrite (proj2 (existsb_exists _ _)) in E; [discriminate|eauto]. }
    assert (Hcase : forall i f, nth_error (edges g ++ [e]) i = Some f -> (nth_error (edges g) i = Some f /\ In f (edges g)) \/ (i = length (edges g) /\ f = e)).
    { intros i f Q. destruct (Nat.lt_ge_cases i (length (edges g))).
      - left. rewrite nth_error_app1 in Q by auto. split; auto. eapply nth_error_In; eauto.
      - right. rewrite nth_error_app2 in Q by auto. destruct (i - length (edges g)) eqn:Ei; cbn in Q; [injection Q as <-; split; [lia|auto]|destruct n; discriminate]. }
    intros i j a b Ea Eb Q. apply Hcase in Ea, Eb. destruct Ea as [[Ea Ia]|[-> ->]], Eb as [[Eb Ib]|[-> ->]]; auto.
    + eapply H5; eauto.
    + rewrite edge_eqb_sym, Hno in Q by auto. discriminate.
    + rewrite Hno in Q by auto. discriminate.
  - intros g g' e (H1 & H2 & H3 & H4 & H5) E. unfold remove_edge in E. destruct (existsb _ _); [|discriminate]. injection E as <-.
    unfold proper, has_node, has_edge. cbn [nodes edges]. split; [auto|]. split; [auto|]. split; [auto|]. split; [intros f Hf; apply filter_In in Hf; apply H4; tauto|].
    clear - H5. intros i j a b. revert i j. assert (Hd : forall i j e f, nth_error (edges g) i = Some e -> nth_error (edges g) j = Some f -> edge_eqb e f = true -> i = j) by auto.
    clear H5. induction (edges g) as [|x l IH]; cbn [filter]; [intros [|i]; discriminate|].
    assert (Hd' : forall i j e f, nth_error l i = Some e -> nth_error l j = Some f -> edge_eqb e f = true -> i = j).
    { intros i j e0 f Ei Ej Q. specialize (Hd (S i) (S j) e0 f Ei Ej Q). congruence. }
    specialize (IH Hd'). destruct (negb (edge_eqb e x)); [|auto].
    assert (Hin : forall i y, nth_error (filter (fun f => negb (edge_eqb e f)) l) i = Some y -> exists i', nth_error l i' = Some y).
    { intros i y Q. apply nth_error_In in Q. apply filter_In in Q. destruct Q as [Q _]. apply In_nth_error in Q. auto. }
    intros [|i] [|j] Ei Ej Q; cbn [nth_error] in *; auto.
    + destruct (Hin _ _ Ej) as [j' Ej']. specialize (Hd 0 (S j') a b Ei Ej' Q). discriminate.
    + destruct (Hin _ _ Ei) as [i' Ei']. specialize (Hd (S i') 0 a b Ei' Ej Q). discriminate.
Qed.

(** The edges after flattening are exactly the edges between nodes without
    children, and for each other edge one edge from every exit of its
    source to every entry of its target. *)
Lemma C65_flatten : forall (V : Type) (HV : Eq V) (arrow : V -> V -> V) rank fuel (g : graph V),
  proper g -> closed g -> nested_by rank g -> (forall e, has_edge g e -> rank (source e) < fuel /\ rank (target e) < fuel) ->
  exists g', replace_high_level_edges arrow fuel g = Ok g' /\ nodes g' = nodes g /\
    forall e, has_edge g' e <->
      (has_edge g e /\ leaf g (source e) /\ leaf g (target e)) \/
      (exists e0 a b, has_edge g e0 /\ ~ (leaf g (source e0) /\ leaf g (target e0)) /\
         exit_of g (source e0) a /\ entry_of g (target e0) b /\ e = Edge (arrow a b) a b []).
Proof.
  intros V HV arrow rank fuel g Hp Hc Hn Hr. unfold replace_high_level_edges.
  destruct (collect_ok arrow fuel rank g Hp Hn (edges g)) with (R := @nil (edge V)) (A := @nil (edge V)) as (R & A & E & HR & HnR & H3 & H4);
    [intros e He; auto|auto|auto|intros e []|constructor|].
  rewrite E. cbn [bind]. pose proof (proper_apart g Hp) as [Hap _].
  destruct (remove_edges_ok (edges g) Hap R g HnR) as (g1 & E1 & En & Hi); [intros e He; auto|auto|]. rewrite E1. cbn [bind].
  eexists. split; [reflexivity|]. split; [rewrite <- En; apply add_edges_nodes|].
  intros e. unfold has_edge at 1. rewrite add_new_edges.
  2:{ intros f Hf. apply H4 in Hf. destruct Hf as [[]|(e0 & a & b & _ & _ & _ & _ & ->)]. auto. }
  rewrite H4, Hi, H3. split.
  - intros [[[]|(e0 & a & b & He0 & Hh & Ha & Hb & ->)]|[He Hno]].
    + right. exists e0, a, b. split; auto. split; auto. apply high_iff; auto.
    + left. split; auto. destruct (has_children (source e) g || has_children (target e) g) eqn:Q.
      * exfalso. apply Hno. right. split; auto.
      * apply orb_false_iff in Q. destruct Q as [Q1 Q2]. destruct (Hc e He). split; (split; [auto|]); apply has_children_false; auto.
  - intros [(He & L1 & L2)|(e0 & a & b & He0 & Hh & Ha & Hb & ->)].
    + right. split; auto. intros [[]|[_ Hh]]. apply (high_iff g e Hc He) in Hh. tauto.
    + left. right. exists e0, a, b. split; auto. split; auto. apply high_iff; auto.
Qed.

(** So only edges between nodes without children are left. *)
Lemma C65_only_leaves : forall (V : Type) (HV : Eq V) (arrow : V -> V -> V) rank fuel (g g' : graph V) e,
  proper g -> closed g -> nested_by rank g -> (forall e, has_edge g e -> rank (source e) < fuel /\ rank (target e) < fuel) ->
  replace_high_level_edges arrow fuel g = Ok g' -> has_edge g' e -> leaf g' (source e) /\ leaf g' (target e).
Proof.
  intros V HV arrow rank fuel g g' e Hp Hc Hn Hr E He.
  destruct (C65_flatten V HV arrow rank fuel g Hp Hc Hn Hr) as (g1 & E1 & En & Hi). rewrite E1 in E. injection E as <-.
  assert (HL : forall i, leaf g i -> leaf g1 i) by (intros i; unfold leaf, child, has_node; rewrite En; auto).
  apply Hi in He. destruct He as [(_ & L1 & L2)|(e0 & a & b & _ & _ & Ha & Hb & ->)]; [auto|]. cbn [source target].
  apply exit_below in Ha. apply entry_below in Hb. apply below_leaf_end in Ha, Hb. auto.
Qed.

(** An edge is lost without replacement if every child of its source has an
    outgoing edge, to wherever; and if every child of its target has an edge
    from one of its siblings. *)
Lemma C65_edges_lost : forall (V : Type) (HV : Eq V) (g : graph V) x,
  ~ leaf g x ->
  ((forall c, child g c x -> exists e, has_edge g e /\ source e = c) -> forall a, ~ exit_of g x a) /\
  ((forall c, child g c x -> exists e, has_edge g e /\ child g (source e) x /\ target e = c) -> forall b, ~ entry_of g x b).
Proof.
  intros V HV g x Hx. split.
  - intros Hall a Ha. inversion Ha as [? Hl|? c ? Hc Hno _]; subst; [auto|]. destruct (Hall c Hc) as (e & He & Es). apply (Hno e); auto.
  - intros Hall b Hb. inversion Hb as [? Hl|? c ? Hc Hno _]; subst; [auto|]. destruct (Hall c Hc) as (e & He & Hs & Et). apply (Hno e); auto.
Qed.

(** A node that is nested in itself and has no outgoing edge: the search for
    the lowest level nodes never ends (RecursionError in Python). *)
Lemma C65_self_nested : forall (V : Type) (HV : Eq V) (g : graph V) n, proper g ->
  has_node g n -> parent n = Some (id n) -> (forall e, has_edge g e -> source e <> id n) ->
  forall fuel l, get_low_level_sink_nodes fuel (id n) g <> Ok l.
Proof.
  intros V HV g n Hp Hn Hpar Hno fuel. unfold get_low_level_sink_nodes. induction fuel as [|fuel IH]; intros l; [discriminate|]. cbn [low_level].
  assert (Hc : has_children (id n) g = true) by (apply has_children_ok; exists (id n), n; auto).
  rewrite Hc. cbn [negb].
  assert (Hin : In n (get_sink_nodes (get_subgraph (id n) g))) by (apply subgraph_sinks; auto).
  match goal with |- foldM ?f _ _ <> _ => assert (G : forall xs acc, In n xs -> foldM f xs acc <> Ok l) end; [|apply G; auto].
  clear Hin. induction xs as [|x xs IHx]; intros acc Hin; [destruct Hin|]. cbn [foldM]. destruct Hin as [->|Hin].
  - rewrite Hc. cbn [negb]. specialize (IH). destruct (low_level get_sink_nodes fuel (id n) g) as [m|]; [exfalso; exact (IH m eq_refl)|intros Q; cbn in Q; discriminate Q].
  - destruct (negb (has_children (id x) g)); cbn [bind]; [auto|]. destruct (low_level get_sink_nodes fuel (id x) g); cbn [bind]; [auto|intros Q; discriminate Q].
Qed.

(** An edge with an unknown end: KeyError, before anything is changed. *)
Lemma C65_unknown_node : forall (V : Type) (HV : Eq V) (arrow : V -> V -> V) rank fuel (g : graph V),
  proper g -> nested_by rank g -> (forall e, has_edge g e -> rank (source e) < fuel /\ rank (target e) < fuel) ->
  ~ closed g -> replace_high_level_edges arrow fuel g = Err KeyError.
Proof.
  intros V HV arrow rank fuel g Hp Hn Hr Hc. unfold replace_high_level_edges.
  set (ok := fun e => dict_has (source e) (nodes g) && dict_has (target e) (nodes g)).
  assert (Hhas : forall i, dict_has i (nodes g) = true <-> exists n, has_node g n /\ id n = i).
  { intros i. unfold dict_has. split.
    - destruct (dict_get i (nodes g)) as [n|] eqn:Q; [|discriminate]. intros _. exists n. apply (get_node_inv g); auto. unfold get_node_by_id. rewrite Q. auto.
    - intros (n & Hin & <-). pose proof (get_node_ok g n Hp Hin) as Q. unfold get_node_by_id in Q. destruct (dict_get (id n) (nodes g)); [auto|discriminate]. }
  assert (Hok : forall e, ok e = true <-> (exists n, has_node g n /\ id n = source e) /\ (exists n, has_node g n /\ id n = target e)).
  { intros e. unfold ok. rewrite andb_true_iff, !Hhas. tauto. }
  assert (G : forall l R A, incl l (edges g) -> incl R (edges g) -> NoDup R -> (exists e, In e l /\ ok e = false) ->
    foldM (fun '(to_remove, to_add) e =>
        do s <- get_node_by_id (source e) g ;
        do t <- get_node_by_id (target e) g ;
        if has_children (id s) g || has_children (id t) g then
          do to_add' <- add_low_level_edges arrow fuel s t g to_add ;
          Ok (edge_set_add e to_remove, to_add')
        else Ok (to_remove, to_add)) l (R, A) = Err KeyError).
  { induction l as [|x l IH]; intros R A Hl HR HnR (e & He & Ee); [destruct He|]. destruct (ok x) eqn:Ex.
    - assert (Hx : In x (edges g)) by (apply Hl; cbn; auto).
      destruct (collect_ok arrow fuel rank g Hp Hn [x]) with (R := R) (A := A) as (R1 & A1 & E1 & H1 & H2 & _);
        [intros f [<-|[]]; auto|intros f [<-|[]]; auto|intros f [<-|[]]; apply Hok; auto|auto|auto|].
      cbn [foldM] in *. destruct (do s <- get_node_by_id (source x) g; _) as [[R2 A2]|] eqn:E2; [|discriminate]. cbn [bind] in *.
      injection E1 as -> ->. apply IH; auto; [intros f Hf; apply Hl; cbn; auto|]. destruct He as [<-|He]; [congruence|eauto].
    - cbn [foldM]. unfold ok in Ex. apply andb_false_iff in Ex. unfold get_node_by_id, dict_has in *.
      destruct (dict_get (source x) (nodes g)); cbn [of_option bind]; [|auto]. destruct Ex as [Ex|Ex]; [discriminate|].
      destruct (dict_get (target x) (nodes g)); [discriminate|]. auto. }
  rewrite G; [auto|intros e He; auto|intros e []|constructor|].
  destruct (forallb ok (edges g)) eqn:Ef.
  - exfalso. apply Hc. intros e He. apply Hok. rewrite forallb_forall in Ef. auto.
  - assert (Hex : existsb (fun e => negb (ok e)) (edges g) = true).
    { clear - Ef. induction (edges g) as [|x l IH]; cbn in *; [discriminate|]. destruct (ok x); cbn in *; auto. }
    apply existsb_exists in Hex. destruct Hex as (e & He & Q). exists e. split; auto. apply negb_true_iff. auto.
Qed.

(** to_dict and from_dict: the same graph comes back, labels included, unless
    one of the names 'id', 'label', 'parent', 'source', 'target' is used for
    an attribute. *)
Lemma C65_dict_round_trip : forall (V : Type) (HV : Eq V) (g : graph V), proper g -> plain g -> from_dict (to_dict g) = Ok g.
Proof.
  intros V HV g Hp [Hpn Hpe]. unfold from_dict, to_dict. cbn [fst snd]. pose proof (proper_ids g Hp) as Ei. destruct Hp as (H1 & H2 & H3 & H4 & H5).
  assert (Gn : forall l s, (forall n, In n l -> has_node g n) -> NoDup (keys (nodes s) ++ map id l) ->
    foldM (fun g n =>
        do i <- of_option KeyError (dict_get "id" n) ;
        do lb <- of_option KeyError (dict_get "label" n) ;
        Ok (add_node (Node i lb (dict_get "parent" n) (without ["id"; "label"; "parent"] n)) g)) (map node_to_dict l) s =
    Ok (Graph (nodes s ++ map (fun n => (id n, n)) l) (edges s))).
  { induction l as [|n l IH]; intros s Hl Hs; cbn [map foldM]; [rewrite app_nil_r; destruct s; auto|].
    destruct (node_dict_ok n) as (Q1 & Q2 & Q3 & Q4); [apply H3, Hl; cbn; auto|intros k; apply Hpn, Hl; cbn; auto|].
    rewrite Q1, Q2, Q3, Q4. cbn [of_option bind]. destruct n as [i lb p a]. cbn [id label parent n_attributes] in *.
    rewrite IH.
    - unfold add_node. cbn [nodes edges id]. rewrite set_fresh, <- app_assoc; auto. cbn [map id] in Hs. apply NoDup_remove_2 in Hs.
      intros Hk. apply Hs. apply in_or_app; auto.
    - intros m Hm. apply Hl. cbn; auto.
    - unfold add_node. cbn [nodes id]. rewrite set_fresh.
      + rewrite keys_app, <- app_assoc. auto.
      + cbn [map id] in Hs. apply NoDup_remove_2 in Hs. intros Hk. apply Hs. apply in_or_app; auto. }
  rewrite Gn; [|auto|cbn [empty nodes keys map app]; rewrite Ei; auto]. cbn [bind empty nodes edges app].
  assert (En : map (fun n => (id n, n)) (values (nodes g)) = nodes g).
  { unfold values. rewrite map_map. rewrite <- (map_id (nodes g)) at 2. apply map_ext_in. intros [k n] Hin. cbn. f_equal. apply H2; auto. }
  rewrite En.
  assert (Ge : forall l s, edges s ++ l = edges g ->
    foldM (fun g e =>
        do i <- of_option KeyError (dict_get "id" e) ;
        do so <- of_option KeyError (dict_get "source" e) ;
        do ta <- of_option KeyError (dict_get "target" e) ;
        Ok (add_edge (Edge i so ta (without ["id"; "source"; "target"] e)) g)) (map edge_to_dict l) s =
    Ok (Graph (nodes s) (edges s ++ l))).
  { induction l as [|e l IH]; intros s Hs; cbn [map foldM]; [rewrite app_nil_r; destruct s; auto|].
    assert (He : In e (edges g)) by (rewrite <- Hs; apply in_or_app; cbn; auto).
    destruct (edge_dict_ok e) as (Q1 & Q2 & Q3 & Q4); [apply H4; auto|intros k; apply Hpe; auto|].
    rewrite Q1, Q2, Q3, Q4. cbn [of_option bind]. replace (Edge (e_id e) (source e) (target e) (e_attributes e)) with e by (destruct e; auto).
    assert (Ea : add_edge e s = Graph (nodes s) (edges s ++ [e])).
    { unfold add_edge, edge_set_add. destruct (existsb (edge_eqb e) (edges s)) eqn:Q; auto. exfalso.
      apply existsb_exists in Q. destruct Q as (f & Hf & Q). apply In_nth_error in Hf. destruct Hf as [j Hj].
      pose proof (nth_error_Some_lt _ _ _ Hj).
      assert (length (edges s) = j); [|lia]. apply (H5 (length (edges s)) j e f); auto.
      - rewrite <- Hs, nth_error_app2, Nat.sub_diag; auto.
      - rewrite <- Hs, nth_error_app1; auto. }
    rewrite Ea, IH; cbn [nodes edges]; rewrite <- app_assoc; auto. }
  rewrite Ge; cbn [nodes edges app]; [destruct g|]; auto.
Qed.
Lemma C65_reserved_attribute_witness : exists (g g' : graph string), proper g /\ from_dict (to_dict g) = Ok g' /\
  dict_get "n" (nodes g) = Some (Node "n" "a" None [("label", "b")]) /\
  dict_get "n" (nodes g') = Some (Node "n" "b" None []).
Proof.
  exists (add_node (Node "n" "a" None [("label", "b")]) empty). eexists. split; [|split; [reflexivity|split; reflexivity]].
  apply C65_proper; [apply C65_proper|repeat constructor; cbn; tauto].
Qed.

(** Equality of graphs: the same nodes and edges, where neither the order nor
    the labels of nodes count. *)
Lemma C65_equality : forall (V : Type) (HV : Eq V) (g h : graph V), proper g -> proper h ->
  graph_eqb g h = true <->
    (forall n, has_node g n -> exists m, has_node h m /\ same_node n m) /\
    (forall m, has_node h m -> exists n, has_node g n /\ same_node n m) /\
    (forall e, has_edge g e -> exists f, has_edge h f /\ same_edge e f) /\
    (forall f, has_edge h f -> exists e, has_edge g e /\ same_edge e f).
Proof.
  intros V HV g h Hg Hh. unfold graph_eqb. rewrite andb_true_iff.
  assert (Hneq : forall n m, has_node g n -> has_node h m -> node_eqb n m = true <-> same_node n m).
  { intros n m Hn Hm. unfold node_eqb, same_node. destruct Hg as (_ & _ & G3 & _), Hh as (_ & _ & K3 & _).
    rewrite !andb_true_iff, dict_eqb_get by auto. destruct (eqb_ok (id n) (id m)), (eqb_ok (parent n) (parent m)); intuition congruence. }
  assert (Heeq : forall e f, has_edge g e -> has_edge h f -> edge_eqb e f = true <-> same_edge e f).
  { intros e f He Hf. destruct Hg as (_ & _ & _ & G4 & _), Hh as (_ & _ & _ & K4 & _). rewrite edge_eqb_iff by auto. unfold same_edge. tauto. }
  assert (Pg : forall k n, In (k, n) (nodes g) -> k = id n /\ has_node g n).
  { intros k n Hin. split; [symmetry; apply Hg; auto|]. apply (in_map snd) in Hin. auto. }
  assert (Ph : forall k n, In (k, n) (nodes h) -> k = id n /\ has_node h n).
  { intros k n Hin. split; [symmetry; apply Hh; auto|]. apply (in_map snd) in Hin. auto. }
  assert (Qg : forall n, has_node g n -> In (id n, n) (nodes g)).
  { intros n Hn. unfold has_node, values in Hn. apply in_map_iff in Hn. destruct Hn as ([k n'] & <- & Hin). cbn. destruct (Pg _ _ Hin) as [<- _]. auto. }
  assert (Gh : forall n, has_node h n -> dict_get (id n) (nodes h) = Some n).
  { intros n Hn. pose proof (get_node_ok h n Hh Hn) as Q. unfold get_node_by_id in Q. destruct (dict_get _ _); cbn in Q; congruence. }
  assert (N : dict_eqb node_eqb (nodes g) (nodes h) = true <->
    (forall n, has_node g n -> exists m, has_node h m /\ same_node n m) /\ (forall m, has_node h m -> exists n, has_node g n /\ same_node n m)).
  { unfold dict_eqb. rewrite andb_true_iff, Nat.eqb_eq, forallb_forall. split.
    - intros [Hl Hs].
      assert (F : forall n, has_node g n -> exists m, has_node h m /\ same_node n m).
      { intros n Hn. specialize (Hs _ (Qg n Hn)). cbn in Hs. destruct (dict_get (id n) (nodes h)) as [m|] eqn:Q; [|discriminate].
        apply dict_get_In in Q. destruct (Ph _ _ Q) as [_ Hm]. exists m. split; auto. apply Hneq; auto. }
      split; auto. intros m Hm.
      assert (Hinc : incl (keys (nodes h)) (keys (nodes g))).
      { apply NoDup_length_incl; [apply Hg| |].
        - unfold keys. rewrite !map_length. lia.
        - intros k Hk. unfold keys in Hk. apply in_map_iff in Hk. destruct Hk as ([k' n] & <- & Hin). cbn. destruct (Pg _ _ Hin) as [-> Hn].
          destruct (F n Hn) as (m' & Hm' & E & _). rewrite E. apply dict_get_Some_key with m'. auto. }
      assert (Hk : In (id m) (keys (nodes g))) by (apply Hinc; apply dict_get_Some_key with m; auto).
      unfold keys in Hk. apply in_map_iff in Hk. destruct Hk as ([k n] & E & Hin). cbn in E. subst k. destruct (Pg _ _ Hin) as [E Hn].
      exists n. split; auto. destruct (F n Hn) as (m' & Hm' & Hsm). assert (m' = m); [|subst; auto].
      apply (proper_node_inj h); auto. destruct Hsm as [Q _]. congruence.
    - intros [F1 F2]. split.
      + assert (El : forall (x : graph V), proper x -> length (nodes x) = length (keys (nodes x))) by (intros; unfold keys; rewrite map_length; auto).
        rewrite (El g), (El h) by auto. apply Nat.le_antisymm; apply NoDup_incl_length; try apply Hg; try apply Hh.
        * intros k Hk. unfold keys in Hk. apply in_map_iff in Hk. destruct Hk as ([k' n] & <- & Hin). cbn. destruct (Pg _ _ Hin) as [-> Hn].
          destruct (F1 n Hn) as (m & Hm & E & _). rewrite E. apply dict_get_Some_key with m. auto.
        * intros k Hk. unfold keys in Hk. apply in_map_iff in Hk. destruct Hk as ([k' m] & <- & Hin). cbn. destruct (Ph _ _ Hin) as [-> Hm].
          destruct (F2 m Hm) as (n & Hn & E & _). rewrite <- E. apply (in_map fst) in Hin. specialize (Qg n Hn). apply (in_map fst) in Qg. auto.
      + intros [k n] Hin. destruct (Pg _ _ Hin) as [-> Hn]. destruct (F1 n Hn) as (m & Hm & Hsm). pose proof Hsm as [E _].
        rewrite E, (Gh m Hm). apply Hneq; auto. }
  assert (E : (length (edges g) =? length (edges h)) && forallb (fun e => existsb (edge_eqb e) (edges h)) (edges g) = true <->
    (forall e, has_edge g e -> exists f, has_edge h f /\ same_edge e f) /\ (forall f, has_edge h f -> exists e, has_edge g e /\ same_edge e f)).
  { rewrite andb_true_iff, Nat.eqb_eq, forallb_forall.
    assert (F0 : (forall e, In e (edges g) -> existsb (edge_eqb e) (edges h) = true) <-> forall e, has_edge g e -> exists f, has_edge h f /\ same_edge e f).
    { split; intros F e He; specialize (F e He).
      - apply existsb_exists in F. destruct F as (f & Hf & Q). exists f. split; auto. apply Heeq; auto.
      - destruct F as (f & Hf & Q). apply existsb_exists. exists f. split; auto. apply Heeq; auto. }
    assert (Sinj : forall (x : graph V) e f f', proper x -> has_edge x f -> has_edge x f' -> same_edge e f -> same_edge e f' -> f = f').
    { intros x e f f' Hx Hf Hf' (A1 & A2 & A3 & A4) (B1 & B2 & B3 & B4). apply (proper_apart x Hx); auto. destruct Hx as (_ & _ & _ & X4 & _).
      apply edge_eqb_iff; auto. repeat (split; [congruence|]). intros k. rewrite <- A4, B4. auto. }
    assert (Ssym : forall (e f : edge V), same_edge e f -> same_edge f e).
    { intros e f (A1 & A2 & A3 & A4). repeat (split; [congruence|]). intros k. auto. }
    (* a relation that is total and functional both ways gives equal lengths, and onto *)
    assert (Hcount : forall (R : edge V -> edge V -> Prop) (l m : list (edge V)), NoDup l ->
      (forall e, In e l -> exists f, In f m /\ R e f) -> (forall e e' f, In e l -> In e' l -> R e f -> R e' f -> e = e') ->
      length l <= length m /\ (length m <= length l -> forall f, In f m -> NoDup m -> exists e, In e l /\ R e f)).
    { clear. intros R l m Hl Hex Hinj.
      assert (Hch : exists m', Forall2 R l m' /\ incl m' m /\ NoDup m').
      { induction l as [|e l IH]; [exists []; split; [constructor|split; [intros x []|constructor]]|]. inversion Hl as [|? ? Hni Hl']; subst.
        destruct IH as (m' & F & Hi & Hnm); auto; [intros; apply Hex; cbn; auto|intros; eapply Hinj; cbn; eauto|].
        destruct (Hex e (or_introl eq_refl)) as (f & Hf & Q). exists (f :: m'). split; [constructor; auto|]. split; [intros x [<-|]; auto|].
        constructor; auto. intros Hin. assert (Hb : exists e', In e' l /\ R e' f).
        { clear - F Hin. induction F as [|a b l m' Q F IH]; [destruct Hin|]. destruct Hin as [<-|Hin]; [exists a; cbn; auto|destruct IH as (e' & ? & ?); auto; exists e'; cbn; auto]. }
        destruct Hb as (e' & He' & Q'). assert (e = e') by (eapply Hinj; cbn; eauto). subst. contradiction. }
      destruct Hch as (m' & F & Hi & Hnm). assert (El : length l = length m') by (clear - F; induction F; cbn; auto). split.
      - rewrite El. apply NoDup_incl_length; auto.
      - intros Hle f Hf Hm. assert (Hj : incl m m') by (apply NoDup_length_incl; auto; lia). apply Hj in Hf.
        clear - F Hf. induction F as [|a b l m' Q F IH]; [destruct Hf|]. destruct Hf as [<-|Hf]; [exists a; cbn; auto|destruct IH as (e' & ? & ?); auto; exists e'; cbn; auto]. }
    destruct (proper_apart g Hg) as [_ Ng], (proper_apart h Hh) as [_ Nh]. rewrite F0. split.
    - intros [Hl F]. split; auto. intros f Hf.
      destruct (Hcount same_edge (edges g) (edges h) Ng F) as [_ Hon].
      { intros e e' f' He He' Q Q'. apply (Sinj g f'); auto. }
      apply Hon; auto. unfold edges in *. lia.
    - intros [F1 F2]. split; auto. apply Nat.le_antisymm.
      + apply (Hcount same_edge); auto. intros e e' f' He He' Q Q'. apply (Sinj g f'); auto.
      + apply (Hcount same_edge); auto.
        * intros f Hf. destruct (F2 f Hf) as (e & He & Q). exists e. auto.
        * intros f f' e He He' Q Q'. apply (Sinj h e); auto. }
  rewrite N, E. tauto.
Qed.
