(** Copying, joining and comparing directly-follows graphs *)
From Coq Require Import Permutation Sorted.
From Verif.Model Require Import Base Sort Dfg.
From Verif.Lib Require Import ListLib DictLib SortLib StrLib.
From Verif.Proofs Require Import DfgA DfgB.
From Verif.Proofs Require Selection.

Definition same_graph g h : Prop :=
  (forall a, has g a <-> has h a) /\ forall a b, cnt g a b = cnt h a b.

(** *** equality *)
Lemma edge_leb_total x y : edge_leb x y = true \/ edge_leb y x = true.
Proof.
  destruct x as [[a b] p], y as [[c d] q]. unfold edge_leb.
  destruct (eqb_ok a c) as [->|Hn]; [rewrite eqb_refl; apply String.leb_total|].
  rewrite (proj2 (eqb_neq c a)) by congruence. apply String.leb_total.
Qed.
Lemma edge_leb_trans x y z : edge_leb x y = true -> edge_leb y z = true -> edge_leb x z = true.
Proof.
  destruct x as [[a b] p], y as [[c d] q], z as [[e f] r]. unfold edge_leb.
  destruct (eqb_ok a c) as [->|Hac]; destruct (eqb_ok c e) as [->|Hce].
  - apply str_leb_trans.
  - auto.
  - rewrite (proj2 (eqb_neq a e)) by congruence. auto.
  - intros E1 E2. destruct (eqb_ok a e) as [->|Hae].
    + exfalso. apply Hac. now apply String.leb_antisym.
    + eapply str_leb_trans; eauto.
Qed.

Lemma graph_eqb_ok g h : wf g -> wf h -> graph_eqb g h = true <-> same_graph g h.
Proof.
  intros Wg Wh. unfold graph_eqb, plot. rewrite (eqb_eq (A := list string * list (string * string * Z))).
  assert (Ht : forall l, StronglySorted (fun a b => String.leb a b = true) (stable_sort String.leb l))
    by (intros; apply sort_sorted; [apply String.leb_total|apply str_leb_trans]).
  assert (He : forall l, StronglySorted (fun a b => edge_leb a b = true) (stable_sort edge_leb l))
    by (intros; apply sort_sorted; [apply edge_leb_total|apply edge_leb_trans]).
  split.
  - intros E. injection E as E1 E2. split.
    + intros a. unfold has. rewrite <- !activities_keys by auto.
      rewrite <- (sort_In String.leb a (activities g)), E1. apply sort_In.
    + intros a b.
      assert (Hin : forall c, cnt g a b = Some c <-> cnt h a b = Some c).
      { intros c. rewrite <- !edge_list_In by auto.
        rewrite <- (sort_In edge_leb _ (edge_list g)), E2. apply sort_In. }
      destruct (cnt g a b) as [c|].
      * symmetry. now apply Hin.
      * destruct (cnt h a b) as [c|]; [|auto]. now apply Hin.
  - intros [Hh Hc]. f_equal.
    + apply sort_str_ext. rewrite !activities_keys by auto.
      apply NoDup_Permutation; [apply Wg|apply Wh|exact Hh].
    + assert (Hi : forall x, In x (edge_list g) <-> In x (edge_list h)).
      { intros [[a b] c]. rewrite !edge_list_In by auto. now rewrite Hc. }
      apply (sorted_unique edge_leb); auto.
      * intros [[a b] p] [[c d] q]. rewrite !sort_In, !edge_list_In by auto. intros X Y. unfold edge_leb.
        destruct (eqb_ok a c) as [->|Hac]; [rewrite eqb_refl|rewrite (proj2 (eqb_neq c a)) by congruence].
        -- intros L1 L2. assert (b = d) by now apply String.leb_antisym. congruence.
        -- intros L1 L2. exfalso. apply Hac. now apply String.leb_antisym.
      * rewrite !sort_perm. apply NoDup_Permutation; auto.
        -- eapply NoDup_map_inv. apply edge_list_NoDup; auto.
        -- eapply NoDup_map_inv. apply edge_list_NoDup; auto.
Qed.

(** *** joining *)
Lemma add_nodes_ok (other : graph) ns : forall g, wf g ->
  let g' := fold_left (fun g n => add_node (n_act (nh other n)) g) ns g in
  wf g' /\ (forall x, has g' x <-> has g x \/ In x (map (fun n => n_act (nh other n)) ns)) /\
  edges g' = edges g /\ eh g' = eh g /\ en g' = en g.
Proof.
  induction ns as [|n ns IH]; intros g W; cbn [fold_left map In].
  - split; [auto|]. split; [tauto|auto].
  - destruct (add_node_ok (n_act (nh other n)) g W) as (W1 & H1 & D1 & E1 & N1 & _).
    destruct (IH _ W1) as (W2 & H2 & D2 & E2 & N2). split; [auto|]. split.
    + intros x. rewrite H2, H1. split; [intros [[->|]|]|intros [|[<-|]]]; auto.
    + repeat split; congruence.
Qed.

Section Join.
  Variable other : graph.
  Hypothesis Wo : wf other.

  (** second loop: new edge objects *)
  Definition step2 g '((k, e) : (string * string) * nat) : result graph :=
    do s <- node_id g (start_act other e) ;
    do t <- node_id g (end_act other e) ;
    Ok (Graph (nh g) (nn g) (upd (eh g) (en g) (Edge s t (e_count (eh other e)))) (S (en g))
              (nodes g) (dict_set k (en g) (edges g))).
  Lemma phase2 l : forall g, NoDup (keys l) -> NoDup (keys (edges g)) ->
    (forall a b e, In ((a, b), e) l -> start_act other e = a /\ end_act other e = b /\ has g a /\ has g b) ->
    exists g', foldM step2 l g = Ok g' /\ nh g' = nh g /\ nn g' = nn g /\ nodes g' = nodes g /\
      NoDup (keys (edges g')) /\ en g <= en g' /\
      (forall j, j < en g -> eh g' j = eh g j) /\
      (forall a b e, In ((a, b), e) l -> exists x s t, dict_get (a, b) (edges g') = Some x /\
         en g <= x < en g' /\
         eh g' x = Edge s t (e_count (eh other e)) /\ dict_get a (nodes g) = Some s /\ dict_get b (nodes g) = Some t) /\
      (forall k, ~ In k (keys l) -> dict_get k (edges g') = dict_get k (edges g)).
  Proof.
    induction l as [|[[a b] e] l IH]; intros g Dl De Hl; cbn [foldM].
    - exists g. repeat split; auto. contradiction.
    - inversion Dl as [|? ? Hk Dl']; subst.
      destruct (Hl a b e) as (Ea & Eb & Ha & Hb); [now left|].
      apply has_get in Ha as [s Es]. apply has_get in Hb as [t Et].
      unfold step2 at 1, node_id. rewrite Ea, Eb, Es, Et. cbn [of_option bind].
      match goal with |- context[foldM step2 l ?x] => set (g1 := x) end.
      destruct (IH g1) as (g' & E & A1 & A2 & A3 & A4 & A5 & A6 & A7 & A8); auto.
      { cbn. apply keys_dict_set_NoDup; auto. }
      { intros a' b' e' Hin. apply (Hl a' b' e'). now right. }
      exists g'. split; [auto|]. split; [auto|]. split; [auto|]. split; [auto|]. split; [auto|].
      split; [cbn in A5; lia|]. split.
      { intros j Hj. rewrite A6 by (cbn; lia). cbn. apply upd_other. lia. }
      split.
      + intros a' b' e' [E'|Hin].
        * injection E' as <- <- <-. exists (en g), s, t. rewrite A8 by exact Hk. cbn [edges g1].
          rewrite dict_get_set, eqb_refl. split; [auto|]. split; [cbn in A5; lia|]. split; [|auto].
          rewrite A6 by (cbn; lia). cbn. apply upd_same.
        * destruct (A7 a' b' e' Hin) as (x & s' & t' & X1 & X2 & X3 & X4 & X5).
          exists x, s', t'. cbn in X2. repeat split; auto; lia.
      + intros k Hn. cbn in Hn. rewrite A8 by tauto. cbn [edges g1]. rewrite dict_get_set.
        destruct (eqb_ok k (a, b)) as [->|]; [tauto|auto].
  Qed.

  (** third and fourth loop: registering the edges with the nodes *)
  Definition step3 g '((k, e) : (string * string) * nat) : result graph :=
    do s <- node_id g (start_act other e) ;
    do x <- of_option KeyError (dict_get k (edges g)) ;
    Ok (set_out g s (n_out (nh g s) ++ [x])).
  Definition step4 g '((k, e) : (string * string) * nat) : result graph :=
    do t <- node_id g (end_act other e) ;
    do x <- of_option KeyError (dict_get k (edges g)) ;
    Ok (set_in g t (n_in (nh g t) ++ [x])).
  Definition ok_entry g '((k, e) : (string * string) * nat) : Prop :=
    start_act other e = fst k /\ end_act other e = snd k /\
    (exists s, dict_get (fst k) (nodes g) = Some s) /\ (exists t, dict_get (snd k) (nodes g) = Some t) /\
    exists x, dict_get k (edges g) = Some x.
  Definition new_out g n (l : list ((string * string) * nat)) : list nat :=
    flat_map (fun '(k, _) => match dict_get (fst k) (nodes g), dict_get k (edges g) with
                             | Some s, Some x => if s =? n then [x] else []
                             | _, _ => [] end) l.
  Definition new_in g n (l : list ((string * string) * nat)) : list nat :=
    flat_map (fun '(k, _) => match dict_get (snd k) (nodes g), dict_get k (edges g) with
                             | Some s, Some x => if s =? n then [x] else []
                             | _, _ => [] end) l.
  Definition rest_same g g' : Prop :=
    nn g' = nn g /\ eh g' = eh g /\ en g' = en g /\ nodes g' = nodes g /\ edges g' = edges g /\
    forall n, n_act (nh g' n) = n_act (nh g n).
  Lemma phase3 l : forall g, Forall (ok_entry g) l ->
    exists g', foldM step3 l g = Ok g' /\ rest_same g g' /\
      (forall n, n_in (nh g' n) = n_in (nh g n)) /\
      (forall n, n_out (nh g' n) = n_out (nh g n) ++ new_out g n l).
  Proof.
    induction l as [|[k e] l IH]; intros g Hl; cbn [foldM].
    - exists g. unfold rest_same. repeat split; auto. intros n. cbn. now rewrite app_nil_r.
    - inversion Hl as [|? ? Hk Hl']; subst. destruct Hk as (E1 & E2 & [s Es] & [t Et] & [x Ex]).
      unfold step3 at 1, node_id. rewrite E1, Es, Ex. cbn [of_option bind].
      set (g1 := set_out g s (n_out (nh g s) ++ [x])).
      destruct (IH g1) as (g' & E & (R1 & R2 & R3 & R4 & R5 & R6) & I & O).
      { exact Hl'. }
      exists g'. split; [auto|]. split.
      { unfold rest_same. repeat split; auto. intros n. rewrite R6. cbn. unfold upd.
        destruct (Nat.eqb_spec n s) as [->|]; auto. }
      split.
      { intros n. rewrite I. cbn. unfold upd. destruct (Nat.eqb_spec n s) as [->|]; auto. }
      intros n. rewrite O. change (new_out g1 n l) with (new_out g n l).
      unfold new_out. cbn [flat_map]. rewrite Es, Ex. cbn. unfold upd. rewrite (Nat.eqb_sym s n).
      destruct (Nat.eqb_spec n s) as [->|]; cbn; [now rewrite <- app_assoc|auto].
  Qed.
  Lemma phase4 l : forall g, Forall (ok_entry g) l ->
    exists g', foldM step4 l g = Ok g' /\ rest_same g g' /\
      (forall n, n_out (nh g' n) = n_out (nh g n)) /\
      (forall n, n_in (nh g' n) = n_in (nh g n) ++ new_in g n l).
  Proof.
    induction l as [|[k e] l IH]; intros g Hl; cbn [foldM].
    - exists g. unfold rest_same. repeat split; auto. intros n. cbn. now rewrite app_nil_r.
    - inversion Hl as [|? ? Hk Hl']; subst. destruct Hk as (E1 & E2 & [s Es] & [t Et] & [x Ex]).
      unfold step4 at 1, node_id. rewrite E2, Et, Ex. cbn [of_option bind].
      set (g1 := set_in g t (n_in (nh g t) ++ [x])).
      destruct (IH g1) as (g' & E & (R1 & R2 & R3 & R4 & R5 & R6) & I & O).
      { exact Hl'. }
      exists g'. split; [auto|]. split.
      { unfold rest_same. repeat split; auto. intros n. rewrite R6. cbn. unfold upd.
        destruct (Nat.eqb_spec n t) as [->|]; auto. }
      split.
      { intros n. rewrite I. cbn. unfold upd. destruct (Nat.eqb_spec n t) as [->|]; auto. }
      intros n. rewrite O. change (new_in g1 n l) with (new_in g n l).
      unfold new_in. cbn [flat_map]. rewrite Et, Ex. cbn. unfold upd. rewrite (Nat.eqb_sym t n).
      destruct (Nat.eqb_spec n t) as [->|]; cbn; [now rewrite <- app_assoc|auto].
  Qed.

  (** the elements added to the lists of the nodes *)
  Lemma new_NoDup g n l : NoDup (keys l) ->
    (forall k k' x, dict_get k (edges g) = Some x -> dict_get k' (edges g) = Some x -> k = k') ->
    NoDup (new_out g n l) /\ NoDup (new_in g n l).
  Proof.
    intros Dl Hu.
    assert (Hin : forall f x, In x (flat_map (fun '((k, _) : (string * string) * nat) =>
                match dict_get (f k : string) (nodes g), dict_get k (edges g) with
                | Some s, Some x => if s =? n then [x] else [] | _, _ => [] end) l) ->
              exists k, In k (keys l) /\ dict_get k (edges g) = Some x).
    { clear Dl. intros f x. induction l as [|[k e] l IH]; cbn [flat_map]; [contradiction|].
      rewrite in_app_iff. intros [Hx|Hx].
      - destruct (dict_get (f k) (nodes g)); [|contradiction].
        destruct (dict_get k (edges g)) eqn:Ek; [|contradiction].
        destruct (_ =? n); [|contradiction]. destruct Hx as [<-|[]]. exists k. split; [now left|auto].
      - destruct (IH Hx) as (k' & H1 & H2). exists k'. split; [now right|auto]. }
    assert (G : forall f, NoDup (flat_map (fun '((k, _) : (string * string) * nat) =>
                match dict_get (f k : string) (nodes g), dict_get k (edges g) with
                | Some s, Some x => if s =? n then [x] else [] | _, _ => [] end) l)).
    { intros f. specialize (Hin f). induction l as [|[k e] l IH]; cbn [flat_map]; [constructor|].
      inversion Dl as [|? ? Hk Dl']; subst.
      assert (IHl : NoDup (flat_map (fun '((k, _) : (string * string) * nat) =>
                match dict_get (f k : string) (nodes g), dict_get k (edges g) with
                | Some s, Some x => if s =? n then [x] else [] | _, _ => [] end) l)).
      { apply IH; auto. intros x Hx. destruct (Hin x) as (k' & [Ek'|Hk'] & E').
        - cbn [flat_map]. apply in_or_app. now right.
        - cbn in Ek'. subst k'. exfalso.
          assert (Hin' : forall l', In x (flat_map (fun '((k, _) : (string * string) * nat) =>
                match dict_get (f k : string) (nodes g), dict_get k (edges g) with
                | Some s, Some x => if s =? n then [x] else [] | _, _ => [] end) l') -> In k (keys l')).
          { induction l' as [|[k2 e2] l' IH']; cbn [flat_map]; [contradiction|].
            rewrite in_app_iff. intros [Hy|Hy].
            - left. cbn. destruct (dict_get (f k2) (nodes g)); [|contradiction].
              destruct (dict_get k2 (edges g)) eqn:Ek2; [|contradiction].
              destruct (_ =? n); [|contradiction]. destruct Hy as [<-|[]]. eapply Hu; eauto.
            - right. auto. }
          apply Hk, Hin', Hx.
        - eauto. }
      destruct (dict_get (f k) (nodes g)) as [s|]; [|auto].
      destruct (dict_get k (edges g)) as [x|] eqn:Ek; [|auto].
      destruct (s =? n); [|auto]. cbn [app]. constructor; [|auto]. intros Hx.
      assert (Hin' : forall l', In x (flat_map (fun '((k, _) : (string * string) * nat) =>
                match dict_get (f k : string) (nodes g), dict_get k (edges g) with
                | Some s, Some x => if s =? n then [x] else [] | _, _ => [] end) l') -> In k (keys l')).
      { induction l' as [|[k2 e2] l' IH']; cbn [flat_map]; [contradiction|].
        rewrite in_app_iff. intros [Hy|Hy].
        - left. cbn. destruct (dict_get (f k2) (nodes g)); [|contradiction].
          destruct (dict_get k2 (edges g)) eqn:Ek2; [|contradiction].
          destruct (_ =? n); [|contradiction]. destruct Hy as [<-|[]]. eapply Hu; eauto.
        - right. auto. }
      apply Hk, Hin', Hx. }
    split; apply G.
  Qed.
  Lemma new_out_In g n l x : In x (new_out g n l) <->
    exists k e, In (k, e) l /\ dict_get (fst k) (nodes g) = Some n /\ dict_get k (edges g) = Some x.
  Proof.
    unfold new_out. rewrite in_flat_map. split.
    - intros ([k e] & Hin & Hx). exists k, e. split; [auto|].
      destruct (dict_get (fst k) (nodes g)) as [s|]; [|contradiction].
      destruct (dict_get k (edges g)) as [y|]; [|contradiction].
      destruct (Nat.eqb_spec s n) as [->|]; [|contradiction]. destruct Hx as [->|[]]. auto.
    - intros (k & e & Hin & E1 & E2). exists (k, e). split; [auto|]. rewrite E1, E2, Nat.eqb_refl. now left.
  Qed.
  Lemma new_in_In g n l x : In x (new_in g n l) <->
    exists k e, In (k, e) l /\ dict_get (snd k) (nodes g) = Some n /\ dict_get k (edges g) = Some x.
  Proof.
    unfold new_in. rewrite in_flat_map. split.
    - intros ([k e] & Hin & Hx). exists k, e. split; [auto|].
      destruct (dict_get (snd k) (nodes g)) as [s|]; [|contradiction].
      destruct (dict_get k (edges g)) as [y|]; [|contradiction].
      destruct (Nat.eqb_spec s n) as [->|]; [|contradiction]. destruct Hx as [->|[]]. auto.
    - intros (k & e & Hin & E1 & E2). exists (k, e). split; [auto|]. rewrite E1, E2, Nat.eqb_refl. now left.
  Qed.

  Lemma join_phases g : wf g -> exists g', join g other = Ok g' /\ activities g' = keys (nodes g') /\
    (forall x, has g' x <-> has g x \/ has other x) /\
    (forall x y, cnt g' x y = match cnt other x y with Some c => Some c | None => cnt g x y end) /\
    ((forall x y, cnt other x y <> None -> cnt g x y = None) -> wf g').
  Proof.
    intros W. unfold join.
    destruct (add_nodes_ok other (values (nodes other)) g W) as (W1 & H1 & D1 & E1 & N1).
    set (g1 := fold_left _ _ g) in *. change (map _ (values (nodes other))) with (activities other) in H1.
    rewrite (activities_keys other Wo) in H1.
    assert (Hl : forall a b e, In ((a, b), e) (edges other) ->
       start_act other e = a /\ end_act other e = b /\ has g1 a /\ has g1 b).
    { intros a b e Hin. apply dict_In_get in Hin; [|apply (w_ek _ Wo)].
      destruct (acts_of other Wo _ _ _ Hin) as [X1 X2].
      destruct (w_e _ Wo _ _ _ Hin) as (_ & X3 & X4).
      repeat split; auto; apply H1; right; apply has_get; eauto. }
    destruct (phase2 (edges other) g1) as (g2 & F2 & A1 & A2 & A3 & A4 & A5 & A6 & A7 & A8).
    { apply (w_ek _ Wo). } { rewrite D1. apply (w_ek _ W). } { exact Hl. }
    fold step2. rewrite F2. cbn [bind].
    assert (Hok : Forall (ok_entry g2) (edges other)).
    { apply Forall_forall. intros [[a b] e] Hin. destruct (Hl a b e Hin) as (X1 & X2 & X3 & X4).
      destruct (A7 a b e Hin) as (x & s & t & Y1 & Y2 & Y3 & Y4 & Y5).
      unfold ok_entry. cbn [fst snd]. rewrite A3. eauto 10. }
    destruct (phase3 (edges other) g2 Hok) as (g3 & F3 & (B1 & B2 & B3 & B4 & B5 & B6) & BI & BO).
    fold step3. rewrite F3. cbn [bind].
    assert (Hok3 : Forall (ok_entry g3) (edges other)).
    { eapply Forall_impl; [|exact Hok]. intros [[a b] e]. unfold ok_entry. now rewrite B4, B5. }
    destruct (phase4 (edges other) g3 Hok3) as (g4 & F4 & (C1 & C2 & C3 & C4 & C5 & C6) & CO & CI).
    fold step4. rewrite F4. exists g4. split; [auto|].
    assert (EN : nodes g4 = nodes g1) by congruence.
    assert (EE : edges g4 = edges g2) by congruence.
    assert (EH : eh g4 = eh g2) by congruence.
    split.
    { rewrite EN. rewrite <- (activities_keys g1 W1). unfold activities. rewrite EN. apply map_ext.
      intros n. now rewrite C6, B6, A1. }
    split; [intros x; unfold has; rewrite EN; apply H1|].
    assert (Hget : forall a b, match dict_get (a, b) (edges other) with
                   | Some e => exists x s t, dict_get (a, b) (edges g2) = Some x /\ en g1 <= x < en g2 /\
                        eh g2 x = Edge s t (e_count (eh other e)) /\
                        dict_get a (nodes g1) = Some s /\ dict_get b (nodes g1) = Some t
                   | None => dict_get (a, b) (edges g2) = dict_get (a, b) (edges g1) end).
    { intros a b. destruct (dict_get (a, b) (edges other)) as [e|] eqn:E.
      - apply A7. now apply dict_get_In.
      - apply A8. now apply dict_get_None. }
    split.
    { intros a b. specialize (Hget a b). unfold cnt. rewrite EE, EH.
      destruct (dict_get (a, b) (edges other)) as [e|] eqn:E.
      - destruct Hget as (x & s & t & X1 & X2 & X3 & _). rewrite X1. cbn. now rewrite X3.
      - rewrite Hget, D1. cbn. destruct (dict_get (a, b) (edges g)) as [f|] eqn:Ef; [|auto]. cbn.
        apply (w_e _ W) in Ef as [Hf _]. rewrite A6 by (rewrite N1; auto). now rewrite E1. }
    intros Hdis.
    assert (Hdis' : forall a b, dict_get (a, b) (edges other) <> None -> dict_get (a, b) (edges g1) = None).
    { intros a b Hn. rewrite D1. apply cnt_None. apply Hdis. now rewrite cnt_None. }
    assert (Hold : forall a b f, dict_get (a, b) (edges g1) = Some f ->
       f < en g1 /\ dict_get (a, b) (edges g2) = Some f).
    { intros a b f Ef. split; [apply (w_e _ W1) in Ef; tauto|]. specialize (Hget a b).
      destruct (dict_get (a, b) (edges other)) eqn:E; [|congruence].
      rewrite Hdis' in Ef; congruence. }
    assert (Hcase : forall a b x, dict_get (a, b) (edges g2) = Some x ->
       (dict_get (a, b) (edges g1) = Some x /\ x < en g1) \/
       (exists e s t, In ((a, b), e) (edges other) /\ en g1 <= x < en g2 /\
          eh g2 x = Edge s t (e_count (eh other e)) /\
          dict_get a (nodes g1) = Some s /\ dict_get b (nodes g1) = Some t)).
    { intros a b x Ex. specialize (Hget a b). destruct (dict_get (a, b) (edges other)) as [e|] eqn:E.
      - destruct Hget as (x' & s & t & X1 & X2 & X3 & X4 & X5).
        assert (x' = x) by congruence. subst x'. right. exists e, s, t. split; [now apply dict_get_In|auto].
      - left. rewrite Hget in Ex. split; [auto|]. apply (w_e _ W1) in Ex. tauto. }
    assert (Hw_e : forall a b x, dict_get (a, b) (edges g2) = Some x ->
       x < en g2 /\ dict_get a (nodes g1) = Some (e_start (eh g2 x)) /\
       dict_get b (nodes g1) = Some (e_end (eh g2 x))).
    { intros a b x Ex. destruct (Hcase a b x Ex) as [[Eo Hlt]|(e & s & t & Hin & Hx & Eh & Es & Et)].
      - apply (w_e _ W1) in Eo as (_ & X1 & X2). rewrite A6 by auto. split; [lia|auto].
      - rewrite Eh. cbn. split; [lia|auto]. }
    assert (Hact : forall a n, dict_get a (nodes g1) = Some n -> n_act (nh g4 n) = a).
    { intros a n En. rewrite C6, B6, A1. now apply (w_n _ W1). }
    assert (Huniq : forall k k' x, dict_get k (edges g2) = Some x -> dict_get k' (edges g2) = Some x -> k = k').
    { intros [a b] [c d] x Ex Ex'. apply Hw_e in Ex as (_ & X1 & X2). apply Hw_e in Ex' as (_ & X3 & X4).
      f_equal; eapply node_unique; eauto. }
    constructor.
    - rewrite EN. apply (w_nk _ W1).
    - rewrite EE. exact A4.
    - intros a n En. rewrite EN in En. split; [|auto]. rewrite C1, B1, A2. now apply (w_n _ W1 a).
    - intros a b x Ex. rewrite EE in Ex. rewrite EN, EH, C3, B3. auto.
    - intros a n En. rewrite EN in En. rewrite CO, BO, A1. destruct (w_out _ W1 a n En) as [Do Io].
      destruct (new_NoDup g2 n (edges other) (w_ek _ Wo) Huniq) as [Dn _]. split.
      + apply Selection.NoDup_app_disjoint; auto. intros x Hx Hx'. apply Io in Hx as [b Eb].
        apply new_out_In in Hx' as ([c d] & e & Hin & _ & Ex).
        destruct (A7 c d e Hin) as (x' & _ & _ & X1 & X2 & _).
        destruct (Hold _ _ _ Eb) as [Hlt _]. assert (x' = x) by congruence. lia.
      + intros x. rewrite in_app_iff, Io, new_out_In, EE. split.
        * intros [[b Eb]|([c d] & e & Hin & En' & Ex)].
          -- exists b. now apply Hold.
          -- cbn [fst] in En'. rewrite A3 in En'. assert (c = a) by (eapply node_unique; eauto). subst c. eauto.
        * intros [b Eb]. destruct (Hcase a b x Eb) as [[Eo _]|(e & s & t & Hin & _)]; [eauto|].
          right. exists (a, b), e. cbn [fst]. rewrite A3. auto.
    - intros a n En. rewrite EN in En. rewrite CI, BI, A1. destruct (w_in _ W1 a n En) as [Do Io].
      assert (Hni : new_in g3 n (edges other) = new_in g2 n (edges other))
        by (unfold new_in; now rewrite B4, B5). rewrite Hni.
      destruct (new_NoDup g2 n (edges other) (w_ek _ Wo) Huniq) as [_ Dn]. split.
      + apply Selection.NoDup_app_disjoint; auto. intros x Hx Hx'. apply Io in Hx as [b Eb].
        apply new_in_In in Hx' as ([c d] & e & Hin & _ & Ex).
        destruct (A7 c d e Hin) as (x' & _ & _ & X1 & X2 & _).
        destruct (Hold _ _ _ Eb) as [Hlt _]. assert (x' = x) by congruence. lia.
      + intros x. rewrite in_app_iff, Io, new_in_In, EE. split.
        * intros [[b Eb]|([c d] & e & Hin & En' & Ex)].
          -- exists b. now apply Hold.
          -- cbn [snd] in En'. rewrite A3 in En'. assert (d = a) by (eapply node_unique; eauto). subst d. eauto.
        * intros [b Eb]. destruct (Hcase b a x Eb) as [[Eo _]|(e & s & t & Hin & _)]; [eauto|].
          right. exists (b, a), e. cbn [snd]. rewrite A3. auto.
  Qed.
  Lemma copy_ok : exists g', copy other = Ok g' /\ wf g' /\ same_graph g' other.
  Proof.
    destruct (join_phases empty wf_empty) as (g' & E & _ & Hh & Hc & Hw). exists g'. split; [auto|].
    split; [apply Hw; auto|]. split.
    - intros a. rewrite Hh. unfold has at 1. cbn. tauto.
    - intros a b. rewrite Hc. destruct (cnt other a b); auto.
  Qed.
  Lemma copy_nodes_ok : exists g', copy_nodes other = Ok g' /\ wf g' /\ (forall a, has g' a <-> has other a) /\
    forall a b, cnt g' a b = None.
  Proof.
    destruct copy_ok as (g1 & E & W1 & Hh & Hc). unfold copy_nodes. rewrite E. cbn [bind].
    destruct (remove_edges_ok (keys (edges g1)) g1 W1) as (g2 & E2 & W2 & N2 & C2).
    exists g2. split; [auto|]. split; [auto|]. split; [intros; unfold has; rewrite N2; apply Hh|].
    intros a b. rewrite C2. destruct (mem (a, b) (keys (edges g1))) eqn:Em; [auto|].
    apply mem_not_In, dict_get_None in Em. now apply cnt_None.
  Qed.
End Join.
