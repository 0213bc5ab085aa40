(** Renaming, allowed start activities, random walks *)
From Coq Require Import Permutation QArith.
From Verif.Model Require Import Base Sort EventLog Dfg.
From Verif.Lib Require Import ListLib DictLib.
From Verif.Spec Require Import Lists Logs Graphs EventLogSpec DfgSpec.
From Verif.Proofs Require Import Selection EventLogA DfgA DfgB DfgC DfgD DfgE DfgF.
Open Scope nat_scope.

(** *** renaming *)
Section Moves.
  Variables (key0 newkey : nat -> string * string).
  Notation D := (dict (string * string) nat).
  Definition move (d : D) (e : nat) : result D :=
    do d' <- pop_key (key0 e) d ; Ok (dict_set (newkey e) e d').
  Lemma moves_ok L : forall d : D, NoDup L -> NoDup (keys d) ->
    (forall e, In e L -> dict_get (key0 e) d = Some e) ->
    (forall k k' x, dict_get k d = Some x -> dict_get k' d = Some x -> k = k') ->
    (forall e, In e L -> ~ In (newkey e) (keys d)) ->
    (forall e f, In e L -> In f L -> newkey e = newkey f -> e = f) ->
    exists d', foldM move L d = Ok d' /\ NoDup (keys d') /\
      (forall k x, dict_get k d' = Some x <->
         (In x L /\ k = newkey x) \/ (~ In x L /\ dict_get k d = Some x)).
  Proof.
    induction L as [|e L IH]; intros d HL Hd Hg Hu Hf Hi; cbn [foldM].
    - exists d. split; [auto|]. split; [auto|]. intros k x. cbn. tauto.
    - inversion HL as [|? ? He HL']; subst.
      assert (Ee : dict_get (key0 e) d = Some e) by (apply Hg; now left).
      unfold move at 1, pop_key, dict_has. rewrite Ee. cbn [bind].
      set (d1 := dict_set (newkey e) e (dict_del (key0 e) d)).
      assert (G1 : forall k, dict_get k d1 = if eqb k (newkey e) then Some e
                  else if eqb k (key0 e) then None else dict_get k d).
      { intros k. unfold d1. rewrite dict_get_set. destruct (eqb k (newkey e)); [auto|]. now rewrite dict_get_del. }
      assert (Hfe : ~ In (newkey e) (keys d)) by (apply Hf; now left).
      assert (Hne : dict_get (newkey e) d = None) by now apply dict_get_None.
      destruct (IH d1) as (d' & E' & N' & G'); auto.
      { unfold d1. apply keys_dict_set_NoDup, keys_dict_del_NoDup. auto. }
      { intros f Hf'. rewrite G1. assert (Ef : dict_get (key0 f) d = Some f) by (apply Hg; now right).
        destruct (eqb_ok (key0 f) (newkey e)) as [E|_]; [rewrite E in Ef; congruence|].
        destruct (eqb_ok (key0 f) (key0 e)) as [E|_]; [|auto]. rewrite E, Ee in Ef. injection Ef as <-. contradiction. }
      { intros k k' x. rewrite !G1. destruct (eqb_ok k (newkey e)) as [->|Hk]; destruct (eqb_ok k' (newkey e)) as [->|Hk'].
        - auto.
        - intros [= <-]. destruct (eqb_ok k' (key0 e)) as [|Hk2]; [discriminate|]. intros Ek. exfalso. apply Hk2. eapply Hu; eauto.
        - destruct (eqb_ok k (key0 e)) as [|Hk2]; [discriminate|]. intros Ek [= <-]. exfalso. apply Hk2. eapply Hu; eauto.
        - destruct (eqb_ok k (key0 e)) as [|Hk2]; [discriminate|]. destruct (eqb_ok k' (key0 e)) as [|Hk3]; [discriminate|]. apply Hu. }
      { intros f Hf' Hin. apply dict_get_key in Hin as [x Ex]. rewrite G1 in Ex.
        destruct (eqb_ok (newkey f) (newkey e)) as [E|_].
        - apply He. rewrite <- (Hi f e); auto; [now right|now left].
        - destruct (eqb (newkey f) (key0 e)); [discriminate|]. apply (Hf f); [now right|]. eapply dict_get_Some_key; eauto. }
      { intros f f' Hff Hff'. apply Hi; now right. }
      exists d'. split; [auto|]. split; [auto|]. intros k x. rewrite G', G1. split.
      + intros [[Hx ->]|[Hx Ex]]; [left; split; [now right|auto]|].
        destruct (eqb_ok k (newkey e)) as [->|Hk]; [injection Ex as <-; left; split; [now left|auto]|].
        destruct (eqb_ok k (key0 e)) as [|Hk2]; [discriminate|]. right. split; [|auto].
        intros [<-|Hin]; [|auto]. apply Hk2. eapply Hu; eauto.
      + intros [[[<-|Hx] ->]|[Hx Ex]].
        * right. split; [auto|]. now rewrite eqb_refl.
        * left. auto.
        * right. split; [intros Hin; apply Hx; now right|].
          destruct (eqb_ok k (newkey e)) as [->|Hk]; [congruence|].
          destruct (eqb_ok k (key0 e)) as [->|Hk2]; [|auto]. exfalso. apply Hx. left. congruence.
  Qed.
End Moves.

Section Rename.
  Variables (g : graph) (old new : string).
  Hypotheses (W : wf g) (Hold : has g old) (Hnew : ~ has g new).
  Definition ren s : string := if eqb s old then new else s.
  Definition back s : string := if eqb s new then old else s.
  Lemma old_new : old <> new.
  Proof. intros E. apply Hnew. now rewrite <- E. Qed.
  Lemma ren_inj a b : has g a -> has g b -> ren a = ren b -> a = b.
  Proof.
    unfold ren. destruct (eqb_ok a old), (eqb_ok b old); intros; subst; auto; contradiction.
  Qed.
  Lemma back_ren a : has g a -> back (ren a) = a.
  Proof.
    intros Ha. unfold back, ren. destruct (eqb_ok a old) as [->|Hn]; [now rewrite eqb_refl|].
    destruct (eqb_ok a new) as [->|]; [contradiction|auto].
  Qed.
  Lemma ren_back a : a <> old -> ren (back a) = a.
  Proof.
    intros Ha. unfold back, ren. destruct (eqb_ok a new) as [->|Hn]; [now rewrite eqb_refl|].
    destruct (eqb_ok a old); [contradiction|auto].
  Qed.

  Lemma rename_ok : exists g', rename_activity old new g = Ok g' /\ wf g' /\
    (forall x, has g' x <-> x = new \/ (has g x /\ x <> old)) /\
    (forall x y, cnt g' x y = if eqb x old || eqb y old then None else cnt g (back x) (back y)).
  Proof.
    pose proof old_new as Hon. unfold rename_activity, node_id.
    apply has_get in Hold as Hn. destruct Hn as [n En]. rewrite En. cbn [of_option bind].
    set (d := dict_del old (dict_set new n (nodes g))).
    set (g2 := set_nh (set_nodes g d) _).
    assert (Gd : forall a, dict_get a d = if eqb a old then None else if eqb a new then Some n else dict_get a (nodes g)).
    { intros a. unfold d. rewrite dict_get_del by apply keys_dict_set_NoDup, W. now rewrite dict_get_set. }
    assert (Nd : NoDup (keys d)) by (apply keys_dict_del_NoDup, keys_dict_set_NoDup, W).
    assert (Gd' : forall a m, dict_get a d = Some m <-> exists b, dict_get b (nodes g) = Some m /\ a = ren b).
    { intros a m. rewrite Gd. unfold ren. split.
      - destruct (eqb_ok a old) as [|Ha]; [discriminate|]. destruct (eqb_ok a new) as [->|Ha2].
        + intros [= <-]. exists old. now rewrite eqb_refl.
        + intros E. exists a. rewrite (proj2 (eqb_neq a old)) by auto. auto.
      - intros (b & Eb & ->). destruct (eqb_ok b old) as [->|Hb].
        + rewrite (proj2 (eqb_neq new old)) by congruence. rewrite eqb_refl. congruence.
        + rewrite (proj2 (eqb_neq b old)) by auto. destruct (eqb_ok b new) as [->|]; [|auto].
          exfalso. apply Hnew. apply has_get. eauto. }
    assert (A2 : forall m, n_out (nh g2 m) = n_out (nh g m) /\ n_in (nh g2 m) = n_in (nh g m)).
    { intros m. unfold g2, set_nh. cbn. unfold upd. destruct (Nat.eqb_spec m n) as [->|]; auto. }
    assert (N2 : forall b m, dict_get b (nodes g) = Some m -> n_act (nh g2 m) = ren b).
    { intros b m Eb. unfold g2, set_nh. cbn. unfold upd, ren. destruct (Nat.eqb_spec m n) as [->|Hm].
      - rewrite (node_unique g W _ _ _ Eb En), eqb_refl. auto.
      - rewrite (proj2 (eqb_neq b old)) by (intros ->; congruence). apply (w_n _ W _ _ Eb). }
    assert (S2 : forall a b e, dict_get (a, b) (edges g) = Some e -> start_act g2 e = ren a /\ end_act g2 e = ren b).
    { intros a b e Ee. destruct (w_e _ W _ _ _ Ee) as (_ & E1 & E2). unfold start_act, end_act. split; apply N2; auto. }
    assert (Hen : forall a b e, dict_get (a, b) (edges g) = Some e -> has g a /\ has g b).
    { intros a b e Ee. apply (edge_has g W). rewrite cnt_None. congruence. }
    destruct (w_in _ W old n En) as [NDi Hin]. destruct (w_out _ W old n En) as [NDo Hout].
    rewrite (proj2 (A2 n)).
    set (key0 := fun e => (start_act g e, end_act g e)).
    set (newkey := fun e => (start_act g2 e, end_act g2 e)).
    assert (K0 : forall a b e, dict_get (a, b) (edges g) = Some e -> key0 e = (a, b) /\ newkey e = (ren a, ren b)).
    { intros a b e Ee. unfold key0, newkey. destruct (acts_of g W _ _ _ Ee) as [-> ->]. destruct (S2 _ _ _ Ee) as [-> ->]. auto. }
    assert (Kinj : forall e f, (exists k, dict_get k (edges g) = Some e) -> (exists k, dict_get k (edges g) = Some f) ->
              newkey e = newkey f -> e = f).
    { intros e f [[a b] Ee] [[a' b'] Ef] E. destruct (K0 _ _ _ Ee) as [_ E1]. destruct (K0 _ _ _ Ef) as [_ E2].
      rewrite E1, E2 in E. injection E as X Y. destruct (Hen _ _ _ Ee), (Hen _ _ _ Ef).
      apply ren_inj in X; auto. apply ren_inj in Y; auto. congruence. }
    (* first loop *)
    destruct (moves_ok key0 newkey (n_in (nh g n)) (edges g)) as (d1 & E1 & ND1 & G1); auto.
    { apply W. }
    { intros e He. apply Hin in He as [a Ea]. destruct (K0 _ _ _ Ea) as [-> _]. auto. }
    { intros [a b] [a' b'] x Ex Ex'. destruct (key_unique g W _ _ _ _ _ Ex Ex'). congruence. }
    { intros e He. apply Hin in He as [a Ea]. destruct (K0 _ _ _ Ea) as [_ ->].
      intros Hk. apply dict_get_key in Hk as [f Ef]. destruct (Hen _ _ _ Ef) as [_ Hb].
      unfold ren at 1 in Hb. rewrite eqb_refl in Hb. contradiction. }
    { intros e f He Hf. apply Hin in He as [a Ea]. apply Hin in Hf as [b Eb]. apply Kinj; eauto. }
    assert (F1 : forall L dd, (forall e, In e L -> In e (n_in (nh g n))) ->
       foldM (fun g e =>
         do d <- pop_key (if is_self_loop g e then (old, old) else (start_act g e, old)) (edges g) ;
         Ok (set_edges g (dict_set (start_act g e, new) e d))) L (set_edges g2 dd)
       = do d' <- foldM (move key0 newkey) L dd ; Ok (set_edges g2 d')).
    { induction L as [|e L IH]; intros dd HL; cbn [foldM]; [reflexivity|].
      assert (He : In e (n_in (nh g n))) by (apply HL; now left). apply Hin in He as [a Ea].
      unfold is_self_loop, start_act, end_act. cbn [nh eh set_edges edges].
      change (n_act (nh g2 (e_start (eh g2 e)))) with (start_act g2 e).
      change (n_act (nh g2 (e_end (eh g2 e)))) with (end_act g2 e).
      unfold move at 1. destruct (K0 _ _ _ Ea) as [-> ->]. destruct (S2 _ _ _ Ea) as [-> ->].
      assert (Eren : ren old = new) by (unfold ren; now rewrite eqb_refl). rewrite Eren.
      destruct (Hen _ _ _ Ea) as [Ha _].
      assert (Ek : (if eqb (ren a) new then (old, old) else (ren a, old)) = (a, old)).
      { unfold ren. destruct (eqb_ok a old) as [->|Hao]; [now rewrite eqb_refl|].
        rewrite (proj2 (eqb_neq a new)); [auto|]. intros ->. contradiction. }
      rewrite Ek. destruct (pop_key (a, old) dd) as [d'|]; cbn [bind]; [|auto].
      apply (IH (dict_set (ren a, new) e d')). intros; apply HL; now right. }
    match goal with |- context [foldM ?f ?l g2] => change (foldM f l g2) with (foldM f l (set_edges g2 (edges g))) end.
    rewrite (F1 (n_in (nh g n)) (edges g)), E1 by auto. cbn [bind].
    change (nh (set_edges g2 d1)) with (nh g2). rewrite (proj1 (A2 n)).
    (* second loop *)
    set (L2 := filter (fun e => negb (is_self_loop g2 e)) (n_out (nh g n))).
    assert (HL2 : forall e, In e L2 -> exists b, dict_get (old, b) (edges g) = Some e /\ b <> old /\ ~ In e (n_in (nh g n))).
    { intros e He. apply filter_In in He as [He Hs]. apply Hout in He as [b Eb]. exists b. split; [auto|].
      assert (Hb : b <> old).
      { intros ->. unfold is_self_loop in Hs. destruct (S2 _ _ _ Eb) as [X Y]. rewrite X, Y, eqb_refl in Hs. discriminate. }
      split; [auto|]. intros He. apply Hin in He as [a Ea]. destruct (key_unique g W _ _ _ _ _ Ea Eb). auto. }
    destruct (moves_ok key0 newkey L2 d1) as (d2 & E2 & ND2 & G2); auto.
    { now apply NoDup_filter. }
    { intros e He. apply HL2 in He as (b & Eb & Hb & Hi). apply G1. right. split; [auto|]. destruct (K0 _ _ _ Eb) as [-> _]. auto. }
    { intros k k' x H1 H2. apply G1 in H1, H2. destruct H1 as [[H1 ->]|[H1 H1']], H2 as [[H2 ->]|[H2 H2']]; auto; try contradiction.
      destruct k, k'. destruct (key_unique g W _ _ _ _ _ H1' H2'). congruence. }
    { intros e He Hk. apply HL2 in He as (b & Eb & Hb & Hi). destruct (K0 _ _ _ Eb) as [_ Ek]. rewrite Ek in Hk.
      apply dict_get_key in Hk as [f Ef]. apply G1 in Ef as [[Hf Ef]|[_ Ef]].
      - apply Hin in Hf as [a Ea]. destruct (K0 _ _ _ Ea) as [_ Ea']. rewrite Ea' in Ef. injection Ef as X Y.
        destruct (Hen _ _ _ Eb), (Hen _ _ _ Ea). apply ren_inj in Y; auto.
      - destruct (Hen _ _ _ Ef) as [Ha _]. unfold ren at 1 in Ha. rewrite eqb_refl in Ha. contradiction. }
    { intros e f He Hf. apply HL2 in He as (a & Ea & _). apply HL2 in Hf as (b & Eb & _). apply Kinj; eauto. }
    assert (F2 : forall L dd, (forall e, In e L -> In e (n_out (nh g n))) ->
       foldM (fun g e => if is_self_loop g e then Ok g else
         do d <- pop_key (old, end_act g e) (edges g) ;
         Ok (set_edges g (dict_set (new, end_act g e) e d))) L (set_edges g2 dd)
       = do d' <- foldM (move key0 newkey) (filter (fun e => negb (is_self_loop g2 e)) L) dd ; Ok (set_edges g2 d')).
    { induction L as [|e L IH]; intros dd HL; cbn [foldM filter]; [reflexivity|].
      assert (He : In e (n_out (nh g n))) by (apply HL; now left). apply Hout in He as [b Eb].
      change (is_self_loop (set_edges g2 dd) e) with (is_self_loop g2 e).
      destruct (is_self_loop g2 e) eqn:Es; cbn [negb bind foldM]; [apply IH; intros; apply HL; now right|].
      change (end_act (set_edges g2 dd) e) with (end_act g2 e).
      unfold move at 1. destruct (K0 _ _ _ Eb) as [-> ->]. destruct (S2 _ _ _ Eb) as [Es1 ->].
      assert (Eren : ren old = new) by (unfold ren; now rewrite eqb_refl). rewrite Eren.
      assert (Ek : ren b = b).
      { unfold ren. destruct (eqb_ok b old) as [->|]; [|auto]. unfold is_self_loop in Es.
        destruct (S2 _ _ _ Eb) as [X Y]. rewrite X, Y, eqb_refl in Es. discriminate. }
      rewrite Ek. change (edges (set_edges g2 dd)) with dd. destruct (pop_key (old, b) dd) as [d'|]; cbn [bind]; [|auto].
      apply (IH (dict_set (new, b) e d')). intros; apply HL; now right. }
    rewrite F2 by auto. fold L2. rewrite E2. cbn [bind].
    assert (G : forall k x, dict_get k d2 = Some x <->
              exists a b, dict_get (a, b) (edges g) = Some x /\ k = (ren a, ren b)).
    { intros k x. rewrite G2, G1. split.
      - intros [[Hx ->]|[Hx [[Hy ->]|[Hy E]]]].
        + apply HL2 in Hx as (b & Eb & _). exists old, b. split; [auto|]. apply (K0 _ _ _ Eb).
        + apply Hin in Hy as [a Ea]. exists a, old. split; [auto|]. apply (K0 _ _ _ Ea).
        + destruct k as [a b]. exists a, b. split; [auto|].
          assert (Ha : a <> old).
          { intros ->. apply Hx. apply filter_In. split; [apply Hout; eauto|].
            unfold is_self_loop. destruct (S2 _ _ _ E) as [-> ->].
            destruct (eqb_ok (ren old) (ren b)) as [X|]; [|auto]. destruct (Hen _ _ _ E).
            apply ren_inj in X; auto. subst b. exfalso. apply Hy. apply Hin. eauto. }
          assert (Hb : b <> old) by (intros ->; apply Hy, Hin; eauto).
          unfold ren. rewrite (proj2 (eqb_neq a old)), (proj2 (eqb_neq b old)) by auto. auto.
      - intros (a & b & E & ->). destruct (K0 _ _ _ E) as [_ K].
        destruct (in_dec Nat.eq_dec x L2) as [H2|H2]; [left; auto|]. right. split; [auto|].
        destruct (in_dec Nat.eq_dec x (n_in (nh g n))) as [H1|H1]; [left; auto|]. right. split; [auto|].
        assert (Hb : b <> old) by (intros ->; apply H1, Hin; eauto).
        assert (Ha : a <> old).
        { intros ->. apply H2. apply filter_In. split; [apply Hout; eauto|].
          unfold is_self_loop. destruct (S2 _ _ _ E) as [-> ->].
          destruct (eqb_ok (ren old) (ren b)) as [X|]; [|auto]. destruct (Hen _ _ _ E).
          apply ren_inj in X; auto; congruence. }
        unfold ren. rewrite (proj2 (eqb_neq a old)), (proj2 (eqb_neq b old)) by auto. auto. }
    set (g' := set_edges g2 d2). exists g'. split; [auto|].
    split; [constructor|split].
    - exact Nd.
    - exact ND2.
    - intros a m Ea. apply Gd' in Ea as (b & Eb & ->). split; [apply (w_n _ W _ _ Eb)|]. apply (N2 _ _ Eb).
    - intros a b e Ee. apply G in Ee as (a0 & b0 & E0 & E). injection E as -> ->.
      destruct (w_e _ W _ _ _ E0) as (H1 & H2 & H3). split; [exact H1|].
      split; apply Gd'; eauto.
    - intros a m Ea. apply Gd' in Ea as (b & Eb & ->). change (nh g' m) with (nh g2 m). rewrite (proj1 (A2 m)).
      destruct (w_out _ W b m Eb) as [H1 H2]. split; [auto|]. intros e. rewrite H2. split.
      + intros [c Ec]. exists (ren c). apply G. eauto.
      + intros [c Ec]. apply G in Ec as (a0 & b0 & E0 & E). injection E as X Y.
        destruct (Hen _ _ _ E0). apply ren_inj in X; auto; [|apply has_get; eauto]. subst a0. eauto.
    - intros a m Ea. apply Gd' in Ea as (b & Eb & ->). change (nh g' m) with (nh g2 m). rewrite (proj2 (A2 m)).
      destruct (w_in _ W b m Eb) as [H1 H2]. split; [auto|]. intros e. rewrite H2. split.
      + intros [c Ec]. exists (ren c). apply G. eauto.
      + intros [c Ec]. apply G in Ec as (a0 & b0 & E0 & E). injection E as X Y.
        destruct (Hen _ _ _ E0). apply ren_inj in Y; auto; [|apply has_get; eauto]. subst b0. eauto.
    - intros x. rewrite has_get. change (nodes g') with d. split.
      + intros [m Em]. apply Gd' in Em as (b & Eb & ->). unfold ren. destruct (eqb_ok b old); [auto|].
        right. split; [apply has_get; eauto|auto].
      + intros [->|[Hx Hxo]].
        * exists n. apply Gd'. exists old. split; [auto|]. unfold ren. now rewrite eqb_refl.
        * apply has_get in Hx as [m Em]. exists m. apply Gd'. exists x. split; [auto|].
          unfold ren. rewrite (proj2 (eqb_neq x old)); auto.
    - intros x y. unfold cnt. change (edges g') with d2. change (eh g') with (eh g).
      destruct (dict_get (x, y) d2) as [e|] eqn:E.
      + apply G in E as (a & b & E0 & E). injection E as -> ->. destruct (Hen _ _ _ E0) as [Ha Hb].
        rewrite !back_ren by auto. rewrite E0.
        assert (Hno : forall s, ren s <> old).
        { intros s. unfold ren. destruct (eqb_ok s old); auto. }
        rewrite (proj2 (eqb_neq (ren a) old)), (proj2 (eqb_neq (ren b) old)) by auto. auto.
      + destruct (eqb_ok x old) as [|Hx]; [auto|]. destruct (eqb_ok y old) as [|Hy]; [auto|]. cbn [orb].
        destruct (dict_get (back x, back y) (edges g)) as [e|] eqn:E0; [|auto].
        assert (Hc : dict_get (x, y) d2 = Some e); [|congruence].
        apply G. exists (back x), (back y). split; [auto|]. rewrite !ren_back; auto.
  Qed.
End Rename.

(** *** allowed start and end activities *)
Section Allowed.
  Variable ord : list (string * string) -> list (string * string).
  Hypothesis Hord : forall s, Permutation (ord s) s.
  Variables (allowed : list string) (extremal : graph -> list string).
  Variable before : (string -> string -> option Z) -> string -> string -> Prop.
  Hypothesis before_None : forall C x y, before C y x -> C x y <> None \/ C y x <> None.
  Hypothesis before_ext : forall (C C' : string -> string -> option Z) x y, (C x y = C' x y) -> C y x = C' y x -> before C y x -> before C' y x.
  Hypothesis Hext : forall g, wf g -> NoDup (extremal g) /\
    forall a, In a (extremal g) <-> has g a /\ forall p, before (cnt g) p a -> p = a.

  (** in [K] every activity is allowed or has another one of [K] before it *)
  Definition supported (C : string -> string -> option Z) (K : string -> Prop) : Prop :=
    forall x, K x -> In x allowed \/ exists y, y <> x /\ K y /\ before C y x.

  Lemma remove_all_ok l : forall g, wf g -> NoDup l -> (forall a, In a l -> has g a) ->
    exists g', foldM (fun g a => remove_node ord a false g) l g = Ok g' /\ wf g' /\
      (forall x, has g' x <-> has g x /\ ~ In x l) /\
      (forall x y c, cnt g' x y = Some c <-> cnt g x y = Some c /\ ~ In x l /\ ~ In y l).
  Proof.
    intros g W Hd Hl. destruct (remove_many_ok ord Hord (fun _ => false) l g W Hd Hl) as (g' & E & W' & H' & C').
    exists g'. split; [exact E|]. split; [auto|]. split.
    - intros x. rewrite H'. intuition congruence.
    - intros x y c. rewrite C'. intuition congruence.
  Qed.

  Hypothesis Hdec : forall g a, wf g -> has g a ->
    (forall p, before (cnt g) p a -> p = a) \/ exists p, p <> a /\ before (cnt g) p a.
  Lemma remove_not_allowed_ok fuel : forall g, wf g -> length (nodes g) <= fuel ->
    exists g', remove_not_allowed fuel ord extremal allowed g = Ok g' /\ wf g' /\
      (forall x, has g' x -> has g x) /\
      (forall x y c, cnt g' x y = Some c <-> cnt g x y = Some c /\ has g' x /\ has g' y) /\
      supported (cnt g) (has g') /\
      (forall K : string -> Prop, (forall x, K x -> has g x) -> supported (cnt g) K -> forall x, K x -> has g' x).
  Proof.
    assert (Hdone : forall g, wf g -> filter (fun a => negb (mem a allowed)) (extremal g) = [] ->
      (forall x, has g x -> has g x) /\
      (forall x y c, cnt g x y = Some c <-> cnt g x y = Some c /\ has g x /\ has g y) /\
      supported (cnt g) (has g) /\
      (forall K : string -> Prop, (forall x, K x -> has g x) -> supported (cnt g) K -> forall x, K x -> has g x)).
    { intros g W Eb. split; [auto|]. split.
      { intros x y c. split; [|tauto]. intros Ec. split; [auto|]. apply (edge_has g W). congruence. }
      split; [|auto]. intros x Hxg. destruct (mem x allowed) eqn:Em; [left; now apply mem_In|]. right.
      destruct (Hdec g x W Hxg) as [Hs|(y & Hy & Hb)].
      - assert (Hin : In x (filter (fun a => negb (mem a allowed)) (extremal g))).
        { apply filter_In. rewrite Em. split; [|auto]. now apply Hext. }
        rewrite Eb in Hin. contradiction.
      - exists y. split; [auto|]. split; [|auto].
        destruct (before_None _ _ _ Hb) as [Hn|Hn]; now apply (edge_has g W) in Hn. }
    induction fuel as [|fuel IH]; intros g W Hf; cbn [remove_not_allowed];
      destruct (Hext g W) as [Hxd Hx];
      destruct (filter (fun a => negb (mem a allowed)) (extremal g)) as [|b bad] eqn:Eb.
    - exists g. split; [auto|]. split; [auto|]. apply Hdone; auto.
    - exfalso. assert (Hin : In b (b :: bad)) by now left. rewrite <- Eb in Hin. apply filter_In in Hin as [Hin _].
      apply Hx in Hin as [Hin _]. unfold has in Hin. destruct (nodes g); cbn in *; [auto|lia].
    - exists g. split; [auto|]. split; [auto|]. apply Hdone; auto.
    - assert (Hbad : forall a, In a (b :: bad) -> has g a /\ ~ In a allowed /\ forall p, before (cnt g) p a -> p = a).
      { intros a Ha. rewrite <- Eb in Ha. apply filter_In in Ha as [Ha Hm]. apply Hx in Ha as [H1 H2].
        split; [auto|]. split; [|auto]. apply negb_true_iff in Hm. now apply mem_not_In in Hm. }
      destruct (remove_all_ok (b :: bad) g W) as (g1 & E1 & W1 & H1 & C1).
      { rewrite <- Eb. now apply NoDup_filter. } { intros; now apply Hbad. }
      rewrite E1. cbn [bind].
      assert (Hlen : length (nodes g1) <= fuel).
      { assert (Hl : length (keys (nodes g1)) < length (keys (nodes g))).
        { assert (Hi : incl (b :: keys (nodes g1)) (keys (nodes g))).
          { intros x [<-|Hin]; [apply Hbad; now left|]. now apply H1 in Hin. }
          apply NoDup_incl_length in Hi; [cbn in Hi; lia|]. constructor; [|apply W1].
          intros Hin. apply H1 in Hin as [_ Hin]. apply Hin. now left. }
        unfold keys in Hl. rewrite !map_length in Hl. lia. }
      assert (Hrest : forall x y, has g1 x -> has g1 y -> cnt g1 x y = cnt g x y).
      { intros x y Hx1 Hy1. apply H1 in Hx1 as [_ Hx1]. apply H1 in Hy1 as [_ Hy1].
        destruct (cnt g x y) as [c|] eqn:Ec; [apply C1; auto|].
        destruct (cnt g1 x y) as [c|] eqn:Ec1; [|auto]. apply C1 in Ec1 as [Ec1 _]. congruence. }
      destruct (IH g1 W1 Hlen) as (g' & E' & W' & H' & C' & S' & M'). exists g'.
      split; [auto|]. split; [auto|]. split; [intros x Hx'; apply H' in Hx'; now apply H1 in Hx'|]. split; [|split].
      + intros x y c. rewrite C'. split.
        * intros (Ec & Hx' & Hy'). apply C1 in Ec as [Ec _]. auto.
        * intros (Ec & Hx' & Hy'). split; [|auto]. apply H' in Hx', Hy'. rewrite Hrest; auto.
      + intros x Hx'. destruct (S' x Hx') as [|(y & Hy & Ky & Hb)]; [auto|]. right. exists y. split; [auto|]. split; [auto|].
        apply H' in Hx', Ky. eapply before_ext; [| |exact Hb]; apply Hrest; auto.
      + intros K HK SK. apply M'.
        * intros x Hx'. apply H1. split; [auto|]. intros Hin. destruct (Hbad x Hin) as (_ & Hna & Hp).
          destruct (SK x Hx') as [|(y & Hy & _ & Hb)]; [contradiction|]. apply Hy. now apply Hp.
        * assert (HK1 : forall x, K x -> has g1 x).
          { intros x Hx'. apply H1. split; [auto|]. intros Hin. destruct (Hbad x Hin) as (_ & Hna & Hp).
            destruct (SK x Hx') as [|(y & Hy & _ & Hb)]; [contradiction|]. apply Hy. now apply Hp. }
          intros x Hx'. destruct (SK x Hx') as [|(y & Hy & Ky & Hb)]; [auto|]. right. exists y. split; [auto|]. split; [auto|].
          eapply before_ext; [| |exact Hb]; symmetry; apply Hrest; auto.
  Qed.
End Allowed.
Lemma search_other (x : string) l : (forall p, In p l -> p = x) \/ exists p, p <> x /\ In p l.
Proof.
  induction l as [|p l [IH|(q & Hq & Hin)]].
  - left. intros p [].
  - destruct (eqb_ok p x) as [->|Hn]; [left; intros q [<-|Hq]; auto|right; exists p; split; [auto|now left]].
  - right. exists q. split; [auto|now right].
Qed.
Section Allowed2.
  Variable ord : list (string * string) -> list (string * string).
  Hypothesis Hord : forall s, Permutation (ord s) s.
  Variable allowed : list string.
  Notation result_ok g g' before := (wf g' /\
      (forall x, has g' x -> has g x) /\
      (forall x y c, cnt g' x y = Some c <-> cnt g x y = Some c /\ has g' x /\ has g' y) /\
      supported allowed before (cnt g) (has g') /\
      (forall K : string -> Prop, (forall x, K x -> has g x) -> supported allowed before (cnt g) K -> forall x, K x -> has g' x)).
  Lemma allowed_start_ok g : wf g -> exists g', remove_not_allowed_start_activities ord allowed g = Ok g' /\
    result_ok g g' (fun C y x => C y x <> None).
  Proof.
    intros W. unfold remove_not_allowed_start_activities.
    apply (remove_not_allowed_ok ord Hord allowed get_source_activities (fun C y x => C y x <> None)); auto.
    - intros C C' x y _ <-. auto.
    - intros h Wh. now apply sources_ok.
    - intros h a Wh Ha. destruct (get_preceding_ok h Wh a Ha) as (l & _ & _ & Hl).
      destruct (search_other a l) as [Hs|(p & Hp & Hin)].
      + left. intros p Hp. apply Hs. now apply Hl.
      + right. exists p. split; [auto|]. now apply Hl.
  Qed.
  Lemma allowed_end_ok g : wf g -> exists g', remove_not_allowed_end_activities ord allowed g = Ok g' /\
    result_ok g g' (fun C y x => C x y <> None).
  Proof.
    intros W. unfold remove_not_allowed_end_activities.
    apply (remove_not_allowed_ok ord Hord allowed get_sink_activities (fun C y x => C x y <> None)); auto.
    - intros C C' x y <- _. auto.
    - intros h Wh. now apply sinks_ok.
    - intros h a Wh Ha. destruct (get_following_ok h Wh a Ha) as (l & _ & _ & Hl).
      destruct (search_other a l) as [Hs|(p & Hp & Hin)].
      + left. intros p Hp. apply Hs. now apply Hl.
      + right. exists p. split; [auto|]. now apply Hl.
  Qed.
End Allowed2.

(** *** random walks *)
Section Walks.
  Variable choice : nat -> list string -> string.
  Hypothesis Hchoice : forall i l, l <> [] -> In (choice i l) l.
  Variable g : graph.
  Hypothesis W : wf g.
  Notation E := (edge_of (cnt g)).
  Lemma chained_cons {X} (R : X -> X -> Prop) x l : (forall y, is_first y l -> R x y) -> chained R l -> chained R (x :: l).
  Proof. destruct l as [|y l]; cbn; [auto|]. intros H1 H2. split; [apply H1; now exists l|auto]. Qed.
  Lemma walk_ok ends fuel : forall i possible done w i',
    walk fuel choice g i possible ends done = Ok (w, i') ->
    exists x l, w = done ++ l ++ [x] /\ In x ends /\ (forall y, In y l -> ~ In y ends) /\
      (exists y, is_first y (l ++ [x]) /\ In y possible) /\ chained E (l ++ [x]) /\
      Forall (has g) (l ++ [x]).
  Proof.
    induction fuel as [|fuel IH]; intros i possible done w i' Hw; [discriminate|].
    cbn [walk] in Hw. destruct possible as [|p0 ps] eqn:Ep; [discriminate|]. rewrite <- Ep in *.
    set (cur := choice i possible) in *.
    assert (Hcur : In cur possible) by (apply Hchoice; rewrite Ep; discriminate).
    destruct (get_following g cur) as [next|] eqn:En; [|discriminate]. cbn [bind] in Hw.
    assert (Hh : has g cur).
    { destruct (has_dec g cur) as [|Hn]; [auto|]. apply not_has_KeyError in Hn as (X & _). congruence. }
    destruct (get_following_ok g W cur Hh) as (l0 & El & _ & Hl0). rewrite En in El. injection El as <-.
    destruct (mem cur ends) eqn:Em.
    - injection Hw as <- _. exists cur, []. split; [auto|]. split; [now apply mem_In|]. split; [intros y []|].
      split; [exists cur; split; [now exists []|auto]|]. split; [cbn; auto|]. repeat constructor; auto.
    - apply IH in Hw as (x & l & -> & Hx & Hl & (y & Hy & Hyn) & Hc & Hf). exists x, (cur :: l).
      split; [now rewrite <- app_assoc|]. split; [auto|].
      split; [intros z [<-|Hz]; [now apply mem_not_In|auto]|].
      split; [exists cur; split; [now exists (l ++ [x])|auto]|]. split.
      + cbn [app]. apply chained_cons; [|auto]. intros z Hz.
        assert (z = y) by (destruct Hz as [r1 E1], Hy as [r2 E2]; congruence). subst z. now apply Hl0.
      + cbn [app]. constructor; auto.
  Qed.
  Definition good_walk (starts ends : list string) (w : list string) : Prop :=
    exists a b l, In a starts /\ In b ends /\ path E a b w /\ Forall (has g) w /\
      w = l ++ [b] /\ (forall y, In y l -> ~ In y ends).
  Lemma walks_ok ends fuel starts nr : forall i ws,
    walks fuel choice g i starts ends nr = Ok ws -> length ws = nr /\ Forall (good_walk starts ends) ws.
  Proof.
    induction nr as [|nr IH]; intros i ws Hw; cbn [walks] in Hw.
    - injection Hw as <-. auto.
    - destruct (walk fuel choice g i starts ends []) as [[w i']|] eqn:E1; [|discriminate]. cbn [bind] in Hw.
      destruct (walks fuel choice g i' starts ends nr) as [ws'|] eqn:E2; [|discriminate]. cbn [bind] in Hw.
      injection Hw as <-. apply IH in E2 as [Hl Hf]. split; [cbn; lia|]. constructor; [|auto].
      apply walk_ok in E1 as (x & l & -> & Hx & Hno & (y & Hy & Hys) & Hc & Hh). cbn [app].
      exists y, x, l. split; [auto|]. split; [auto|]. split; [|split; [auto|split; [auto|auto]]].
      split; [auto|]. split; [now exists l|auto].
  Qed.
End Walks.
