(** Representation invariant of directly-follows graphs and the basic
    operations *)
From Coq Require Import Permutation.
From Verif.Model Require Import Base Sort Dfg.
From Verif.Lib Require Import ListLib DictLib.

Lemma upd_same {X} (f : nat -> X) i x : upd f i x i = x.
Proof. unfold upd. now rewrite Nat.eqb_refl. Qed.
Lemma upd_other {X} (f : nat -> X) i x j : j <> i -> upd f i x j = f j.
Proof. intros. unfold upd. destruct (Nat.eqb_spec j i); congruence. Qed.

Lemma NoDup_snoc {X} (l : list X) x : NoDup l -> ~ In x l -> NoDup (l ++ [x]).
Proof.
  intros Hl Hx. apply NoDup_rev in Hl. rewrite <- (rev_involutive (l ++ [x])). apply NoDup_rev.
  rewrite rev_app_distr. cbn. constructor; auto. now rewrite <- in_rev.
Qed.

Lemma remove_first_ok {X} (p : X -> bool) (l : list X) x : In x l -> NoDup l ->
  (forall y, In y l -> p y = true <-> y = x) ->
  exists l', remove_first p l = Some l' /\ NoDup l' /\ forall y, In y l' <-> In y l /\ y <> x.
Proof.
  induction l as [|z l IH]; intros Hx Hl Hp; [contradiction|]. inversion Hl as [|? ? Hz Hl']; subst.
  cbn [remove_first]. destruct (p z) eqn:Ez.
  - apply Hp in Ez; [|now left]. subst z. exists l. split; [auto|]. split; [auto|].
    intros y. cbn. split; [intros Hy; split; [auto|congruence]|intros [[->|Hy] Hn]; congruence].
  - assert (z <> x) by (intros ->; assert (p x = true) by (apply Hp; cbn; auto); congruence).
    destruct Hx as [->|Hx]; [congruence|]. destruct (IH Hx Hl') as (l' & E & N & I).
    { intros y Hy. apply Hp. now right. }
    exists (z :: l'). rewrite E. split; [auto|]. split.
    + constructor; auto. rewrite I. tauto.
    + intros y. cbn. rewrite I. split; [intros [->|[Hy Hn]]; auto|intros [[->|Hy] Hn]; auto].
Qed.

(** nodes and edge counts as a user sees them *)
Definition has g a : Prop := In a (keys (nodes g)).
Definition cnt g a b : option Z := option_map (fun e => e_count (eh g e)) (dict_get (a, b) (edges g)).

Record wf (g : graph) : Prop := {
  w_nk : NoDup (keys (nodes g));
  w_ek : NoDup (keys (edges g));
  w_n : forall a n, dict_get a (nodes g) = Some n -> n < nn g /\ n_act (nh g n) = a;
  w_e : forall a b e, dict_get (a, b) (edges g) = Some e ->
    e < en g /\ dict_get a (nodes g) = Some (e_start (eh g e)) /\
    dict_get b (nodes g) = Some (e_end (eh g e));
  w_out : forall a n, dict_get a (nodes g) = Some n -> NoDup (n_out (nh g n)) /\
    forall e, In e (n_out (nh g n)) <-> exists b, dict_get (a, b) (edges g) = Some e;
  w_in : forall b n, dict_get b (nodes g) = Some n -> NoDup (n_in (nh g n)) /\
    forall e, In e (n_in (nh g n)) <-> exists a, dict_get (a, b) (edges g) = Some e
}.

Lemma has_get g a : has g a <-> exists n, dict_get a (nodes g) = Some n.
Proof.
  unfold has. split; [apply dict_get_key|]. intros [n E]. eapply dict_get_Some_key; eauto.
Qed.
Lemma has_dec g a : {has g a} + {~ has g a}.
Proof.
  unfold has. destruct (dict_get a (nodes g)) as [n|] eqn:E.
  - left. eapply dict_get_Some_key; eauto.
  - right. now apply dict_get_None.
Qed.
Lemma cnt_None g a b : cnt g a b = None <-> dict_get (a, b) (edges g) = None.
Proof. unfold cnt. destruct (dict_get (a, b) (edges g)); cbn; split; congruence. Qed.

Section W.
  Variable g : graph.
  Hypothesis W : wf g.
  Lemma acts_of a b e : dict_get (a, b) (edges g) = Some e -> start_act g e = a /\ end_act g e = b.
  Proof.
    intros E. apply (w_e _ W) in E as (_ & E1 & E2). unfold start_act, end_act.
    apply (w_n _ W) in E1 as [_ E1]. apply (w_n _ W) in E2 as [_ E2]. auto.
  Qed.
  Lemma key_unique a b a' b' e : dict_get (a, b) (edges g) = Some e ->
    dict_get (a', b') (edges g) = Some e -> a = a' /\ b = b'.
  Proof. intros E E'. apply acts_of in E as [<- <-]. apply acts_of in E' as [<- <-]. auto. Qed.
  Lemma node_unique a a' n : dict_get a (nodes g) = Some n -> dict_get a' (nodes g) = Some n -> a = a'.
  Proof. intros E E'. apply (w_n _ W) in E as [_ <-]. apply (w_n _ W) in E' as [_ <-]. auto. Qed.
  Lemma edge_has a b : cnt g a b <> None -> has g a /\ has g b.
  Proof.
    rewrite cnt_None. intros E. destruct (dict_get (a, b) (edges g)) as [e|] eqn:Ee; [|congruence].
    apply (w_e _ W) in Ee as (_ & E1 & E2). split; apply has_get; eauto.
  Qed.

  Lemma get_following_ok a : has g a -> exists l, get_following g a = Ok l /\ NoDup l /\
    forall b, In b l <-> cnt g a b <> None.
  Proof.
    intros Ha. apply has_get in Ha as [n En]. unfold get_following, node_id. rewrite En. cbn.
    eexists. split; [reflexivity|]. destruct (w_out _ W a n En) as [Hd Hi]. split.
    - assert (Hall : forall e, In e (n_out (nh g n)) -> exists b, dict_get (a, b) (edges g) = Some e)
        by (intros e; apply Hi).
      clear Hi. induction (n_out (nh g n)) as [|e l IH]; cbn; constructor.
      + inversion Hd; subst. rewrite in_map_iff. intros (f & Ef & Hf).
        destruct (Hall e) as [b Eb]; [now left|]. destruct (Hall f) as [c Ec]; [now right|].
        destruct (acts_of _ _ _ Eb) as [_ X1]. destruct (acts_of _ _ _ Ec) as [_ X2].
        rewrite X1, X2 in Ef. subst c. congruence.
      + apply IH; [inversion Hd; auto|intros; apply Hall; now right].
    - intros b. rewrite in_map_iff, cnt_None. split.
      + intros (e & <- & He). apply Hi in He as [b Eb]. destruct (acts_of _ _ _ Eb) as [_ ->]. congruence.
      + intros Hb. destruct (dict_get (a, b) (edges g)) as [e|] eqn:E; [|congruence]. exists e.
        split; [apply (acts_of a b e E)|]. apply Hi. eauto.
  Qed.
  Lemma get_preceding_ok b : has g b -> exists l, get_preceding g b = Ok l /\ NoDup l /\
    forall a, In a l <-> cnt g a b <> None.
  Proof.
    intros Ha. apply has_get in Ha as [n En]. unfold get_preceding, node_id. rewrite En. cbn.
    eexists. split; [reflexivity|]. destruct (w_in _ W b n En) as [Hd Hi]. split.
    - assert (Hall : forall e, In e (n_in (nh g n)) -> exists a, dict_get (a, b) (edges g) = Some e)
        by (intros e; apply Hi).
      clear Hi. induction (n_in (nh g n)) as [|e l IH]; cbn; constructor.
      + inversion Hd; subst. rewrite in_map_iff. intros (f & Ef & Hf).
        destruct (Hall e) as [x Eb]; [now left|]. destruct (Hall f) as [c Ec]; [now right|].
        destruct (acts_of _ _ _ Eb) as [X1 _]. destruct (acts_of _ _ _ Ec) as [X2 _].
        rewrite X1, X2 in Ef. subst c. congruence.
      + apply IH; [inversion Hd; auto|intros; apply Hall; now right].
    - intros a. rewrite in_map_iff, cnt_None. split.
      + intros (e & <- & He). apply Hi in He as [x Eb]. destruct (acts_of _ _ _ Eb) as [-> _]. congruence.
      + intros Hb. destruct (dict_get (a, b) (edges g)) as [e|] eqn:E; [|congruence]. exists e.
        split; [apply (acts_of a b e E)|]. apply Hi. eauto.
  Qed.
  Lemma not_has_KeyError a : ~ has g a -> get_following g a = Err KeyError /\ get_preceding g a = Err KeyError /\
    node_id g a = Err KeyError.
  Proof.
    intros Ha. apply dict_get_None in Ha. unfold get_following, get_preceding, node_id. now rewrite Ha.
  Qed.
  Lemma activities_keys : activities g = keys (nodes g).
  Proof.
    unfold activities, values, keys. rewrite map_map. apply map_ext_in. intros [a n] Hin. cbn.
    eapply (proj2 (w_n _ W a n _)). Unshelve. apply dict_In_get; auto. apply (w_nk _ W).
  Qed.
  Lemma edge_list_ok : edge_list g = map (fun '(k, e) => (fst k, snd k, e_count (eh g e))) (edges g).
  Proof.
    unfold edge_list, values. rewrite map_map. apply map_ext_in. intros [[a b] e] Hin. cbn.
    apply dict_In_get in Hin; [|apply (w_ek _ W)]. apply acts_of in Hin as [-> ->]. auto.
  Qed.
  Lemma edge_list_In a b c : In (a, b, c) (edge_list g) <-> cnt g a b = Some c.
  Proof.
    rewrite edge_list_ok, in_map_iff. unfold cnt. split.
    - intros ([[x y] e] & E & Hin). cbn in E. injection E as <- <- <-.
      apply dict_In_get in Hin; [|apply (w_ek _ W)]. now rewrite Hin.
    - destruct (dict_get (a, b) (edges g)) as [e|] eqn:E; [|discriminate]. cbn. intros [= <-].
      exists ((a, b), e). split; [auto|]. now apply dict_get_In.
  Qed.
  Lemma edge_list_NoDup : NoDup (map fst (edge_list g)).
  Proof.
    rewrite edge_list_ok, map_map. erewrite map_ext; [apply (w_ek _ W)|]. intros [[x y] e]. auto.
  Qed.
End W.

Lemma wf_empty : wf empty.
Proof. constructor; cbn; try constructor; discriminate. Qed.

(** *** add_node *)
Lemma add_node_ok a g : wf g ->
  wf (add_node a g) /\ (forall x, has (add_node a g) x <-> x = a \/ has g x) /\
  edges (add_node a g) = edges g /\ eh (add_node a g) = eh g /\ en (add_node a g) = en g /\
  (forall x, has g x -> dict_get x (nodes (add_node a g)) = dict_get x (nodes g)).
Proof.
  intros W. unfold add_node. destruct (dict_has a (nodes g)) eqn:Eh.
  - apply dict_has_In in Eh. split; [auto|]. split; [|auto].
    intros x. split; [auto|]. intros [->|Hx]; auto.
  - assert (Hn : ~ has g a) by (unfold has; rewrite <- dict_has_In; congruence).
    assert (En : dict_get a (nodes g) = None) by now apply dict_get_None.
    assert (Hg : forall x, dict_get x (dict_set a (nn g) (nodes g)) =
                   if eqb x a then Some (nn g) else dict_get x (nodes g))
      by (intros; apply dict_get_set).
    split; [|split; [intros x; unfold has; cbn; apply keys_dict_set_In|]].
    2:{ repeat split. intros x Hx. cbn. rewrite Hg. destruct (eqb_ok x a) as [->|]; [contradiction|auto]. }
    constructor; cbn.
    + apply keys_dict_set_NoDup, (w_nk _ W).
    + apply (w_ek _ W).
    + intros x n. rewrite Hg. destruct (eqb_ok x a) as [->|Hx].
      * intros [= <-]. rewrite upd_same. cbn. split; [lia|auto].
      * intros E. apply (w_n _ W) in E as [E1 E2]. rewrite upd_other by lia. split; [lia|auto].
    + intros x y e E. apply (w_e _ W) in E as (E1 & E2 & E3). rewrite !Hg. split; [auto|].
      destruct (eqb_ok x a) as [->|]; [congruence|]. destruct (eqb_ok y a) as [->|]; [congruence|]. auto.
    + intros x n. rewrite Hg. destruct (eqb_ok x a) as [->|Hx].
      * intros [= <-]. rewrite upd_same. cbn. split; [constructor|]. intros e. split; [contradiction|].
        intros [b Eb]. apply (w_e _ W) in Eb as (_ & E2 & _). congruence.
      * intros E. destruct (w_n _ W _ _ E) as [E1 _]. rewrite upd_other by lia. apply (w_out _ W); auto.
    + intros x n. rewrite Hg. destruct (eqb_ok x a) as [->|Hx].
      * intros [= <-]. rewrite upd_same. cbn. split; [constructor|]. intros e. split; [contradiction|].
        intros [b Eb]. apply (w_e _ W) in Eb as (_ & _ & E2). congruence.
      * intros E. destruct (w_n _ W _ _ E) as [E1 _]. rewrite upd_other by lia. apply (w_in _ W); auto.
Qed.
Lemma add_node_cnt a g x y : wf g -> cnt (add_node a g) x y = cnt g x y.
Proof. intros W. destruct (add_node_ok a g W) as (_ & _ & E1 & E2 & _). unfold cnt. now rewrite E1, E2. Qed.

(** *** a new edge object between two nodes *)
Definition new_edge (s t : nat) (k : string * string) g : graph :=
  let e := en g in
  let g2 := Graph (nh g) (nn g) (upd (eh g) e (Edge s t 0)) (S e) (nodes g) (dict_set k e (edges g)) in
  let g3 := set_out g2 s (n_out (nh g2 s) ++ [e]) in
  set_in g3 t (n_in (nh g3 t) ++ [e]).

Section NewEdge.
  Variables (s t : nat) (a b : string) (g : graph).
  Hypotheses (W : wf g) (Ea : dict_get a (nodes g) = Some s) (Eb : dict_get b (nodes g) = Some t)
             (Ek : dict_get (a, b) (edges g) = None).
  Let g' := new_edge s t (a, b) g.
  Lemma ne_act n : n_act (nh g' n) = n_act (nh g n).
  Proof.
    unfold g', new_edge, set_in, set_out, set_nh; cbn.
    unfold upd. destruct (n =? t) eqn:Et; [apply Nat.eqb_eq in Et; subst|]; cbn;
      [destruct (t =? s) eqn:Es; [apply Nat.eqb_eq in Es; subst|]; auto|].
    destruct (n =? s) eqn:Es; [apply Nat.eqb_eq in Es; subst|]; auto.
  Qed.
  Lemma ne_out n : n_out (nh g' n) = if n =? s then n_out (nh g s) ++ [en g] else n_out (nh g n).
  Proof.
    unfold g', new_edge, set_in, set_out, set_nh; cbn. unfold upd.
    destruct (n =? t) eqn:Et; [apply Nat.eqb_eq in Et; subst|]; cbn;
      [destruct (t =? s) eqn:Es; [apply Nat.eqb_eq in Es; subst|]; auto|].
    destruct (n =? s) eqn:Es; [apply Nat.eqb_eq in Es; subst|]; auto.
  Qed.
  Lemma ne_in n : n_in (nh g' n) = if n =? t then n_in (nh g t) ++ [en g] else n_in (nh g n).
  Proof.
    unfold g', new_edge, set_in, set_out, set_nh; cbn. unfold upd.
    destruct (n =? t) eqn:Et; [apply Nat.eqb_eq in Et; subst|]; cbn;
      [destruct (t =? s) eqn:Es; [apply Nat.eqb_eq in Es; subst|]; auto|].
    destruct (n =? s) eqn:Es; [apply Nat.eqb_eq in Es; subst|]; auto.
  Qed.
  Lemma ne_get x y : dict_get (x, y) (edges g') =
    if eqb (x, y) (a, b) then Some (en g) else dict_get (x, y) (edges g).
  Proof. unfold g', new_edge. cbn -[eqb]. apply dict_get_set. Qed.
  Lemma new_edge_wf : wf g'.
  Proof.
    constructor.
    - apply (w_nk _ W).
    - unfold g', new_edge. cbn. apply keys_dict_set_NoDup, (w_ek _ W).
    - intros x n E. rewrite ne_act. apply (w_n _ W); auto.
    - intros x y e. rewrite ne_get. change (en g') with (S (en g)).
      change (nodes g') with (nodes g). change (eh g') with (upd (eh g) (en g) (Edge s t 0)).
      destruct (eqb_ok (x, y) (a, b)) as [E|E].
      + injection E as -> ->. intros [= <-]. rewrite upd_same. cbn. auto with arith.
      + intros E'. apply (w_e _ W) in E' as (E1 & E2 & E3). rewrite upd_other by lia. auto with arith.
    - intros x n En. change (nodes g') with (nodes g) in En. rewrite ne_out.
      destruct (w_out _ W x n En) as [Hd Hi].
      assert (Hfresh : ~ In (en g) (n_out (nh g n)))
        by (rewrite Hi; intros [y Ey]; apply (w_e _ W) in Ey as [Hlt _]; lia).
      destruct (Nat.eqb_spec n s) as [->|Hns].
      + assert (x = a) by eauto using node_unique. subst x. split; [now apply NoDup_snoc|].
        intros e. rewrite in_app_iff, Hi. cbn [In]. split.
        * intros [[y Ey]|[<-|[]]]; [exists y|exists b]; rewrite ne_get.
          -- destruct (eqb_ok (a, y) (a, b)) as [E|]; [injection E as ->; congruence|auto].
          -- now rewrite eqb_refl.
        * intros [y Ey]. rewrite ne_get in Ey. destruct (eqb_ok (a, y) (a, b)); [right; left; congruence|eauto].
      + split; [auto|]. intros e. rewrite Hi.
        assert (x <> a) by congruence.
        split; intros [y Ey]; exists y; rewrite ne_get in *;
          destruct (eqb_ok (x, y) (a, b)) as [E|]; congruence.
    - intros x n En. change (nodes g') with (nodes g) in En. rewrite ne_in.
      destruct (w_in _ W x n En) as [Hd Hi].
      assert (Hfresh : ~ In (en g) (n_in (nh g n)))
        by (rewrite Hi; intros [y Ey]; apply (w_e _ W) in Ey as [Hlt _]; lia).
      destruct (Nat.eqb_spec n t) as [->|Hns].
      + assert (x = b) by eauto using node_unique. subst x. split; [now apply NoDup_snoc|].
        intros e. rewrite in_app_iff, Hi. cbn [In]. split.
        * intros [[y Ey]|[<-|[]]]; [exists y|exists a]; rewrite ne_get.
          -- destruct (eqb_ok (y, b) (a, b)) as [E|]; [injection E as ->; congruence|auto].
          -- now rewrite eqb_refl.
        * intros [y Ey]. rewrite ne_get in Ey. destruct (eqb_ok (y, b) (a, b)); [right; left; congruence|eauto].
      + split; [auto|]. intros e. rewrite Hi.
        assert (x <> b) by congruence.
        split; intros [y Ey]; exists y; rewrite ne_get in *;
          destruct (eqb_ok (y, x) (a, b)) as [E|]; congruence.
  Qed.
  Lemma new_edge_cnt x y : cnt g' x y = if eqb (x, y) (a, b) then Some 0%Z else cnt g x y.
  Proof.
    unfold cnt. rewrite ne_get. change (eh g') with (upd (eh g) (en g) (Edge s t 0)).
    destruct (eqb_ok (x, y) (a, b)).
    - cbn. now rewrite upd_same.
    - destruct (dict_get (x, y) (edges g)) as [e|] eqn:E; [|auto]. cbn.
      apply (w_e _ W) in E as [Hlt _]. now rewrite upd_other by lia.
  Qed.
End NewEdge.

Definition set_count (e : nat) (c : Z) g : graph :=
  set_eh g (upd (eh g) e (Edge (e_start (eh g e)) (e_end (eh g e)) c)).
Lemma set_count_ends e c g f : e_start (eh (set_count e c g) f) = e_start (eh g f) /\
  e_end (eh (set_count e c g) f) = e_end (eh g f).
Proof. cbn. unfold upd. destruct (Nat.eqb_spec f e) as [->|]; auto. Qed.
Lemma set_count_wf e c g : wf g -> wf (set_count e c g).
Proof.
  intros W. constructor; try apply W.
  intros a b f E. change (edges (set_count e c g)) with (edges g) in E.
  destruct (set_count_ends e c g f) as [-> ->]. apply (w_e _ W) in E. exact E.
Qed.
Lemma set_count_cnt e c g a b x y : wf g -> dict_get (a, b) (edges g) = Some e ->
  cnt (set_count e c g) x y = if eqb (x, y) (a, b) then Some c else cnt g x y.
Proof.
  intros W E. unfold cnt. cbn -[eqb]. destruct (eqb_ok (x, y) (a, b)) as [X|X].
  - rewrite X, E. cbn. now rewrite upd_same.
  - destruct (dict_get (x, y) (edges g)) as [f|] eqn:Ef; [|auto]. cbn. rewrite upd_other; auto.
    intros ->. destruct (key_unique g W _ _ _ _ _ E Ef). subst. auto.
Qed.

(** *** add_count *)
Lemma add_count_ok a b c g : wf g -> exists g', add_count a b c g = Ok g' /\ wf g' /\
  (forall x, has g' x <-> x = a \/ x = b \/ has g x) /\
  (forall x y, cnt g' x y = if eqb (x, y) (a, b)
     then Some (match cnt g a b with Some n => n | None => 0 end + c)%Z else cnt g x y).
Proof.
  intros W. unfold add_count.
  destruct (add_node_ok a g W) as (W1 & H1 & D1 & E1 & _ & _).
  destruct (add_node_ok b _ W1) as (W2 & H2 & D2 & E2 & _ & _).
  set (g1 := add_node b (add_node a g)) in *.
  assert (Hc : forall x y, cnt g1 x y = cnt g x y) by (intros; unfold cnt; now rewrite D2, E2, D1, E1).
  assert (Hh : forall x, has g1 x <-> x = a \/ x = b \/ has g x) by (intros; rewrite H2, H1; tauto).
  assert (Ha : has g1 a) by (apply Hh; auto). assert (Hb : has g1 b) by (apply Hh; auto).
  apply has_get in Ha as [s Ea]. apply has_get in Hb as [t Eb].
  destruct (dict_has (a, b) (edges g1)) eqn:Eh.
  - cbn [bind]. unfold dict_has in Eh. destruct (dict_get (a, b) (edges g1)) as [e|] eqn:Ee; [|discriminate].
    cbn [of_option bind]. eexists. split; [reflexivity|].
    change (set_eh g1 _) with (set_count e (e_count (eh g1 e) + c) g1).
    split; [now apply set_count_wf|]. split; [exact Hh|].
    intros x y. rewrite (set_count_cnt _ _ _ a b) by auto. rewrite !Hc.
    destruct (eqb (x, y) (a, b)); auto. rewrite <- Hc. unfold cnt. rewrite Ee. auto.
  - unfold dict_has in Eh. destruct (dict_get (a, b) (edges g1)) as [e|] eqn:Ee; [discriminate|].
    unfold node_id. rewrite Ea, Eb. cbn [of_option bind].
    match goal with |- context[set_in ?u ?v ?w] => change (set_in u v w) with (new_edge s t (a, b) g1) end.
    assert (W3 := new_edge_wf s t a b g1 W2 Ea Eb Ee).
    set (g3 := new_edge s t (a, b) g1) in *.
    assert (Eg : dict_get (a, b) (edges g3) = Some (en g1))
      by (unfold g3; rewrite ne_get; now rewrite eqb_refl).
    rewrite Eg. cbn [of_option bind]. eexists. split; [reflexivity|].
    change (set_eh g3 _) with (set_count (en g1) (e_count (eh g3 (en g1)) + c) g3).
    split; [now apply set_count_wf|]. split; [exact Hh|].
    intros x y. rewrite (set_count_cnt _ _ _ a b) by auto.
    assert (Hn : cnt g3 x y = if eqb (x, y) (a, b) then Some 0%Z else cnt g1 x y)
      by (apply new_edge_cnt; auto).
    rewrite Hn, Hc.
    assert (E0 : e_count (eh g3 (en g1)) = 0%Z) by (unfold g3; cbn; now rewrite upd_same).
    rewrite E0, <- (Hc a b). destruct (eqb (x, y) (a, b)); [|auto].
    apply cnt_None in Ee. now rewrite Ee.
Qed.
