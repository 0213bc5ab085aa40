(** Removing edges and nodes *)
From Coq Require Import Permutation.
From Verif.Model Require Import Base Sort Dfg.
From Verif.Lib Require Import ListLib DictLib.
From Verif.Proofs Require Import DfgA.

Lemma remove_edge_ok a b g : wf g ->
  exists g', remove_edge (a, b) g = Ok (g', dict_get (a, b) (edges g)) /\ wf g' /\
    nodes g' = nodes g /\ eh g' = eh g /\ en g' = en g /\ nn g' = nn g /\
    (forall n, n_act (nh g' n) = n_act (nh g n)) /\
    (forall x y, cnt g' x y = if eqb (x, y) (a, b) then None else cnt g x y).
Proof.
  intros W. unfold remove_edge. destruct (dict_get (a, b) (edges g)) as [e|] eqn:Ee.
  2:{ exists g. do 7 (split; [auto|]). intros x y. destruct (eqb_ok (x, y) (a, b)) as [E|]; [|auto].
      injection E as -> ->. now apply cnt_None. }
  set (g1 := set_edges g (dict_del (a, b) (edges g))).
  destruct (w_e _ W _ _ _ Ee) as (He & Es & Et).
  destruct (acts_of g W _ _ _ Ee) as [Aa Ab].
  set (s := e_start (eh g1 e)). set (t := e_end (eh g1 e)).
  assert (Hdel : forall x y, dict_get (x, y) (dict_del (a, b) (edges g)) =
                   if eqb (x, y) (a, b) then None else dict_get (x, y) (edges g)).
  { intros x y. apply dict_get_del, (w_ek _ W). }
  change (e_start (eh g e)) with s in Es. change (e_end (eh g e)) with t in Et.
  destruct (w_out _ W a s Es) as [Do Io]. destruct (w_in _ W b t Et) as [Di Ii].
  destruct (remove_first_ok (edge_eqb g1 e) (n_out (nh g1 s)) e) as (out & Eo & No & Mo).
  { apply Io. eauto. } { exact Do. }
  { intros y Hy. apply Io in Hy as [c Ec]. destruct (acts_of g W _ _ _ Ec) as [A1 A2]. split.
    - unfold edge_eqb. rewrite orb_true_iff, !andb_true_iff. intros [E|[[_ E] _]].
      + apply Nat.eqb_eq in E. auto.
      + apply (proj1 (eqb_eq _ _)) in E. change (end_act g1 e) with (end_act g e) in E.
        change (end_act g1 y) with (end_act g y) in E. rewrite Ab, A2 in E. rewrite <- E, Ee in Ec. now injection Ec.
    - intros ->. unfold edge_eqb. now rewrite Nat.eqb_refl. }
  change (nh g1) with (nh g) in Eo. change (nh g1) with (nh g). rewrite Eo. cbn [of_option bind].
  change (nh g1) with (nh g) in Mo.
  set (g2 := set_out g1 s out).
  assert (A2 : forall n, n_act (nh g2 n) = n_act (nh g n)).
  { intros n. unfold g2. cbn. unfold upd. destruct (Nat.eqb_spec n s) as [->|]; auto. }
  assert (I2 : forall n, n_in (nh g2 n) = n_in (nh g n)).
  { intros n. unfold g2. cbn. unfold upd. destruct (Nat.eqb_spec n s) as [->|]; auto. }
  assert (S2 : forall f, start_act g2 f = start_act g f /\ end_act g2 f = end_act g f).
  { intros f. unfold start_act, end_act. rewrite !A2. auto. }
  change (e_end (eh g2 e)) with t. rewrite I2.
  destruct (remove_first_ok (edge_eqb g2 e) (n_in (nh g t)) e) as (inn & Ei & Ni & Mi).
  { apply Ii. eauto. } { exact Di. }
  { intros y Hy. apply Ii in Hy as [c Ec]. destruct (acts_of g W _ _ _ Ec) as [B1 B2]. split.
    - unfold edge_eqb. rewrite orb_true_iff, !andb_true_iff. intros [E|[[E _] _]].
      + apply Nat.eqb_eq in E. auto.
      + apply (proj1 (eqb_eq _ _)) in E. rewrite (proj1 (S2 e)), (proj1 (S2 y)), Aa, B1 in E. rewrite <- E, Ee in Ec. now injection Ec.
    - intros ->. unfold edge_eqb. now rewrite Nat.eqb_refl. }
  rewrite Ei. cbn [of_option bind]. eexists. split; [reflexivity|].
  set (g3 := set_in g2 t inn).
  assert (A3 : forall n, n_act (nh g3 n) = n_act (nh g n)).
  { intros n. unfold g3. cbn [nh set_in set_nh]. unfold upd. destruct (Nat.eqb_spec n t) as [->|]; cbn [n_act]; auto. }
  assert (O3 : forall n, n_out (nh g3 n) = if n =? s then out else n_out (nh g n)).
  { intros n. unfold g3. cbn [nh set_in set_nh]. unfold upd at 1. destruct (Nat.eqb_spec n t) as [->|]; cbn [n_out];
    unfold g2; cbn; unfold upd; [destruct (t =? s)|destruct (n =? s)]; auto. }
  assert (I3 : forall n, n_in (nh g3 n) = if n =? t then inn else n_in (nh g n)).
  { intros n. unfold g3. cbn [nh set_in set_nh]. unfold upd at 1. destruct (Nat.eqb_spec n t) as [->|]; cbn [n_in];
    auto. }
  assert (E3 : edges g3 = dict_del (a, b) (edges g)) by reflexivity.
  split; [|do 5 (split; [auto|])].
  2:{ intros x y. unfold cnt. rewrite E3, Hdel. destruct (eqb (x, y) (a, b)); auto. }
  constructor.
  - apply (w_nk _ W).
  - rewrite E3. apply keys_dict_del_NoDup, (w_ek _ W).
  - intros x n E. rewrite A3. apply (w_n _ W); auto.
  - intros x y f. rewrite E3, Hdel. destruct (eqb_ok (x, y) (a, b)); [discriminate|]. apply (w_e _ W).
  - intros x n En. change (nodes g3) with (nodes g) in En. rewrite O3, E3.
    destruct (Nat.eqb_spec n s) as [->|Hn].
    + assert (x = a) by eauto using node_unique. subst x. split; [auto|]. intros f. rewrite Mo, Io. split.
      * intros [[y Ey] Hf]. exists y. rewrite Hdel. destruct (eqb_ok (a, y) (a, b)) as [E|]; [|auto]. congruence.
      * intros [y Ey]. rewrite Hdel in Ey. destruct (eqb_ok (a, y) (a, b)) as [E|E]; [discriminate|].
        split; [eauto|]. intros ->. destruct (key_unique g W _ _ _ _ _ Ee Ey). subst; auto.
    + assert (x <> a) by congruence. destruct (w_out _ W x n En) as [Dx Ix]. split; [auto|].
      intros f. rewrite Ix. split; intros [y Ey]; exists y; rewrite Hdel in *;
        destruct (eqb_ok (x, y) (a, b)) as [E|E]; congruence.
  - intros x n En. change (nodes g3) with (nodes g) in En. rewrite I3, E3.
    destruct (Nat.eqb_spec n t) as [->|Hn].
    + assert (x = b) by eauto using node_unique. subst x. split; [auto|]. intros f. rewrite Mi, Ii. split.
      * intros [[y Ey] Hf]. exists y. rewrite Hdel. destruct (eqb_ok (y, b) (a, b)) as [E|]; [|auto]. congruence.
      * intros [y Ey]. rewrite Hdel in Ey. destruct (eqb_ok (y, b) (a, b)) as [E|E]; [discriminate|].
        split; [eauto|]. intros ->. destruct (key_unique g W _ _ _ _ _ Ee Ey). subst; auto.
    + assert (x <> b) by congruence. destruct (w_in _ W x n En) as [Dx Ix]. split; [auto|].
      intros f. rewrite Ix. split; intros [y Ey]; exists y; rewrite Hdel in *;
        destruct (eqb_ok (y, x) (a, b)) as [E|E]; congruence.
Qed.

Lemma remove_edge_set_nodes k g d :
  remove_edge k (set_nodes g d) = do r <- remove_edge k g ; Ok (set_nodes (fst r) d, snd r).
Proof.
  unfold remove_edge. cbn [edges set_nodes]. destruct (dict_get k (edges g)) as [e|]; [|reflexivity].
  cbn [bind fst snd].
  change (nh (set_edges (set_nodes g d) (dict_del k (edges g)))) with (nh (set_edges g (dict_del k (edges g)))).
  change (eh (set_edges (set_nodes g d) (dict_del k (edges g)))) with (eh (set_edges g (dict_del k (edges g)))).
  change (edge_eqb (set_edges (set_nodes g d) (dict_del k (edges g))) e)
    with (edge_eqb (set_edges g (dict_del k (edges g))) e).
  destruct (remove_first _ _) as [out|]; [|reflexivity]. cbn [of_option bind].
  set (h := set_edges g (dict_del k (edges g))).
  set (s := e_start (eh h e)). set (h2 := set_out h s out).
  change (set_out (set_edges (set_nodes g d) (dict_del k (edges g))) s out) with (set_nodes h2 d).
  change (nh (set_nodes h2 d)) with (nh h2). change (eh (set_nodes h2 d)) with (eh h2).
  change (edge_eqb (set_nodes h2 d) e) with (edge_eqb h2 e).
  destruct (remove_first _ _) as [inn|]; reflexivity.
Qed.
Lemma remove_edges_set_nodes ks : forall g d,
  remove_edges ks (set_nodes g d) = do r <- remove_edges ks g ; Ok (set_nodes r d).
Proof.
  unfold remove_edges. induction ks as [|k ks IH]; intros g d; cbn [foldM]; [reflexivity|].
  rewrite remove_edge_set_nodes. destruct (remove_edge k g) as [[g' o]|e]; cbn [bind fst snd]; [|reflexivity].
  apply IH.
Qed.

Lemma remove_edges_ok ks : forall g, wf g -> exists g', remove_edges ks g = Ok g' /\ wf g' /\
  nodes g' = nodes g /\
  (forall x y, cnt g' x y = if mem (x, y) ks then None else cnt g x y).
Proof.
  unfold remove_edges. induction ks as [|[a b] ks IH]; intros g W; cbn [foldM].
  - exists g. auto.
  - destruct (remove_edge_ok a b g W) as (g1 & E1 & W1 & N1 & _ & _ & _ & _ & C1).
    rewrite E1. cbn [bind fst]. destruct (IH g1 W1) as (g2 & E2 & W2 & N2 & C2). exists g2.
    split; [auto|]. split; [auto|]. split; [congruence|]. intros x y. rewrite C2, C1.
    unfold mem. cbn [existsb]. destruct (eqb (x, y) (a, b)), (existsb (eqb (x, y)) ks); auto.
Qed.

Section Ord.
  Variable ord : list (string * string) -> list (string * string).
  Hypothesis ord_perm : forall s, Permutation (ord s) s.

  Lemma ord_In s k : In k (ord s) <-> In k s.
  Proof. split; apply Permutation_in; [|symmetry]; apply ord_perm. Qed.

  Lemma remove_plain_ok a g : wf g -> has g a -> exists g', remove_node ord a false g = Ok g' /\ wf g' /\
    (forall x, has g' x <-> has g x /\ x <> a) /\
    (forall x y, cnt g' x y = if eqb x a || eqb y a then None else cnt g x y).
  Proof.
    intros W Ha. apply has_get in Ha as [n En]. unfold remove_node. cbn [bind].
    unfold node_id. rewrite En. cbn [of_option bind].
    set (d := dict_del a (nodes g)).
    set (ks := set_of _). rewrite remove_edges_set_nodes.
    destruct (remove_edges_ok (ord ks) g W) as (g1 & E1 & W1 & N1 & C1).
    rewrite E1. cbn [bind]. exists (set_nodes g1 d).
    assert (Hks : forall x y, In (x, y) ks <-> (x = a \/ y = a) /\ cnt g x y <> None).
    { intros x y. unfold ks. rewrite set_of_In, in_app_iff, !in_map_iff.
      change (nh (set_nodes g d)) with (nh g).
      destruct (w_out _ W _ _ En) as [_ Ho]. destruct (w_in _ W _ _ En) as [_ Hi]. split.
      - intros [(e & Ee & He)|(e & Ee & He)].
        + apply Ho in He as [b Eb]. change (edge_key (set_nodes g d) e) with (edge_key g e) in Ee.
          unfold edge_key in Ee. destruct (acts_of g W _ _ _ Eb) as [X1 X2]. rewrite X1, X2 in Ee.
          injection Ee as <- <-. split; [auto|]. rewrite cnt_None. congruence.
        + apply Hi in He as [b Eb]. change (edge_key (set_nodes g d) e) with (edge_key g e) in Ee.
          unfold edge_key in Ee. destruct (acts_of g W _ _ _ Eb) as [X1 X2]. rewrite X1, X2 in Ee.
          injection Ee as <- <-. split; [auto|]. rewrite cnt_None. congruence.
      - intros [Hxy Hc]. rewrite cnt_None in Hc.
        destruct (dict_get (x, y) (edges g)) as [e|] eqn:Ee; [|congruence].
        destruct (acts_of g W _ _ _ Ee) as [X1 X2].
        assert (Ek : edge_key (set_nodes g d) e = (x, y)).
        { change (edge_key (set_nodes g d) e) with (edge_key g e). unfold edge_key. congruence. }
        destruct Hxy as [->| ->]; [left|right]; exists e; (split; [exact Ek|]).
        + apply Ho. eauto.
        + apply Hi. eauto. }
    assert (Hc : forall x y, cnt g1 x y = if eqb x a || eqb y a then None else cnt g x y).
    { intros x y. rewrite C1. rewrite (mem_ext (x, y) (ord ks) ks) by (intros; apply ord_In).
      destruct (mem (x, y) ks) eqn:Em.
      - apply mem_In, Hks in Em as [[->| ->] _]; rewrite eqb_refl; rewrite ?orb_true_r; auto.
      - apply mem_not_In in Em. rewrite Hks in Em.
        destruct (eqb_ok x a) as [->|]; cbn [orb].
        + destruct (cnt g a y); auto. exfalso. apply Em. split; [auto|discriminate].
        + destruct (eqb_ok y a) as [->|]; [|auto].
          destruct (cnt g x a); auto. exfalso. apply Em. split; [auto|discriminate]. }
    assert (Hd : forall x, dict_get x d = if eqb x a then None else dict_get x (nodes g))
      by (intros; apply dict_get_del, (w_nk _ W)).
    split; [auto|]. split; [|split; [|exact Hc]].
    2:{ intros x. unfold has. cbn [nodes set_nodes]. unfold d. rewrite keys_dict_del_In by apply (w_nk _ W). tauto. }
    assert (He : forall x y e, dict_get (x, y) (edges g1) = Some e -> x <> a /\ y <> a).
    { intros x y e E. assert (Hn : cnt g1 x y <> None) by (rewrite cnt_None; congruence).
      rewrite Hc in Hn. destruct (eqb_ok x a); [cbn in Hn; congruence|].
      destruct (eqb_ok y a); [cbn in Hn; congruence|]. auto. }
    constructor; cbn [nodes edges nh eh nn en set_nodes].
    - apply keys_dict_del_NoDup, (w_nk _ W).
    - apply (w_ek _ W1).
    - intros x m. rewrite Hd. destruct (eqb_ok x a); [discriminate|]. rewrite <- N1. apply (w_n _ W1).
    - intros x y e E. destruct (He _ _ _ E) as [Hx Hy]. rewrite !Hd.
      rewrite (proj2 (eqb_neq x a) Hx), (proj2 (eqb_neq y a) Hy). rewrite <- N1. apply (w_e _ W1); auto.
    - intros x m. rewrite Hd. destruct (eqb_ok x a); [discriminate|]. rewrite <- N1. apply (w_out _ W1).
    - intros x m. rewrite Hd. destruct (eqb_ok x a); [discriminate|]. rewrite <- N1. apply (w_in _ W1).
  Qed.

  Lemma add_counts_ok p fs : forall g, wf g -> has g p -> (forall f, In f fs -> has g f) -> NoDup fs ->
    exists g', foldM (fun g f => add_count p f 1 g) fs g = Ok g' /\ wf g' /\
      (forall x, has g' x <-> has g x) /\
      (forall x y, cnt g' x y = if eqb x p && mem y fs
         then Some (match cnt g x y with Some n => n | None => 0 end + 1)%Z else cnt g x y).
  Proof.
    induction fs as [|f fs IH]; intros g W Hp Hf Hd; cbn [foldM].
    - exists g. split; [auto|]. split; [auto|]. split; [tauto|]. intros. cbn. now rewrite andb_false_r.
    - inversion Hd as [|? ? Hnf Hd']; subst.
      destruct (add_count_ok p f 1 g W) as (g1 & E1 & W1 & H1 & C1). rewrite E1. cbn [bind].
      assert (H1' : forall x, has g1 x <-> has g x).
      { intros x. rewrite H1. split; [|tauto]. intros [->|[->|]]; auto. apply Hf. now left. }
      destruct (IH g1 W1) as (g2 & E2 & W2 & H2 & C2).
      { now apply H1'. } { intros x Hx. apply H1', Hf. now right. } { auto. }
      exists g2. split; [auto|]. split; [auto|]. split; [intros; now rewrite H2, H1'|].
      intros x y. rewrite C2, !C1. unfold mem. cbn [existsb].
      change (existsb (eqb y) fs) with (mem y fs).
      change (eqb (x, y) (p, f)) with (eqb x p && eqb y f).
      destruct (eqb_ok x p) as [->|]; cbn [andb]; [|auto].
      destruct (eqb_ok y f) as [->|]; cbn [orb]; [|auto].
      now rewrite (proj2 (mem_not_In f fs) Hnf).
  Qed.

  Lemma connect_ok a g : wf g -> has g a -> exists g', connect a g = Ok g' /\ wf g' /\
    (forall x, has g' x <-> has g x) /\
    (forall x y, cnt g' x y =
       match cnt g x a, cnt g a y with
       | Some _, Some _ => Some (match cnt g x y with Some n => n | None => 0 end + 1)%Z
       | _, _ => cnt g x y
       end).
  Proof.
    intros W Ha. unfold connect.
    destruct (get_preceding_ok g W a Ha) as (ps & Ep & Dp & Ip). rewrite Ep. cbn [bind].
    destruct (get_following_ok g W a Ha) as (fs0 & Ef0 & Df0 & If0).
    assert (G : forall qs g0, NoDup qs -> (forall q, In q qs -> cnt g q a <> None) -> wf g0 ->
      (forall x, has g0 x <-> has g x) -> (forall y, cnt g0 a y = None <-> cnt g a y = None) ->
      exists g', foldM (fun g p => do fs <- get_following g a ; foldM (fun g f => add_count p f 1 g) fs g) qs g0
        = Ok g' /\ wf g' /\ (forall x, has g' x <-> has g x) /\
        (forall x y, cnt g' x y = if mem x qs && mem y fs0
           then Some (match cnt g0 x y with Some n => n | None => 0 end + 1)%Z else cnt g0 x y)).
    { induction qs as [|q qs IH]; intros g0 Dq Hq W0 H0 C0; cbn [foldM].
      - exists g0. auto.
      - inversion Dq as [|? ? Hnq Dq']; subst.
        destruct (get_following_ok g0 W0 a) as (fs & Ef & Df & If); [now apply H0|].
        rewrite Ef. cbn [bind].
        assert (Hfs : forall y, In y fs <-> In y fs0) by (intros; now rewrite If, If0, C0).
        destruct (add_counts_ok q fs g0 W0) as (g1 & E1 & W1 & H1 & C1).
        { apply H0. apply (edge_has g W q a). apply Hq. now left. }
        { intros f Hf. apply H0. apply (edge_has g W a f). apply If0, Hfs, Hf. } { auto. }
        rewrite E1. cbn [bind].
        assert (Hm : forall y, mem y fs = mem y fs0) by (intros; apply mem_ext; auto).
        destruct (IH g1) as (g2 & E2 & W2 & H2 & C2); auto.
        { intros q' Hq'. apply Hq. now right. } { intros x. now rewrite H1. }
        { intros y. rewrite C1, Hm. destruct (eqb_ok a q) as [->|]; cbn [andb]; [|auto].
          destruct (mem y fs0) eqn:Em; [|auto]. apply mem_In, If0 in Em. split; [discriminate|congruence]. }
        exists g2. split; [auto|]. split; [auto|]. split; [auto|].
        intros x y. rewrite C2, !C1, Hm. unfold mem at 2 5. cbn [existsb].
        change (existsb (eqb x) qs) with (mem x qs).
        destruct (eqb_ok x q) as [->|]; cbn [andb orb]; [|auto].
        rewrite (proj2 (mem_not_In q qs) Hnq). cbn [andb]. auto. }
    destruct (G ps g) as (g' & E & W' & H' & C'); auto; try tauto.
    { intros q. now apply Ip. }
    exists g'. split; [auto|]. split; [auto|]. split; [auto|]. intros x y. rewrite C'.
    destruct (mem x ps) eqn:Ex.
    - apply mem_In, Ip in Ex. destruct (cnt g x a); [|congruence].
      destruct (mem y fs0) eqn:Ey; cbn [andb].
      + apply mem_In, If0 in Ey. destruct (cnt g a y); [auto|congruence].
      + apply mem_not_In in Ey. rewrite If0 in Ey. destruct (cnt g a y); [|auto]. exfalso. apply Ey. discriminate.
    - apply mem_not_In in Ex. rewrite Ip in Ex. cbn [andb]. destruct (cnt g x a); [|auto]. exfalso. apply Ex. discriminate.
  Qed.

  Lemma remove_connect_ok a g : wf g -> has g a -> exists g', remove_node ord a true g = Ok g' /\ wf g' /\
    (forall x, has g' x <-> has g x /\ x <> a) /\
    (forall x y, cnt g' x y = if eqb x a || eqb y a then None else
       match cnt g x a, cnt g a y with
       | Some _, Some _ => Some (match cnt g x y with Some n => n | None => 0 end + 1)%Z
       | _, _ => cnt g x y
       end).
  Proof.
    intros W Ha. destruct (connect_ok a g W Ha) as (g1 & E1 & W1 & H1 & C1).
    destruct (remove_plain_ok a g1 W1) as (g2 & E2 & W2 & H2 & C2); [now apply H1|].
    exists g2. split; [|split; [auto|split]].
    - unfold remove_node in *. rewrite E1. exact E2.
    - intros x. now rewrite H2, H1.
    - intros x y. rewrite C2. destruct (eqb x a || eqb y a); auto.
  Qed.
  Lemma remove_absent a c g : wf g -> ~ has g a -> remove_node ord a c g = Err KeyError.
  Proof.
    intros W Ha. destruct (not_has_KeyError g a Ha) as (_ & E2 & E3). unfold remove_node.
    destruct c; [unfold connect; rewrite E2; reflexivity|]. cbn [bind]. rewrite E3. reflexivity.
  Qed.
End Ord.
