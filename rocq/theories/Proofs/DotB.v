(** Rows of nodes from the sources on *)
From Coq Require Import String Permutation QArith.
From Verif.Model Require Import Base Sort Dot Drawings EventLog Dfg.
From Verif.Spec Require Import Lists Graphs EventLogSpec DfgSpec DfgBuilt.
From Verif.Lib Require Import ListLib DictLib.
From Verif.Proofs Require Import DfgA DfgB DfgC DfgE DfgJ.
Open Scope string_scope.
Open Scope list_scope.
Open Scope nat_scope.

Lemma remove_edges_eh ks : forall g, wf g -> exists g', remove_edges ks g = Ok g' /\ wf g' /\ nodes g' = nodes g /\ eh g' = eh g /\
  (forall x y, cnt g' x y = if mem (x, y) ks then None else cnt g x y).
Proof.
  unfold remove_edges. induction ks as [|[a b] ks IH]; intros g W; cbn [foldM].
  - exists g. auto.
  - destruct (remove_edge_ok a b g W) as (g1 & E1 & W1 & N1 & H1 & _ & _ & _ & C1).
    rewrite E1. cbn [bind fst]. destruct (IH g1 W1) as (g2 & E2 & W2 & N2 & H2 & C2). exists g2.
    split; [auto|]. split; [auto|]. split; [congruence|]. split; [congruence|]. intros x y. rewrite C2, C1.
    unfold mem. cbn [existsb]. destruct (eqb (x, y) (a, b)), (existsb (eqb (x, y)) ks); auto.
Qed.
Section O.
  Variable ord : list (string * string) -> list (string * string).
  Hypothesis ord_perm : any_order ord.
  Lemma clear_into es : forall g bs, wf g -> map (fun e => dict_get e (nodes g)) bs = map (fun e => Some (e_end (eh g e))) es ->
    exists g', foldM (fun g e => let t := e_end (eh g e) in remove_edges (map (edge_key g) (n_in (nh g t))) g) es g = Ok g' /\ wf g' /\ nodes g' = nodes g /\
      (forall x y, cnt g' x y <> None <-> cnt g x y <> None /\ ~ In y bs).
  Proof.
    induction es as [|e es IH]; intros g bs W E; destruct bs as [|b bs]; try discriminate; cbn [foldM].
    - exists g. split; [auto|]. split; [auto|]. split; [auto|]. intros. cbn. tauto.
    - cbn [map] in E. assert (Eb : dict_get b (nodes g) = Some (e_end (eh g e))) by congruence. assert (Er : map (fun e => dict_get e (nodes g)) bs = map (fun e => Some (e_end (eh g e))) es) by congruence. cbv zeta.
      destruct (remove_edges_eh (map (edge_key g) (n_in (nh g (e_end (eh g e))))) g W) as (g1 & E1 & W1 & N1 & H1 & C1). rewrite E1. cbn [bind].
      destruct (IH g1 bs W1) as (g2 & E2 & W2 & N2 & C2); [rewrite N1, H1; auto|]. exists g2. split; [auto|]. split; [auto|]. split; [congruence|].
      assert (K : forall x y, cnt g1 x y <> None <-> cnt g x y <> None /\ y <> b).
      { intros x y. rewrite C1. destruct (mem (x, y) (map (edge_key g) (n_in (nh g (e_end (eh g e)))))) eqn:M.
        - apply mem_In, in_map_iff in M. destruct M as (f & Ef & Hf). apply (w_in _ W b _ Eb) in Hf. destruct Hf as [a Hf]. unfold edge_key in Ef. destruct (acts_of g W _ _ _ Hf) as [X1 X2]. rewrite X1, X2 in Ef. injection Ef as <- <-. tauto.
        - apply mem_not_In in M. split; [|tauto]. intros H. split; [auto|]. intros ->. apply M. rewrite cnt_None in H. destruct (dict_get (x, b) (edges g)) as [f|] eqn:F; [|congruence].
          apply in_map_iff. exists f. split; [unfold edge_key; destruct (acts_of g W _ _ _ F) as [-> ->]; auto|]. apply (w_in _ W b _ Eb). eauto. }
      intros x y. rewrite C2, K. cbn. intuition congruence.
  Qed.
  Lemma strip_ok a g : wf g -> has g a -> exists g', strip_source ord g a = Ok g' /\ wf g' /\ (forall x, has g' x <-> has g x /\ x <> a) /\
    (forall x y, cnt g' x y <> None <-> cnt g x y <> None /\ x <> a /\ y <> a /\ ~ cnt g a y <> None).
  Proof.
    intros W H. apply has_get in H as H'. destruct H' as [n En]. unfold strip_source, node_id. rewrite En. cbn [of_option bind].
    destruct (w_out _ W a n En) as [_ Ho]. cbv zeta; destruct (clear_into (n_out (nh g n)) g (map (end_act g) (n_out (nh g n))) W) as (g1 & E1 & W1 & N1 & C1).
    { rewrite map_map. apply map_ext_in. intros e He. apply Ho in He. destruct He as [b Eb]. destruct (acts_of g W _ _ _ Eb) as [_ ->]. apply (w_e _ W) in Eb. tauto. }
    cbv zeta in E1. rewrite E1. cbn [bind]. destruct (remove_plain_ok ord ord_perm a g1 W1) as (g2 & E2 & W2 & H2 & C2); [unfold has in *; rewrite N1; auto|]. exists g2. split; [auto|]. split; [auto|].
    split; [intros x; rewrite H2; unfold has; rewrite N1; tauto|]. intros x y. rewrite C2.
    assert (I : In y (map (end_act g) (n_out (nh g n))) <-> cnt g a y <> None).
    { rewrite in_map_iff, cnt_None. split.
      - intros (e & <- & He). apply Ho in He. destruct He as [b Eb]. destruct (acts_of g W _ _ _ Eb) as [_ ->]. congruence.
      - intros F. destruct (dict_get (a, y) (edges g)) as [e|] eqn:E; [|congruence]. exists e. split; [apply (acts_of g W _ _ _ E)|]. apply Ho. eauto. }
    destruct (eqb_ok x a); [subst x; cbn; tauto|]. destruct (eqb_ok y a); [subst y; cbn; tauto|]. cbn [orb]. rewrite C1, I. tauto.
  Qed.
  Lemma strip_all ss : forall g, wf g -> NoDup ss -> (forall s, In s ss -> has g s) -> exists g', foldM (strip_source ord) ss g = Ok g' /\ wf g' /\ (forall x, has g' x <-> has g x /\ ~ In x ss) /\
    (forall x y, cnt g' x y <> None <-> cnt g x y <> None /\ ~ In x ss /\ ~ In y ss /\ forall s, In s ss -> cnt g s y = None).
  Proof.
    induction ss as [|a ss IH]; intros g W ND H; cbn [foldM].
    - exists g. split; [auto|]. split; [auto|]. split; intros; cbn; [tauto|]. split; [|tauto]. intros Q. split; [auto|]. split; [tauto|]. split; [tauto|]. intros s [].
    - inversion ND as [|? ? Na Nl]; subst. destruct (strip_ok a g W) as (g1 & E1 & W1 & H1 & C1); [apply H; left; auto|]. rewrite E1. cbn [bind].
      destruct (IH g1 W1 Nl) as (g2 & E2 & W2 & H2 & C2). { intros s Hs. apply H1. split; [apply H; right; auto|]. intros ->. auto. }
      exists g2. split; [auto|]. split; [auto|]. split; [intros x; rewrite H2, H1; cbn; intuition congruence|].
      assert (DN : forall x y, ~ cnt g x y <> None <-> cnt g x y = None) by (intros x y; destruct (cnt g x y); split; intros; try congruence; exfalso; apply H0; discriminate).
      intros x y. rewrite C2, C1, DN. split.
      + intros ((A & B & D & F) & G & I & J). split; [auto|]. split; [cbn; intuition congruence|]. split; [cbn; intuition congruence|]. intros s [<-|Hs]; [auto|]. apply DN. intros Q.
        assert (X : cnt g1 s y <> None). { apply C1. rewrite DN. split; [auto|]. split; [intros ->; auto|]. auto. } apply X. auto.
      + intros (A & B & D & F). cbn in B, D. split; [repeat split; try auto; apply F; left; auto|]. split; [auto|]. split; [auto|]. intros s Hs. destruct (cnt g1 s y) eqn:Q; [|auto]. exfalso.
        assert (X : cnt g1 s y <> None) by congruence. apply C1 in X. destruct X as [X _]. apply X. apply F. right. auto.
  Qed.

  Lemma search (P : string -> Prop) (l : list string) : (forall p, In p l -> P p \/ ~ P p) -> (exists p, In p l /\ P p) \/ forall p, In p l -> ~ P p.
  Proof.
    clear. induction l as [|a l IH]; intros D; [right; intros p []|]. destruct (D a (or_introl eq_refl)) as [H|H]; [left; exists a; split; [left|]; auto|].
    destruct IH as [(p & Hp & Q)|Q]; [intros p Hp; apply D; right; auto|left; exists p; split; [right|]; auto|]. right. intros p [<-|Hp]; auto.
  Qed.
  Section B.
    Variable E : string -> string -> Prop.
    Variable N : string -> Prop.
    Definition start s := N s /\ forall p, E p s -> p = s.
    (** fewer than [i] steps from a source *)
    Fixpoint near (i : nat) (x : string) : Prop :=
      match i with 0 => False | S i' => start x \/ near i' x \/ exists p, near i' p /\ E p x end.
    Lemma near_mono i x : near i x -> near (S i) x.
    Proof. cbn. auto. Qed.
    Lemma near_le i j x : i <= j -> near i x -> near j x.
    Proof. induction 1; intros; [auto|]. apply near_mono. auto. Qed.
    Lemma near_dec (all : list string) : (forall x, In x all <-> N x) -> (forall x y, E x y -> N x /\ N y) -> (forall x y, E x y \/ ~ E x y) ->
      forall i x, near i x \/ ~ near i x.
    Proof.
      clear. intros A EN ED. induction i as [|i IH]; intros x; [cbn; tauto|]. cbn [near].
      destruct (IH x) as [H|H]; [auto|].
      destruct (search (fun p => near i p /\ E p x) all) as [(p & _ & Q)|Q]; [intros p _; destruct (IH p), (ED p x); tauto|eauto|].
      assert (X : start x \/ ~ start x).
      { destruct (in_dec string_dec x all) as [Hx|Hx]; [|right; intros [S _]; apply Hx, A, S].
        destruct (search (fun p => E p x /\ p <> x) all) as [(p & _ & Q1 & Q2)|Q'].
        - intros p _. destruct (ED p x), (string_dec p x); tauto.
        - right. intros [_ S]. apply Q2, S, Q1.
        - left. split; [apply A, Hx|]. intros p Hp. destruct (string_dec p x) as [|n]; [auto|]. exfalso. apply (Q' p); [apply A, (EN p x Hp)|auto]. }
      destruct X as [X|X]; [auto|]. right. intros [Y|[Y|(p & Y1 & Y2)]]; [auto|auto|]. apply (Q p); [apply A, (EN p x Y2)|auto].
    Qed.
    Lemma near_end i : (forall x, ~ (N x /\ ~ near i x /\ near (S i) x)) -> (forall x y, E x y -> N x /\ N y) -> forall k x, near (i + k) x -> ~ ~ near i x.
    Proof.
      intros Q EN. induction k as [|k IH]; intros x H F; [rewrite Nat.add_0_r in H; auto|]. rewrite Nat.add_succ_r in H. cbn [near] in H. destruct H as [H|[H|(p & H & Hp)]].
      - apply (Q x). split; [apply H|]. split; [auto|]. left. auto.
      - apply (IH x H F).
      - apply (IH p H). intros Np. apply (Q x). split; [apply (EN p x Hp)|]. split; [auto|]. right. right. eauto.
    Qed.
    Lemma sources_layer g i : wf g -> (forall j x, near j x \/ ~ near j x) -> (forall x y, E x y -> N x /\ N y) ->
      (forall x, has g x <-> N x /\ ~ near i x) -> (forall x y, cnt g x y <> None <-> E x y /\ ~ near i x /\ (i = 0 \/ ~ near (S i) y)) ->
      forall x, In x (get_source_activities g) <-> N x /\ ~ near i x /\ near (S i) x.
    Proof.
      intros W ND EN HH HC x. destruct (sources_ok g W) as [_ SO]. rewrite SO, HH. split.
      - intros ((A & B) & D). split; [auto|]. split; [auto|]. destruct (ND (S i) x) as [Y|Y]; [auto|]. exfalso. apply Y. left. split; [auto|]. intros p Ep. apply D, HC.
        split; [auto|]. split; [|auto]. intros Np. apply Y. right. right. eauto.
      - intros (A & B & D). split; [auto|]. intros p Hp. apply HC in Hp. destruct Hp as (Ep & Np & [->|Q]); [|tauto]. destruct D as [D|[[]|(q & [] & _)]]. apply D. auto.
    Qed.
    Lemma next_graph g g' i : wf g -> (forall j x, near j x \/ ~ near j x) -> (forall x y, E x y -> N x /\ N y) ->
      (forall x, has g x <-> N x /\ ~ near i x) -> (forall x y, cnt g x y <> None <-> E x y /\ ~ near i x /\ (i = 0 \/ ~ near (S i) y)) ->
      (forall x, has g' x <-> has g x /\ ~ In x (get_source_activities g)) ->
      (forall x y, cnt g' x y <> None <-> cnt g x y <> None /\ ~ In x (get_source_activities g) /\ ~ In y (get_source_activities g) /\ forall s, In s (get_source_activities g) -> cnt g s y = None) ->
      (forall x, has g' x <-> N x /\ ~ near (S i) x) /\ (forall x y, cnt g' x y <> None <-> E x y /\ ~ near (S i) x /\ (S i = 0 \/ ~ near (S (S i)) y)).
    Proof.
      intros W ND EN HH HC H1 C1. pose proof (sources_layer g i W ND EN HH HC) as SL. split.
      - intros x. rewrite H1, HH, SL. split.
        + intros ((A & B) & D). split; [auto|]. intros F. apply D. auto.
        + intros (A & B). split; [split; [auto|]; intros F; apply B, near_mono, F|]. tauto.
      - intros x y. rewrite C1, HC, !SL. split.
        + intros ((A & B & D) & F & G & I). destruct (EN x y A) as [Nx Ny]. split; [auto|]. split; [tauto|]. right. intros Q.
          assert (Ny1 : ~ near (S i) y). { destruct D as [->|D]; [|auto]. intros Z. apply G. split; [auto|]. cbn. auto. }
          cbn [near] in Q. destruct Q as [Q|[Q|(p & Q & Ep)]]; [apply Ny1; left; auto|apply Ny1, Q|].
          destruct (ND i p) as [P|P]; [apply Ny1; right; right; eauto|].
          assert (X : cnt g p y = None). { apply I, SL. split; [apply (EN p y Ep)|]. auto. }
          apply (proj2 (HC p y)); [|auto]. split; [auto|]. split; [auto|]. right. auto.
        + intros (A & B & [D|D]); [discriminate|]. assert (Y : ~ near (S i) y) by (intros Z; apply D, near_mono, Z).
          split; [split; [auto|]; split; [intros Z; apply B, near_mono, Z|auto]|]. split; [tauto|]. split; [tauto|]. intros s Hs. apply SL in Hs.
          destruct (cnt g s y) eqn:Q; [|auto]. exfalso. assert (Q' : cnt g s y <> None) by congruence. apply HC in Q'. apply D. right. right. exists s. tauto.
    Qed.
    Lemma groups_ok fuel : forall g i, wf g -> length (nodes g) <= fuel -> (forall j x, near j x \/ ~ near j x) -> (forall x y, E x y -> N x /\ N y) ->
      (forall x, has g x <-> N x /\ ~ near i x) -> (forall x y, cnt g x y <> None <-> E x y /\ ~ near i x /\ (i = 0 \/ ~ near (S i) y)) ->
      exists rows, groups fuel ord g = Ok rows /\ (forall k r, nth_error rows k = Some r -> NoDup r /\ r <> []) /\
        forall k x, (exists r, nth_error rows k = Some r /\ In x r) <-> N x /\ ~ near (i + k) x /\ near (S (i + k)) x.
    Proof.
      assert (STOP : forall g i, get_source_activities g = [] -> wf g -> (forall j x, near j x \/ ~ near j x) -> (forall x y, E x y -> N x /\ N y) ->
        (forall x, In x (get_source_activities g) <-> N x /\ ~ near i x /\ near (S i) x) ->
        forall k x, (exists r, @nth_error (list string) [] k = Some r /\ In x r) <-> N x /\ ~ near (i + k) x /\ near (S (i + k)) x).
      { intros g i Z W ND EN SL k x. split; [intros (r & Q & _); destruct k; discriminate|]. intros (A & B & D). exfalso.
        assert (X : near (i + S k) x) by (rewrite Nat.add_succ_r; auto). revert X. intros X. apply (near_end i) with (k := S k) (x := x); [intros y Hy; apply SL in Hy; rewrite Z in Hy; destruct Hy|auto|auto|].
        intros Y. apply B. apply (near_le i); [lia|auto]. }
      induction fuel as [|fuel IH]; intros g i W L ND EN HH HC; pose proof (sources_layer g i W ND EN HH HC) as SL; destruct (sources_ok g W) as [NS SO].
      - assert (Z : get_source_activities g = []).
        { destruct (get_source_activities g) as [|a l]; [auto|]. destruct (proj1 (SO a) (or_introl eq_refl)) as [H _]. unfold has in H. destruct (nodes g); [destruct H|cbn in L; lia]. }
        exists []. cbn [groups]. rewrite Z. split; [auto|]. split; [intros k r Q; destruct k; discriminate|]. exact (STOP g i Z W ND EN SL).
      - cbn [groups]. destruct (get_source_activities g) as [|a l] eqn:Z.
        + exists []. split; [auto|]. split; [intros k r Q; destruct k; discriminate|]. apply (STOP g i Z W ND EN). rewrite Z. auto.
        + rewrite <- Z in *. destruct (strip_all (get_source_activities g) g W NS) as (g' & E1 & W1 & H1 & C1); [intros s Hs; apply SO, Hs|]. rewrite E1. cbn [bind].
          destruct (next_graph g g' i W ND EN HH HC H1 C1) as [HH' HC'].
          assert (L' : length (nodes g') <= fuel).
          { assert (X : length (keys (nodes g')) < length (keys (nodes g))).
            { apply Nat.lt_le_trans with (length (a :: keys (nodes g'))); [cbn; lia|]. apply NoDup_incl_length.
              - constructor; [|apply W1]. intros Q. apply (H1 a) in Q. apply (proj2 Q). rewrite Z. left. auto.
              - intros x [<-|Q]; [apply SO; rewrite Z; left; auto|]. apply (H1 x) in Q. apply Q. }
            unfold keys in X. rewrite !map_length in X. lia. }
          destruct (IH g' (S i) W1 L' ND EN HH' HC') as (rows & E2 & R1 & R2). rewrite E2. cbn [bind]. exists (get_source_activities g :: rows). split; [auto|]. split.
          * intros [|k] r Q; [injection Q as <-; split; [auto|congruence]|]. apply (R1 k), Q.
          * intros [|k] x; cbn [nth_error]; [rewrite Nat.add_0_r|rewrite Nat.add_succ_r, <- Nat.add_succ_l, <- R2; tauto]. rewrite <- SL. split; [intros (r & Q & H); injection Q as <-; auto|]. intros H. eexists. split; [reflexivity|auto].
    Qed.
    Lemma near_path i x : near (S i) x <-> exists s l, start s /\ path E s x l /\ length l <= S i.
    Proof.
      revert x. induction i as [|i IH]; intros x.
      - split.
        + intros [H|[[]|(p & [] & _)]]. exists x, [x]. split; [auto|]. split; [split; [exists []; auto|]; split; [exists []; auto|cbn; auto]|auto].
        + intros (s & l & S & ([r ->] & [pre Q] & _) & L). destruct r; [|cbn in L; lia]. destruct pre as [|? [|]]; try discriminate. injection Q as <-. left. auto.
      - split.
        + intros [H|[H|(p & H & Hp)]].
          * exists x, [x]. split; [auto|]. split; [split; [exists []; auto|]; split; [exists []; auto|cbn; auto]|cbn; lia].
          * apply IH in H. destruct H as (s & l & S & P & L). exists s, l. split; [auto|]. split; [auto|lia].
          * apply IH in H. destruct H as (s & l & S & P & L). destruct P as (P1 & [pre ->] & P3). exists s, (pre ++ [p; x]). split; [auto|]. split; [apply DfgH.path_step; [split; [auto|]; split; [exists pre; auto|auto]|auto]|]. rewrite app_length in *. cbn in *. lia.
        + intros (s & l & S & (P1 & [pre ->] & P3) & L). destruct pre as [|y pre] using rev_ind.
          * destruct P1 as [r Q]. cbn in Q. injection Q as -> _. left. auto.
          * clear IHpre. rewrite <- app_assoc in P1, P3. cbn [app] in P1, P3. pose proof (DfgH.chained_mid E pre y x [] P3) as Q. right. right. exists y. split; [|auto]. apply IH.
            exists s, (pre ++ [y]). split; [auto|]. rewrite !app_length in L. cbn in L. split; [|rewrite app_length; cbn; lia]. split; [|split; [exists pre; auto|]].
            -- destruct P1 as [r P1]. destruct pre as [|z pre]; cbn in P1 |- *; injection P1 as -> _; [exists []; auto|exists (pre ++ [y]); auto].
            -- change [y; x] with ([y] ++ [x]) in P3. rewrite app_assoc in P3. apply DfgH.chained_app in P3. apply P3.
    Qed.
  End B.
End O.

Lemma rows_near ord g N C : any_order ord -> built g -> shows g N C ->
  (forall j x, near (edge_of C) N j x \/ ~ near (edge_of C) N j x) /\ (forall x y, edge_of C x y -> N x /\ N y) /\
  exists rows, topological_groups ord g = Ok rows /\ (forall i r, nth_error rows i = Some r -> NoDup r /\ r <> []) /\
    forall i a, (exists r, nth_error rows i = Some r /\ In a r) <-> N a /\ ~ near (edge_of C) N i a /\ near (edge_of C) N (S i) a.
Proof.
  intros O B SH. open B SH W HN HC. unfold topological_groups. destruct (copy_ok g W) as (c & E1 & W1 & [HH CC]). rewrite E1. cbn [bind].
  assert (EN : forall x y, edge_of C x y -> N x /\ N y). { intros x y H. unfold edge_of in H. rewrite HC in H. destruct (edge_has g W x y H). split; apply HN; auto. }
  assert (ED : forall x y, edge_of C x y \/ ~ edge_of C x y). { intros x y. unfold edge_of. destruct (C x y); [left; congruence|right; congruence]. }
  assert (NDc : forall j x, near (edge_of C) N j x \/ ~ near (edge_of C) N j x). { apply (near_dec _ _ (keys (nodes g))); [intros x; symmetry; apply HN|auto|auto]. }
  split; [auto|]. split; [auto|].
  destruct (groups_ok ord O (edge_of C) N (length (nodes c)) c 0 W1 (le_n _) NDc EN) as (rows & E2 & R1 & R2).
  - intros x. rewrite HH, HN. cbn. tauto.
  - intros x y. rewrite CC, <- HC. unfold edge_of. cbn. tauto.
  - exists rows. auto.
Qed.

(*P C124 Rows of activities from the sources on *)
Lemma C124_rows : forall ord g N C, any_order ord -> built g -> shows g N C ->
  let first a := N a /\ forall p, edge_of C p a -> p = a in
  exists rows, topological_groups ord g = Ok rows /\
    (forall i r, nth_error rows i = Some r -> NoDup r /\ r <> []) /\
    forall i a, (exists r, nth_error rows i = Some r /\ In a r) <->
      (exists s l, first s /\ path (edge_of C) s a l /\ length l = S i) /\
      (forall s l, first s -> path (edge_of C) s a l -> S i <= length l).
Proof.
  intros ord g N C O B SH. cbv zeta. destruct (rows_near ord g N C O B SH) as (NDc & EN & rows & E & R1 & R2).
  exists rows. split; [auto|]. split; [auto|]. intros i a. rewrite R2. cbn [Nat.add]. split.
    + intros (A & H1 & H2).
      assert (M : forall s l, start (edge_of C) N s -> path (edge_of C) s a l -> S i <= length l).
      { intros s l Hs Hp. destruct (le_lt_dec (S i) (length l)) as [|X]; [auto|]. exfalso. apply H1. destruct i as [|i]; [destruct l; [destruct Hp as ([r Q] & _); discriminate|cbn in X; lia]|]. apply near_path. exists s, l. split; [auto|]. split; [auto|lia]. }
      split; [|exact M]. apply near_path in H2. destruct H2 as (s & l & Hs & Hp & Hl). exists s, l. split; [exact Hs|]. split; [auto|]. specialize (M s l Hs Hp). lia.
    + intros ((s & l & Hs & Hp & Hl) & M).
      assert (H2 : near (edge_of C) N (S i) a) by (apply near_path; exists s, l; split; [exact Hs|]; split; [auto|lia]).
      split; [|split; [|auto]].
      * cbn [near] in H2. destruct H2 as [H2|[H2|(p & _ & H2)]]; [apply H2| |apply (EN _ _ H2)]. destruct Hp as (_ & [pre ->] & P3). destruct pre as [|y pre] using rev_ind.
        { exfalso. cbn in Hl. injection Hl as <-. destruct H2. } clear IHpre. rewrite <- app_assoc in P3. apply (DfgH.chained_mid _ pre y a []) in P3. apply (EN _ _ P3).
      * intros H1. destruct i as [|i]; [destruct H1|]. apply near_path in H1. destruct H1 as (s' & l' & Hs' & Hp' & Hl'). specialize (M s' l' Hs' Hp'). lia.
Qed.
(** every activity that some source leads to is in a row, and no other *)
Lemma C124_reachable : forall ord g N C rows, any_order ord -> built g -> shows g N C -> topological_groups ord g = Ok rows ->
  forall a, In a (concat rows) <-> exists s, (N s /\ forall p, edge_of C p s -> p = s) /\ connected0 (edge_of C) s a.
Proof.
  intros ord g N C rows O B SH E a. destruct (rows_near ord g N C O B SH) as (NDc & EN & rows' & E' & _ & R). rewrite E in E'. injection E' as <-. rewrite in_concat. split.
  - intros (r & Hr & Ha). apply In_nth_error in Hr. destruct Hr as [i Hr]. destruct (proj1 (R i a)) as (_ & _ & H); [eauto|]. apply near_path in H. destruct H as (s & l & Hs & Hp & _). exists s. split; [exact Hs|]. exists l. auto.
  - intros (s & Hs & l & Hp).
    assert (Na : N a). { destruct Hp as ([q P1] & [pre P2] & P3). destruct pre as [|y pre] using rev_ind; [subst; cbn in P2; injection P2 as -> ->; apply Hs|]. clear IHpre. rewrite P2, <- app_assoc in P3. apply (DfgH.chained_mid _ pre y a []) in P3. apply (EN _ _ P3). }
    assert (H : near (edge_of C) N (length l) a). { destruct l as [|x l]; [destruct Hp as ([q P1] & _); discriminate|]. apply near_path. exists s, (x :: l). auto. }
    assert (X : forall n, near (edge_of C) N n a -> exists i, ~ near (edge_of C) N i a /\ near (edge_of C) N (S i) a).
    { induction n as [|n IH]; intros Z; [destruct Z|]. destruct (NDc n a) as [Y|Y]; [auto|eauto]. }
    destruct (X _ H) as (i & X1 & X2). destruct (proj2 (R i a)) as (r & Q & I); [auto|]. exists r. split; [eapply nth_error_In; eauto|auto].
Qed.
(** no activity of a loop that nothing leads into is in a row *)
Lemma C124_loop_witness : exists g, add_count "a" "b" 1 empty = Ok g /\ exists g', add_count "b" "a" 1 g = Ok g' /\
  forall ord, topological_groups ord g' = Ok [].
Proof. eexists. split; [vm_compute; reflexivity|]. eexists. split; [vm_compute; reflexivity|]. reflexivity. Qed.
