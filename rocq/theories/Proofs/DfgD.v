(** Counting, filtering and selecting *)
From Coq Require Import Permutation QArith.
From Verif.Model Require Import Base Sort EventLog Dfg.
From Verif.Lib Require Import ListLib DictLib.
From Verif.Spec Require Import Lists Logs Graphs EventLogSpec DfgSpec.
From Verif.Proofs Require Import Selection DfgA DfgB DfgC.
Open Scope nat_scope.

Lemma wf_shows g : wf g -> shows g (has g) (cnt g).
Proof.
  intros W. constructor.
  - rewrite activities_keys by auto. split; [apply W|reflexivity].
  - split; [now apply edge_list_NoDup|]. intros. now apply edge_list_In.
  - intros a b. unfold get_count, cnt. destruct (dict_get (a, b) (edges g)); auto.
  - unfold get_nr_of_nodes, get_nr_of_edges, activities, edge_list, values. now rewrite !map_length.
  - intros a Ha. now apply get_following_ok.
  - intros b Hb. destruct (get_preceding_ok g W b Hb) as (l & E & D & I). exists l.
    split; [auto|]. split; [auto|]. split; [auto|]. unfold compute_indegree, get_preceding in *.
    destruct (node_id g b); cbn in *; [|discriminate]. injection E as <-. now rewrite map_length.
  - intros a Ha. destruct (not_has_KeyError g a Ha) as (E1 & E2 & E3). unfold compute_indegree. now rewrite E3.
  - intros a b. now apply edge_has.
Qed.
Lemma shows_wf g N C : wf g -> shows g N C -> (forall a, N a <-> has g a) /\ (forall a b, C a b = cnt g a b).
Proof.
  intros W S. split.
  - intros a. rewrite <- (proj2 (sh_nodes _ _ _ S) a), (proj2 (sh_nodes _ _ _ (wf_shows g W)) a). tauto.
  - intros a b.
    assert (Hi : forall c, C a b = Some c <-> cnt g a b = Some c).
    { intros c. rewrite <- (proj2 (sh_edges _ _ _ S) a b c). now apply edge_list_In. }
    destruct (C a b) as [c|]; [symmetry; now apply Hi|].
    destruct (cnt g a b) as [c|]; [now apply Hi|auto].
Qed.
Lemma shows_ext g N C N' C' : (forall a, N a <-> N' a) -> (forall a b, C a b = C' a b) ->
  shows g N C -> shows g N' C'.
Proof.
  intros HN HC [S1 S2 S3 S4 S5 S6 S7 S8]. constructor.
  - split; [apply S1|]. intros a. rewrite <- HN. apply S1.
  - split; [apply S2|]. intros a b c. rewrite <- HC. apply S2.
  - intros. now rewrite <- HC.
  - auto.
  - intros a Ha. apply HN in Ha. destruct (S5 a Ha) as (l & E & D & I). exists l. unfold edge_of in *.
    split; [auto|]. split; [auto|]. intros b. now rewrite <- HC.
  - intros a Ha. apply HN in Ha. destruct (S6 a Ha) as (l & E & D & I & J). exists l. unfold edge_of in *.
    split; [auto|]. split; [auto|]. split; [|auto]. intros b. now rewrite <- HC.
  - intros a Ha. apply S7. now rewrite HN.
  - intros a b. unfold edge_of in *. rewrite <- HC, <- !HN. apply S8.
Qed.

(** *** adding many counts *)
Definition adds (l : list (string * string * Z)) g : result graph :=
  foldM (fun g '(a, b, c) => add_count a b c g) l g.
Definition tally (l : list (string * string * Z)) x y : list Z :=
  map snd (filter (fun t => eqb (fst t) (x, y)) l).
Definition bump (o : option Z) (cs : list Z) : option Z :=
  match cs with
  | [] => o
  | _ => Some (fold_left Z.add cs (match o with Some n => n | None => 0 end))%Z
  end.
Lemma adds_ok l : forall g, wf g -> exists g', adds l g = Ok g' /\ wf g' /\
  (forall x, has g' x <-> has g x \/ exists a b c, In (a, b, c) l /\ (x = a \/ x = b)) /\
  (forall x y, cnt g' x y = bump (cnt g x y) (tally l x y)).
Proof.
  unfold adds. induction l as [|[[a b] c] l IH]; intros g W; cbn [foldM].
  - exists g. split; [auto|]. split; [auto|]. split; [|auto].
    intros x. split; [auto|]. intros [|(? & ? & ? & [] & _)]; auto.
  - destruct (add_count_ok a b c g W) as (g1 & E1 & W1 & H1 & C1). rewrite E1. cbn [bind].
    destruct (IH g1 W1) as (g2 & E2 & W2 & H2 & C2). exists g2. split; [auto|]. split; [auto|]. split.
    + intros x. rewrite H2, H1. split.
      * intros [[->|[->|Hx]]|(p & q & r & Hin & Hx)].
        -- right. exists a, b, c. split; [now left|auto].
        -- right. exists a, b, c. split; [now left|auto].
        -- auto.
        -- right. exists p, q, r. split; [now right|auto].
      * intros [Hx|(p & q & r & [E|Hin] & Hx)].
        -- auto.
        -- injection E as <- <- <-. left. destruct Hx; auto.
        -- right. exists p, q, r. auto.
    + intros x y. rewrite C2, C1. unfold tally. cbn [filter]. cbn [fst].
      assert (Es : eqb (a, b) (x, y) = eqb (x, y) (a, b)).
      { destruct (eqb_ok (a, b) (x, y)) as [E|E], (eqb_ok (x, y) (a, b)); congruence. }
      rewrite Es. destruct (eqb_ok (x, y) (a, b)) as [E|E]; [|auto].
      injection E as -> ->. cbn [map snd]. unfold bump.
      destruct (map snd (filter _ l)) eqn:El; cbn [fold_left]; auto.
Qed.
Lemma tally_In l x y c : In c (tally l x y) <-> In (x, y, c) l.
Proof.
  unfold tally. rewrite in_map_iff. split.
  - intros ([k d] & <- & Hin). apply filter_In in Hin as [Hin E]. apply (proj1 (eqb_eq _ _)) in E. cbn in E.
    subst k. exact Hin.
  - intros Hin. exists (x, y, c). split; [auto|]. apply filter_In. split; [auto|]. apply eqb_refl.
Qed.
Lemma tally_NoDup l x y : NoDup (map fst l) ->
  tally l x y = [] \/ exists c, tally l x y = [c] /\ In (x, y, c) l.
Proof.
  unfold tally. induction l as [|[k c] l IH]; cbn [filter map]; [auto|].
  intros Hd. inversion Hd as [|? ? Hk Hd']; subst. cbn [fst]. destruct (eqb_ok k (x, y)) as [->|Hn].
  - right. exists c. cbn [map snd]. split; [|now left]. f_equal.
    destruct (filter _ l) as [|[k' c'] r] eqn:E; [auto|]. exfalso. apply Hk.
    assert (Hin : In (k', c') (filter (fun t => eqb (fst t) (x, y)) l)) by (rewrite E; now left).
    apply filter_In in Hin as [Hin Ek]. apply (proj1 (eqb_eq _ _)) in Ek. cbn in Ek. subst k'.
    change (x, y) with (fst ((x, y), c')). now apply in_map.
  - destruct (IH Hd') as [E|(c' & E & Hin)]; [auto|]. right. exists c'. split; [auto|now right].
Qed.
Lemma adds_fresh l g : wf g -> NoDup (map fst l) -> exists g', adds l g = Ok g' /\ wf g' /\
  (forall x, has g' x <-> has g x \/ exists a b c, In (a, b, c) l /\ (x = a \/ x = b)) /\
  (forall x y c, In (x, y, c) l -> cnt g' x y = Some (match cnt g x y with Some n => n | None => 0 end + c)%Z) /\
  (forall x y, (forall c, ~ In (x, y, c) l) -> cnt g' x y = cnt g x y).
Proof.
  intros W Hd. destruct (adds_ok l g W) as (g' & E & W' & H' & C'). exists g'.
  split; [auto|]. split; [auto|]. split; [auto|]. split.
  - intros x y c Hin. rewrite C'. destruct (tally_NoDup l x y Hd) as [T|(c' & T & _)].
    + apply tally_In in Hin. rewrite T in Hin. contradiction.
    + apply tally_In in Hin. rewrite T in Hin. destruct Hin as [<-|[]]. rewrite T. auto.
  - intros x y Hn. rewrite C'. destruct (tally l x y) as [|c cs] eqn:T; [auto|]. exfalso. apply (Hn c).
    apply tally_In. rewrite T. now left.
Qed.
Lemma foldM_if_adds {X} (P : X -> bool) (f : X -> string * string * Z) l : forall g,
  foldM (fun g e => if P e then add_count (fst (fst (f e))) (snd (fst (f e))) (snd (f e)) g else Ok g) l g
  = adds (map f (filter P l)) g.
Proof.
  unfold adds. induction l as [|x l IH]; intros g; cbn [foldM filter map]; [auto|].
  destruct (P x) eqn:E; cbn [bind map foldM].
  - destruct (f x) as [[a b] c]. cbn [fst snd]. destruct (add_count a b c g); cbn [bind]; auto.
  - apply IH.
Qed.

(** *** directly-follows counts of a log *)
Lemma add_node_idem a g : add_node a (add_node a g) = add_node a g.
Proof.
  assert (E : dict_has a (nodes (add_node a g)) = true).
  { unfold add_node. destruct (dict_has a (nodes g)) eqn:E; [auto|]. cbn. apply dict_has_In.
    apply keys_dict_set_In. auto. }
  remember (add_node a g) as h. unfold add_node. now rewrite E.
Qed.
Lemma add_count_add_node a b c g : add_count a b c (add_node a g) = add_count a b c g.
Proof. unfold add_count. now rewrite add_node_idem. Qed.

Section Logs.
  Context {V I : Type}.
  Notation event := (event string V).
  Notation log := (log string V I).
  Fixpoint steps (es : list event) : list (string * string * Z) :=
    match es with
    | e :: ((f :: _) as es') => (activity e, activity f, 1%Z) :: steps es'
    | _ => []
    end.
  Lemma read_events_adds es : forall g, read_events es g = adds (steps es) g.
  Proof.
    induction es as [|e [|f es] IH]; intros g; auto.
    cbn [read_events steps]. unfold adds. cbn [foldM]. rewrite add_count_add_node.
    destruct (add_count (activity e) (activity f) 1 g); cbn [bind]; [apply IH|auto].
  Qed.
  Definition is_step (es : list event) a b i : Prop := act es i = Some a /\ act es (S i) = Some b.
  Lemma steps_size es a b : has_size (is_step es a b) (length (tally (steps es) a b)) /\
    Forall (fun c => c = 1%Z) (tally (steps es) a b).
  Proof.
    induction es as [|e [|f es] IH].
    - split; [|constructor]. apply has_size_empty. intros i [E _]. unfold act in E. now destruct i.
    - split; [|constructor]. apply has_size_empty. intros i [_ E]. unfold act in E. cbn in E. now destruct i.
    - destruct IH as [IH1 IH2]. change (steps (e :: f :: es)) with ((activity e, activity f, 1%Z) :: steps (f :: es)).
      unfold tally in *. cbn [filter fst].
      assert (Hs : has_size (fun i => exists j, i = S j /\ is_step (f :: es) a b j)
                     (length (map snd (filter (fun t => eqb (fst t) (a, b)) (steps (f :: es)))))).
      { eapply has_size_image with (f := S); [exact IH1| |].
        - intros; congruence.
        - intros y. split; [intros (j & -> & Hj)|intros (j & Hj & <-)]; eauto. }
      destruct (eqb_ok (activity e, activity f) (a, b)) as [E|E].
      + cbn [map snd length]. split; [|now constructor]. injection E as Ea Eb.
        assert (H0 : has_size (fun i => i = 0) 1).
        { exists [0]. split; [repeat constructor; auto|]. split; [|reflexivity]. intros x. cbn. intuition congruence. }
        eapply has_size_ext; [|refine (has_size_or _ _ 1 _ H0 Hs _)].
        * intros [|i]; cbn.
          -- split; [|auto]. intros _. unfold is_step, act. cbn. now rewrite Ea, Eb.
          -- split; [intros [|(j & [= <-] & Hj)]; [discriminate|exact Hj]|]. intros Hj. right. eauto.
        * intros x -> (j & Hj & _). discriminate.
      + split; [|auto]. eapply has_size_ext; [|exact Hs]. intros [|i]; cbn.
        * split; [intros (j & Hj & _); discriminate|]. intros [X Y]. unfold act in X, Y. cbn in X, Y. congruence.
        * split; [intros (j & [= <-] & Hj); exact Hj|eauto].
  Qed.

  Lemma bump_app o cs ds : bump (bump o cs) ds = bump o (cs ++ ds).
  Proof.
    destruct cs as [|c cs]; [auto|]. destruct ds as [|d ds]; [now rewrite app_nil_r|].
    unfold bump. cbn [app]. f_equal. rewrite <- (fold_left_app Z.add (c :: cs) (d :: ds)). auto.
  Qed.
  Lemma bump_ones o cs : Forall (fun c => c = 1%Z) cs ->
    bump o cs = match length cs with 0 => o
                | n => Some (match o with Some m => m | None => 0 end + Z.of_nat n)%Z end.
  Proof.
    intros Hc. destruct cs as [|c cs]; [auto|]. unfold bump. cbn [length]. f_equal.
    change (S (length cs)) with (length (c :: cs)). generalize (c :: cs) Hc.
    generalize (match o with Some m => m | None => 0%Z end). clear. intros z l Hl. revert z.
    induction Hl as [|c l -> Hl IH]; intros z; cbn [fold_left length]; [lia|]. rewrite IH. lia.
  Qed.
  Lemma steps_acts (es : list event) a b c : In (a, b, c) (steps es) ->
    In a (map activity es) /\ In b (map activity es).
  Proof.
    induction es as [|e [|f es] IH]; try contradiction.
    change (steps (e :: f :: es)) with ((activity e, activity f, 1%Z) :: steps (f :: es)). intros [E|Hin].
    - injection E as <- <- _. cbn. auto.
    - apply IH in Hin as [H1 H2]. split; now right.
  Qed.
  Lemma steps_cover (e : event) es x : In x (map activity es) -> exists a c, In (a, x, c) (steps (e :: es)).
  Proof.
    revert e. induction es as [|f es IH]; intros e; [contradiction|]. intros [<-|Hx].
    - exists (activity e), 1%Z. now left.
    - destruct (IH f Hx) as (a & c & Hin). exists a, c. right. exact Hin.
  Qed.
  Lemma read_counts_ok (l : log) : forall g, wf g -> exists g', read_counts_from_log l g = Ok g' /\ wf g' /\
    (forall x, has g' x <-> has g x \/ occurs l x) /\
    (forall x y, exists n, has_size (fun '(k, i) => exists t, nth_error l k = Some t /\ is_step (events t) x y i) n /\
       cnt g' x y = match n with 0 => cnt g x y
                    | _ => Some (match cnt g x y with Some m => m | None => 0 end + Z.of_nat n)%Z end).
  Proof.
    unfold read_counts_from_log.
    assert (G : forall g, wf g -> exists g', foldM read_trace l g = Ok g' /\ wf g' /\
      (forall x, has g' x <-> has g x \/ occurs l x) /\
      (forall x y, cnt g' x y = bump (cnt g x y) (flat_map (fun t => tally (steps (events t)) x y) l))).
    { induction l as [|t l' IH]; intros g W; cbn [foldM].
      - exists g. split; [auto|]. split; [auto|]. split; [|auto].
        intros x. split; [auto|]. intros [|(? & ? & [] & _)]; auto.
      - unfold read_trace at 1. rewrite read_events_adds.
        set (g0 := match events t with [] => g | e :: _ => add_node (activity e) g end).
        assert (H0 : wf g0 /\ (forall x y, cnt g0 x y = cnt g x y) /\
           forall x, has g0 x <-> has g x \/ exists e es, events t = e :: es /\ x = activity e).
        { unfold g0. destruct (events t) as [|e es].
          - split; [auto|]. split; [auto|]. intros x. split; [auto|]. intros [|(? & ? & E & _)]; [auto|discriminate].
          - destruct (add_node_ok (activity e) g W) as (W' & H' & _). split; [auto|].
            split; [intros; now apply add_node_cnt|]. intros x. rewrite H'. split.
            + intros [->|]; eauto.
            + intros [|(e' & es' & E & ->)]; [auto|]. injection E as <- <-. auto. }
        destruct H0 as (W0 & C0 & H0).
        destruct (adds_ok (steps (events t)) g0 W0) as (g1 & E1 & W1 & H1 & C1). rewrite E1. cbn [bind].
        destruct (IH g1 W1) as (g2 & E2 & W2 & H2 & C2). exists g2. split; [auto|]. split; [auto|]. split.
        + intros x. rewrite H2, H1, H0. unfold occurs. split.
          * intros [[[Hx|(e & es & E & ->)]|(a & b & c & Hin & Hx)]|(u & e & Hu & He & Ha)].
            -- auto.
            -- right. exists t, e. rewrite E. cbn. auto.
            -- right. apply steps_acts in Hin as [Ha Hb].
               assert (Hin : In x (map activity (events t))) by (destruct Hx; subst; auto).
               apply in_map_iff in Hin as (e & Ee & He). exists t, e. cbn. auto.
            -- right. exists u, e. cbn. auto.
          * intros [Hx|(u & e & [<-|Hu] & He & Ha)]; [auto| |right; eauto].
            left. destruct (events t) as [|f es] eqn:Et; [contradiction|]. destruct He as [->|He].
            -- left. right. exists e, es. auto.
            -- right. destruct (steps_cover f es x) as (a & c & Hin); [rewrite <- Ha; now apply in_map|].
               exists a, x, c. auto.
        + intros x y. rewrite C2, C1, C0, bump_app. reflexivity. }
    intros g W. destruct (G g W) as (g' & E & W' & H' & C'). exists g'.
    split; [auto|]. split; [auto|]. split; [auto|]. intros x y.
    exists (list_sum (map (fun t => length (tally (steps (events t)) x y)) l)). split.
    - apply has_size_nested. intros t _. apply steps_size.
    - rewrite C', bump_ones.
      + assert (El : length (flat_map (fun t => tally (steps (events t)) x y) l) =
                     list_sum (map (fun t => length (tally (steps (events t)) x y)) l)).
        { clear. induction l as [|t l IH]; [auto|]. cbn [flat_map map]. rewrite app_length, IH. auto. }
        rewrite El. destruct (list_sum _); reflexivity.
      + clear. induction l as [|t l IH]; cbn [flat_map]; [constructor|]. apply Forall_app. split; [apply steps_size|auto].
  Qed.

  (** *** eventually-follows on first occurrences *)
  Fixpoint later (es : list event) : list (string * string * Z) :=
    match es with
    | [] => []
    | e :: es' => map (fun f => (activity e, activity f, 1%Z)) es' ++ later es'
    end.
  Lemma adds_app l m g : adds (l ++ m) g = do g' <- adds l g ; adds m g'.
  Proof.
    unfold adds. revert g. induction l as [|[[a b] c] l IH]; intros g; cbn [app foldM bind]; [auto|].
    destruct (add_count a b c g); cbn [bind]; auto.
  Qed.
  Lemma eventually_adds es : forall g, eventually_events es g = adds (later es) g.
  Proof.
    induction es as [|e es IH]; intros g; cbn [eventually_events later]; [auto|].
    rewrite adds_app.
    assert (E : forall (fs : list event) g, foldM (fun g f => add_count (activity e) (activity f) 1 g) fs g =
                  adds (map (fun f => (activity e, activity f, 1%Z)) fs) g).
    { unfold adds. induction fs as [|f fs IHf]; intros h; cbn [foldM map]; [auto|].
      destruct (add_count _ _ _ h); cbn [bind]; auto. }
    rewrite E. destruct (adds _ g); cbn [bind]; auto.
  Qed.
  Definition is_later (es : list event) a b '(i, j) : Prop := i < j /\ act es i = Some a /\ act es j = Some b.
  Lemma tally_app l m x y : tally (l ++ m) x y = tally l x y ++ tally m x y.
  Proof. unfold tally. now rewrite filter_app, map_app. Qed.
  Lemma row_size (e : event) (fs : list event) a b :
    has_size (fun j => activity e = a /\ act fs j = Some b)
      (length (tally (map (fun f => (activity e, activity f, 1%Z)) fs) a b)) /\
    Forall (fun c => c = 1%Z) (tally (map (fun f => (activity e, activity f, 1%Z)) fs) a b).
  Proof.
    induction fs as [|f fs [IH1 IH2]].
    - split; [|constructor]. apply has_size_empty. intros j [_ E]. unfold act in E. now destruct j.
    - unfold tally in *. cbn [map filter fst].
      assert (Hs : has_size (fun i => exists j, i = S j /\ activity e = a /\ act fs j = Some b)
                 (length (map snd (filter (fun t => eqb (fst t) (a, b))
                    (map (fun f => (activity e, activity f, 1%Z)) fs))))).
      { eapply has_size_image with (f := S); [exact IH1| |].
        - intros; congruence.
        - intros y. split; [intros (j & -> & Hj)|intros (j & Hj & <-)]; eauto. }
      destruct (eqb_ok (activity e, activity f) (a, b)) as [E|E].
      + cbn [map snd length]. split; [|now constructor]. injection E as Ea Eb.
        assert (H0 : has_size (fun i => i = 0) 1).
        { exists [0]. split; [repeat constructor; auto|]. split; [|reflexivity]. intros x. cbn. intuition congruence. }
        eapply has_size_ext; [|refine (has_size_or _ _ 1 _ H0 Hs _)].
        * intros [|i]; cbn.
          -- split; [|auto]. intros _. unfold act. cbn. now rewrite Ea, Eb.
          -- split; [intros [|(j & [= <-] & Hj)]; [discriminate|exact Hj]|]. intros Hj. right. eauto.
        * intros x -> (j & Hj & _). discriminate.
      + split; [|auto]. eapply has_size_ext; [|exact Hs]. intros [|i]; cbn.
        * split; [intros (j & Hj & _); discriminate|]. intros [X Y]. unfold act in Y. cbn in Y. congruence.
        * split; [intros (j & [= <-] & Hj); exact Hj|eauto].
  Qed.
  Lemma later_size es a b : has_size (is_later es a b) (length (tally (later es) a b)) /\
    Forall (fun c => c = 1%Z) (tally (later es) a b).
  Proof.
    induction es as [|e es [IH1 IH2]].
    - split; [|constructor]. apply has_size_empty. intros [i j] (_ & E & _). unfold act in E. now destruct i.
    - cbn [later]. rewrite tally_app, app_length. destruct (row_size e es a b) as [R1 R2].
      split; [|now apply Forall_app].
      apply has_size_ext with (P := fun x => (exists j, (activity e = a /\ act es j = Some b) /\ (0, S j) = x) \/
          (exists '(i, j), is_later es a b (i, j) /\ (S i, S j) = x)).
      + intros [i j]. split.
        * intros [(k & [Ha Hb] & E)|([p q] & (Hp & Ha & Hb) & E)].
          -- injection E as <- <-. split; [lia|]. split; [cbn; congruence|exact Hb].
          -- injection E as <- <-. split; [lia|]. auto.
        * intros (Hij & Ha & Hb). destruct j as [|j]; [lia|]. destruct i as [|i].
          -- left. exists j. unfold act in Ha. cbn in Ha. split; [split; [congruence|exact Hb]|auto].
          -- right. exists (i, j). split; [|auto]. split; [lia|auto].
      + apply has_size_or.
        * eapply has_size_image with (f := fun j => (0, S j)); [exact R1| |].
          -- intros x x' _ _ E. now injection E.
          -- intros y. split; intros (j & Hj & E); eauto.
        * eapply has_size_image with (f := fun '(i, j) => (S i, S j)); [exact IH1| |].
          -- intros [p q] [p' q'] _ _ E. now injection E as -> ->.
          -- intros y. split; intros ([p q] & Hj & E); exists (p, q); auto.
        * intros x (j & _ & <-) ([p q] & _ & E). discriminate.
  Qed.
End Logs.
