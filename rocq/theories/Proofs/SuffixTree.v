From Verif.Model Require Import Base Sort ListUtils Patterns SuffixTree.
From Verif.Spec Require Import Lists Words.
From Verif.Lib Require Import ListLib SortLib.
From Coq Require Import Sorted Permutation.
Open Scope nat_scope.

Lemma tree_ind' (P : tree -> Prop) :
  (forall num cs, Forall (fun c => P (snd c)) cs -> P (Node num cs)) -> forall t, P t.
Proof.
  intros Hn. fix IH 1. intros [num cs]. apply Hn. induction cs as [|[e c] cs IHc]; constructor; auto.
Qed.

Definition pre {A} (u v : list A) : Prop := exists w, v = u ++ w.
Definition arity (t : tree) : nat := match t with Node _ cs => length cs end.

  Lemma size_pos t : 1 <= size t.
  Proof. destruct t. cbn. lia. Qed.
  Lemma descendants_size t : total_descendants t = size t - 1.
  Proof.
    induction t as [num cs IH] using tree_ind'. cbn [total_descendants size].
    induction IH as [|c cs Hc _ IHc]; cbn [length map list_sum fold_right] in *; [auto|]. change (fold_right Nat.add 0) with list_sum in *. rewrite Hc. pose proof (size_pos (snd c)). lia.
  Qed.
  Lemma descendants_arity t : arity t <> 1 -> (2 <= total_descendants t <-> 2 <= arity t).
  Proof.
    destruct t as [num cs]. rewrite descendants_size. cbn [size arity]. intros Ha.
    destruct cs as [|c1 [|c2 cs]]; cbn [length map list_sum fold_right] in *; try lia.
    pose proof (size_pos (snd c1)). pose proof (size_pos (snd c2)). cbn. lia.
  Qed.


  Lemma NoDup_app_intro {X} (l m : list X) : NoDup l -> NoDup m -> (forall x, In x l -> ~ In x m) -> NoDup (l ++ m).
  Proof.
    induction 1 as [|x l Hx Hl IH]; cbn; auto. intros Hm Hd. constructor.
    - rewrite in_app_iff. intros [|Hi]; auto. apply (Hd x); auto.
    - apply IH; auto.
  Qed.

  Lemma app_prefix {X} (a b c d : list X) : a ++ b = c ++ d -> length a <= length c -> exists e, c = a ++ e /\ b = e ++ d.
  Proof.
    revert c; induction a as [|x a IH]; intros c E Hl; cbn in *.
    - exists c. auto.
    - destruct c as [|y c]; cbn in *; [lia|]. injection E as -> E. destruct (IH c E ltac:(lia)) as (e & -> & ->).
      exists e. auto.
  Qed.


  Lemma NoDup_map_inj {X Y} (f : X -> Y) l a b : NoDup (map f l) -> In a l -> In b l -> f a = f b -> a = b.
  Proof.
    induction l as [|x l IH]; cbn; [tauto|]. intros Hn Ha Hb E. inversion Hn as [|? ? Hni Hn2]; subst.
    destruct Ha as [->|Ha], Hb as [->|Hb]; auto.
    - exfalso. apply Hni. rewrite E. apply in_map; auto.
    - exfalso. apply Hni. rewrite <- E. apply in_map; auto.
  Qed.


Section S.
  Context {A : Type} `{Eq A} (W : list A).
  Let n := length W.
  Notation child := (nat * nat * tree)%type.

  Definition first (c : child) : option A := nth_error W (fst (fst c)).
  Definition lab (c : child) : list A := slice W (fst (fst c)) (snd (fst c)).
  Definition edge_ok (c : child) : Prop := fst (fst c) < snd (fst c) <= n.

  Inductive wf : tree -> Prop :=
  | wf_node num cs : Forall (fun c => edge_ok c /\ arity (snd c) <> 1 /\ wf (snd c)) cs ->
                     NoDup (map first cs) -> wf (Node num cs).
  Definition child_ok (c : child) : Prop := edge_ok c /\ arity (snd c) <> 1 /\ wf (snd c).

  Fixpoint leaves (p : list A) (t : tree) : list (list A) :=
    match t with
    | Node _ cs => match cs with
                   | [] => [p]
                   | _ => flat_map (fun c => leaves (p ++ lab c) (snd c)) cs
                   end
    end.
  Definition below (p : list A) (cs : list child) : list (list A) :=
    flat_map (fun c => leaves (p ++ lab c) (snd c)) cs.

  Lemma leaves_node p num cs : cs <> [] -> leaves p (Node num cs) = below p cs.
  Proof. destruct cs; [congruence|reflexivity]. Qed.
  Lemma leaves_nonempty : forall t p, leaves p t <> [].
  Proof.
    induction t as [num cs IH] using tree_ind'; intros p. destruct cs as [|c cs]; [discriminate|].
    inversion IH; subst. cbn. intros E. apply app_eq_nil in E as [E _]. eapply H2; eauto.
  Qed.
  Lemma leaves_pre : forall t p x, In x (leaves p t) -> pre p x.
  Proof.
    induction t as [num cs IH] using tree_ind'; intros p x Hx. rewrite Forall_forall in IH.
    destruct cs as [|c cs]; [destruct Hx as [<-|[]]; exists []; rewrite app_nil_r; auto|].
    rewrite leaves_node in Hx by discriminate. apply in_flat_map in Hx as (c' & Hc & Hx).
    destruct (IH c' Hc _ _ Hx) as (w & ->). rewrite <- app_assoc. eexists; eauto.
  Qed.
  Lemma below_In p cs x : In x (below p cs) <-> exists c, In c cs /\ In x (leaves (p ++ lab c) (snd c)).
  Proof. apply in_flat_map. Qed.
  Lemma some_leaf p t : exists x, In x (leaves p t) /\ pre p x.
  Proof.
    destruct (leaves p t) as [|x xs] eqn:E; [exfalso; eapply leaves_nonempty; eauto|].
    exists x. split; [left; auto|]. apply (leaves_pre t). rewrite E. left; auto.
  Qed.

  (** ** slices *)
  Lemma skipn_skipn' a b (l : list A) : skipn a (skipn b l) = skipn (b + a) l.
  Proof. apply nth_error_ext. intros i. rewrite !nth_error_skipn. f_equal. lia. Qed.
  Lemma slice_n a : slice W a n = skipn a W.
  Proof. unfold slice. apply firstn_all2. rewrite skipn_length. unfold n. lia. Qed.
  Lemma slice_app a b c : a <= b <= c -> slice W a b ++ slice W b c = slice W a c.
  Proof.
    intros Hab. unfold slice. replace (c - a) with ((b - a) + (c - b)) by lia.
    rewrite <- (firstn_skipn (b - a) (firstn (b - a + (c - b)) (skipn a W))).
    rewrite firstn_firstn. replace (Nat.min (b - a) (b - a + (c - b))) with (b - a) by lia. f_equal.
    rewrite skipn_firstn_comm, skipn_skipn'. f_equal; [lia|]. f_equal. lia.
  Qed.
  Lemma slice_skipn a b : a <= b -> b <= n -> slice W a b ++ skipn b W = skipn a W.
  Proof. intros H1 H2. rewrite <- !slice_n. apply slice_app. lia. Qed.
  Lemma slice_nth a b i : nth_error (slice W a b) i = if i <? b - a then nth_error W (a + i) else None.
  Proof. unfold slice. rewrite nth_error_firstn, nth_error_skipn. reflexivity. Qed.
  Lemma lab_cons c : edge_ok c -> exists x r, lab c = x :: r /\ first c = Some x.
  Proof.
    destruct c as [[es ee] t]. unfold edge_ok, lab, first; cbn [fst snd]. intros He.
    destruct (nth_error_lt W es) as (x & Ex); [unfold n in He; lia|].
    destruct (slice W es ee) as [|y r] eqn:E.
    - apply (f_equal (@length A)) in E. rewrite slice_length in E. unfold n in He. cbn in E. lia.
    - exists y, r. split; auto. assert (E2 : nth_error (slice W es ee) 0 = Some y) by (rewrite E; auto).
      rewrite slice_nth in E2. destruct (Nat.ltb_spec 0 (ee - es)); [|lia]. rewrite Nat.add_0_r in E2. auto.
  Qed.

  (** ** the length of the common part *)
  Lemma insert_len_ok a b : forall fuel len,
    (exists m, len <= m <= len + fuel /\ slice W a (a + m) <> slice W b (b + m)) ->
    (forall m, m < len -> slice W a (a + m) = slice W b (b + m)) ->
    exists k, insert_len fuel W a b len = Ok k /\ len <= k /\
      slice W a (a + k) <> slice W b (b + k) /\ forall m, m < k -> slice W a (a + m) = slice W b (b + m).
  Proof.
    induction fuel as [|fuel IH]; intros len (m & Hm & Hne) Hlt; cbn [insert_len].
    - assert (m = len) by lia. subst m.
      destruct (eqb_ok (slice W a (a + len)) (slice W b (b + len))); [contradiction|]. exists len. auto.
    - destruct (eqb_ok (slice W a (a + len)) (slice W b (b + len))) as [E|E]; [|exists len; auto].
      destruct (IH (len + 1)) as (k & -> & H1 & H2 & H3).
      { exists m. split; auto. assert (m <> len) by (intros ->; auto). lia. }
      { intros m' Hm'. destruct (Nat.eq_dec m' len) as [->|]; auto. apply Hlt; lia. }
      exists k. split; auto. split; [lia|auto].
  Qed.

  Lemma split_ok next start es ee c :
    es < ee <= n -> start < n -> nth_error W es = nth_error W start ->
    slice W start (start + ee - es) <> slice W es ee ->
    exists m, split_edge W next start es ee c =
                Ok (es, es + m, Node next [(es + m, ee, c); (start + m, n, Node (next + 1) [])]) /\
      1 <= m < ee - es /\ start + m <= n /\ slice W start (start + m) = slice W es (es + m) /\
      (start + m < n -> nth_error W (start + m) <> nth_error W (es + m)).
  Proof.
    intros He Hs Hf Hne. unfold split_edge.
    destruct (insert_len_ok start es (length W + 1) 0) as (k & -> & _ & Hk & Hlt).
    { exists (ee - es). split; [unfold n in He; lia|]. intros E. apply Hne.
      replace (start + ee - es) with (start + (ee - es)) by lia. rewrite E. f_equal. lia. }
    { intros; lia. }
    assert (H0 : k <> 0). { intros ->. apply Hk. unfold slice. rewrite !Nat.add_0_r, !Nat.sub_diag. reflexivity. }
    assert (Hlen : forall a m, a + m <= n -> length (slice W a (a + m)) = m).
    { intros a m Ham. rewrite slice_length. unfold n in Ham. lia. }
    assert (H1 : k <> 1).
    { intros ->. apply Hk. destruct (nth_error_lt W start) as (x & Ex); [unfold n in Hs; lia|].
      rewrite Ex in Hf. apply nth_error_ext. intros i. rewrite !slice_nth.
      destruct (Nat.ltb_spec i (start + 1 - start)), (Nat.ltb_spec i (es + 1 - es)); auto; try lia.
      replace i with 0 by lia. rewrite !Nat.add_0_r. congruence. }
    assert (Hkle : k <= ee - es).
    { destruct (le_lt_dec k (ee - es)) as [|Hg]; auto. exfalso. apply Hne. specialize (Hlt (ee - es) Hg).
      replace (start + ee - es) with (start + (ee - es)) by lia. rewrite Hlt. f_equal. lia. }
    cbn [bind]. exists (k - 1).
    assert (E := Hlt (k - 1) ltac:(lia)).
    split.
    { replace (es + (k - 1)) with (es + k - 1) by lia. replace (start + (k - 1)) with (start + k - 1) by lia. reflexivity. }
    split; [|].
    { assert (k <> ee - es + 1) by lia. destruct (Nat.eq_dec k (ee - es)); lia. }
    assert (Hle : start + (k - 1) <= n).
    { apply (f_equal (@length A)) in E. rewrite (Hlen es) in E by lia. rewrite slice_length in E. unfold n. lia. }
    split; auto. split; auto. intros Hsn Enth. apply Hk.
    apply nth_error_ext. intros i. rewrite !slice_nth.
    replace (start + k - start) with k by lia. replace (es + k - es) with k by lia.
    destruct (Nat.ltb_spec i k) as [Li|]; auto.
    destruct (Nat.eq_dec i (k - 1)) as [->|Ni]; auto.
    assert (En : nth_error (slice W start (start + (k - 1))) i = nth_error (slice W es (es + (k - 1))) i) by congruence.
    rewrite !slice_nth in En. replace (start + (k - 1) - start) with (k - 1) in En by lia.
    replace (es + (k - 1) - es) with (k - 1) in En by lia.
    destruct (Nat.ltb_spec i (k - 1)); [auto|lia].
  Qed.

  (** ** one insertion *)
  Definition outcome_ok (p : list A) (start : nat) (cs : list child) (o : outcome) : Prop :=
    match o with
    | NotFound => Forall (fun c => first c <> nth_error W start) cs
    | InPlace final =>
      Forall child_ok final /\ Permutation (map first final) (map first cs) /\
      forall x, In x (below p final) <-> x = p ++ skipn start W \/ In x (below p cs)
    | Removed cs' nn =>
      Forall child_ok (cs' ++ [nn]) /\ Permutation (map first (cs' ++ [nn])) (map first cs) /\
      forall x, In x (below p (cs' ++ [nn])) <-> x = p ++ skipn start W \/ In x (below p cs)
    end.

  Lemma below_cons p c cs x : In x (below p (c :: cs)) <-> In x (leaves (p ++ lab c) (snd c)) \/ In x (below p cs).
  Proof. unfold below. cbn [flat_map]. rewrite in_app_iff. tauto. Qed.
  Lemma below_app p cs cs' x : In x (below p (cs ++ cs')) <-> In x (below p cs) \/ In x (below p cs').
  Proof. unfold below. rewrite flat_map_app, in_app_iff. tauto. Qed.

  Lemma below_nil p x : ~ In x (below p []).
  Proof. intros []. Qed.
  Lemma below_one p c x : In x (below p [c]) <-> In x (leaves (p ++ lab c) (snd c)).
  Proof. rewrite below_cons. cbn. tauto. Qed.

  Lemma insert_ok next : forall t start p num cs, t = Node num cs -> wf t -> start < n ->
    (forall x, In x (below p cs) -> ~ pre x (p ++ skipn start W) /\ ~ pre (p ++ skipn start W) x) ->
    exists cs', insert W next start t = Ok (Node num cs') /\ wf (Node num cs') /\
      length cs <= length cs' /\
      forall x, In x (below p cs') <-> x = p ++ skipn start W \/ In x (below p cs).
  Proof.
    induction t as [num0 cs0 IH] using tree_ind'; intros start p num cs E Hwf Hs Hno.
    injection E as -> ->. inversion Hwf as [? ? Hch Hnd]; subst. cbn [insert].
    assert (Hgo : forall cs2, incl cs2 cs -> Forall child_ok cs2 ->
      exists o, insert_children (fun st c => insert W next st c) W next start cs2 = Ok o /\ outcome_ok p start cs2 o).
    { induction cs2 as [|[[es ee] c] rest IHr]; intros Hin Hok; cbn [insert_children].
      - exists NotFound. split; auto. constructor.
      - assert (Hc : In (es, ee, c) cs) by (apply Hin; left; auto).
        inversion Hok as [|? ? Hc1 Hr1]; subst. pose proof Hc1 as (He & Har & Hwc). unfold edge_ok in He; cbn [fst snd] in *.
        assert (Hnoc : forall x, In x (leaves (p ++ slice W es ee) c) -> ~ pre x (p ++ skipn start W) /\ ~ pre (p ++ skipn start W) x).
        { intros x Hx. apply Hno. apply below_In. exists (es, ee, c). auto. }
        assert (Hlen : length (slice W es ee) = ee - es) by (rewrite slice_length; unfold n in He; lia).
        destruct (eqb_ok (slice W start (start + ee - es)) (slice W es ee)) as [E1|E1].
        + assert (Hse : start + ee - es <= n).
          { apply (f_equal (@length A)) in E1. rewrite Hlen, slice_length in E1. unfold n. lia. }
          assert (Hsplit : skipn start W = slice W es ee ++ skipn (start + ee - es) W).
          { rewrite <- E1. symmetry. apply slice_skipn; lia. }
          rewrite Hsplit, app_assoc in Hnoc.
          assert (Hlt : start + ee - es < n).
          { destruct (Nat.eq_dec (start + ee - es) n) as [En|]; [|lia]. exfalso.
            destruct (some_leaf (p ++ slice W es ee) c) as (x & Hx & Hp).
            rewrite En in Hnoc. unfold n in Hnoc. rewrite skipn_all, app_nil_r in Hnoc.
            apply (proj2 (Hnoc x Hx)); auto. }
          destruct c as [k csc]. assert (Hcsc : csc <> []).
          { intros ->. destruct (Hnoc (p ++ slice W es ee)) as [Hx _]; [left; auto|]. apply Hx. eexists; eauto. }
          rewrite leaves_node in Hnoc by auto.
          rewrite Forall_forall in IH.
          destruct (IH _ Hc (start + ee - es) (p ++ slice W es ee) k csc eq_refl Hwc Hlt Hnoc)
            as (csc' & Ei & Hwf' & Hl' & Hb').
          cbn [snd] in Ei. rewrite Ei. cbn [bind]. eexists; split; [reflexivity|]. cbn [outcome_ok].
          split; [|split].
          * constructor; auto. split; [exact He|]. cbn [snd arity] in *. split; auto.
            destruct csc as [|? [|? ?]]; cbn [length] in *; [congruence|congruence|lia].
          * reflexivity.
          * intros x. rewrite !below_cons. unfold lab; cbn [fst snd]. rewrite leaves_node.
            2:{ intros ->. destruct csc; [congruence|cbn in Hl'; lia]. }
            rewrite leaves_node by auto. rewrite Hb', Hsplit, <- app_assoc. tauto.
        + destruct (nth_error_lt W es) as (x & Ex); [unfold n in He; lia|].
          destruct (nth_error_lt W start) as (y & Ey); [unfold n in Hs; lia|].
          rewrite Ex, Ey. cbn [of_option bind]. destruct (eqb_ok x y) as [->|Nxy].
          * destruct (split_ok next start es ee c) as (m & Esp & Hm & Hsm & Eq & Hd); auto; [congruence|].
            rewrite Esp. cbn [bind]. eexists; split; [reflexivity|]. cbn [outcome_ok].
            assert (Hsm2 : start + m < n).
            { destruct (Nat.eq_dec (start + m) n) as [En|]; [|lia]. exfalso.
              destruct (some_leaf (p ++ slice W es ee) c) as (z & Hz & Hpz).
              apply (proj2 (Hnoc z Hz)).
              replace (skipn start W) with (slice W es (es + m)).
              2:{ rewrite <- Eq, En, slice_n. auto. }
              destruct Hpz as (w' & ->). rewrite <- (slice_app es (es + m) ee) by lia. rewrite <- !app_assoc.
              exists (slice W (es + m) ee ++ w'). rewrite <- !app_assoc. auto. }
            specialize (Hd Hsm2).
            split; [|split].
            -- apply Forall_app. split; auto. constructor; auto. unfold child_ok, edge_ok; cbn [fst snd arity length].
               split; [lia|]. split; [lia|]. constructor.
               ++ constructor; [unfold edge_ok; cbn [fst snd]; split; [lia|auto]|].
                  constructor; auto. unfold edge_ok; cbn [fst snd arity length]. split; [lia|]. split; [lia|].
                  constructor; constructor.
               ++ cbn [map]. unfold first; cbn [fst]. constructor.
                  ** intros [E2|[]]. congruence.
                  ** constructor; auto. constructor.
            -- rewrite map_app. cbn [map]. unfold first at 2 4; cbn [fst]. rewrite Permutation_app_comm. reflexivity.
            -- intros z. rewrite below_app, below_one, below_cons. cbn [snd].
               rewrite leaves_node by discriminate. rewrite below_cons, below_one. unfold lab; cbn [fst snd leaves].
               rewrite <- !app_assoc. rewrite slice_app by lia. rewrite slice_n.
               replace (slice W es (es + m) ++ skipn (start + m) W) with (skipn start W).
               2:{ rewrite <- Eq. symmetry. apply slice_skipn; lia. }
               cbn [In]. split; [intros [?|[?|[?|[]]]]; auto|]. intros [->|[?|?]]; auto 6.
          * destruct (IHr) as (o & Eo & Ho); auto. { intros z Hz. apply Hin. right; auto. }
            change ((fix go (cs3 : list child) : result outcome := _) rest) with
              (insert_children (fun st c0 => insert W next st c0) W next start rest) in *.
            rewrite Eo. cbn [bind]. destruct o as [|fin|cs' nn]; eexists; (split; [reflexivity|]); cbn [outcome_ok] in *.
            -- constructor; auto. unfold first; cbn [fst]. congruence.
            -- destruct Ho as (H1 & H2 & H3). split; [constructor; auto|]. split; [cbn [map]; rewrite H2; auto|].
               intros z. rewrite !below_cons, H3. tauto.
            -- destruct Ho as (H1 & H2 & H3). split; [constructor; auto|]. split; [cbn [map app]; rewrite H2; auto|].
               intros z. cbn [app]. rewrite !below_cons, H3. tauto. }
    destruct (Hgo cs) as (o & -> & Ho); auto. { apply incl_refl. }
    cbn [bind]. destruct o as [|fin|cs' nn]; cbn [outcome_ok] in Ho.
    - eexists; split; [reflexivity|]. split; [|split].
      + constructor.
        * apply Forall_app. split; auto. constructor; auto. unfold edge_ok; cbn [fst snd arity length].
          split; [fold n; lia|]. split; [lia|]. constructor; constructor.
        * rewrite map_app. cbn [map]. unfold first at 2; cbn [fst].
          eapply Permutation_NoDup; [apply Permutation_app_comm|]. cbn [app]. constructor; auto.
          intros Hin. apply in_map_iff in Hin as (c & E & Hc). rewrite Forall_forall in Ho. apply (Ho c Hc); auto.
      + rewrite app_length. lia.
      + intros x. rewrite below_app, below_one. cbn [snd leaves].
        unfold lab; cbn [fst snd]. fold n. rewrite slice_n. cbn [In]. intuition.
    - destruct Ho as (H1 & H2 & H3). eexists; split; [reflexivity|]. split; [|split; auto].
      + constructor; auto. eapply Permutation_NoDup; [symmetry; eauto|]. auto.
      + apply Permutation_length in H2. rewrite !map_length in H2. lia.
    - destruct Ho as (H1 & H2 & H3). eexists; split; [reflexivity|]. split; [|split; auto].
      + constructor; auto. eapply Permutation_NoDup; [symmetry; eauto|]. auto.
      + apply Permutation_length in H2. rewrite !map_length in H2. lia.
  Qed.

  (** ** all suffixes *)
  Variable dollar : A.
  Variable s : list A.
  Hypothesis HW : W = s ++ [dollar].
  Hypothesis Hdol : ~ In dollar s.

  Lemma n_s : n = S (length s).
  Proof. unfold n. rewrite HW, app_length. cbn. lia. Qed.
  Lemma nth_W k : nth_error W k = if k <? length s then nth_error s k
                                  else if k =? length s then Some dollar else None.
  Proof.
    rewrite HW. destruct (Nat.ltb_spec k (length s)).
    - apply nth_error_app1; auto.
    - rewrite nth_error_app2 by auto. destruct (Nat.eqb_spec k (length s)) as [->|].
      + rewrite Nat.sub_diag. auto.
      + apply nth_error_None. cbn. lia.
  Qed.
  Lemma dollar_at k : nth_error W k = Some dollar -> k = length s.
  Proof.
    rewrite nth_W. destruct (Nat.ltb_spec k (length s)).
    - intros E. apply nth_error_In in E. contradiction.
    - destruct (Nat.eqb_spec k (length s)); auto. discriminate.
  Qed.

  Lemma suffix_not_pre i j : i < n -> j < n -> pre (skipn i W) (skipn j W) -> i = j.
  Proof.
    intros Hi Hj (w & E). pose proof n_s.
    assert (Hl : n - j = n - i + length w).
    { apply (f_equal (@length A)) in E. rewrite app_length, !skipn_length in E. auto. }
    assert (Hd : nth_error (skipn j W) (length s - i) = Some dollar).
    { rewrite E, nth_error_app1 by (rewrite skipn_length; fold n; lia). rewrite nth_error_skipn, nth_W.
      replace (i + (length s - i)) with (length s) by lia. rewrite Nat.ltb_irrefl, Nat.eqb_refl. auto. }
    rewrite nth_error_skipn in Hd. apply dollar_at in Hd. lia.
  Qed.

  Lemma suffixes_ok : forall k cs m, m + k = n -> wf (Node 0 cs) ->
    (forall x, In x (below [] cs) <-> exists j, j < m /\ x = skipn j W) ->
    exists cs', foldM (add_suffix W) (seq m k) (Node 0 cs) = Ok (Node 0 cs') /\ wf (Node 0 cs') /\
      forall x, In x (below [] cs') <-> exists j, j < n /\ x = skipn j W.
  Proof.
    induction k as [|k IH]; intros cs m Hm Hwf Hb; cbn [seq foldM].
    - exists cs. split; auto. split; auto. intros x. rewrite Hb. replace m with n by lia. tauto.
    - unfold add_suffix at 1.
      destruct (insert_ok (size (Node 0 cs)) (Node 0 cs) m [] 0 cs eq_refl Hwf) as (cs' & -> & Hwf' & _ & Hb'); [lia| |].
      { intros x Hx. apply Hb in Hx as (j & Hj & ->). cbn [app]. split; intros Hp; apply suffix_not_pre in Hp; lia. }
      cbn [bind]. apply IH; auto; [lia|]. intros x. rewrite Hb'. cbn [app]. rewrite Hb. split.
      + intros [->|(j & Hj & ->)]; [exists m|exists j]; split; auto; lia.
      + intros (j & Hj & ->). destruct (Nat.eq_dec j m) as [->|]; auto. right. exists j. split; auto; lia.
  Qed.

  Lemma tree_ok : exists cs, foldM (add_suffix W) (seq 0 (length W)) (Node 0 []) = Ok (Node 0 cs) /\
    wf (Node 0 cs) /\ forall x, In x (below [] cs) <-> exists j, j < n /\ x = skipn j W.
  Proof.
    apply suffixes_ok; auto.
    - constructor; constructor.
    - intros x. cbn. split; [tauto|]. intros (j & Hj & _). lia.
  Qed.

  (** ** inner nodes *)
  Inductive inode : list A -> list child -> list A -> tree -> Prop :=
  | inode_here p cs c : In c cs -> inode p cs (p ++ lab c) (snd c)
  | inode_deep p cs c num ccs q t : In c cs -> snd c = Node num ccs -> inode (p ++ lab c) ccs q t -> inode p cs q t.

  Lemma inode_ok p cs q t : inode p cs q t -> Forall child_ok cs ->
    arity t <> 1 /\ wf t /\ (exists v, v <> [] /\ q = p ++ v) /\
    forall x, In x (leaves q t) -> In x (below p cs).
  Proof.
    induction 1 as [p cs c Hc|p cs c num ccs q t Hc E Hi IH]; intros Hok; rewrite Forall_forall in Hok;
      destruct (Hok c Hc) as (He & Ha & Hw).
    - split; auto. split; auto. split.
      + destruct (lab_cons c He) as (x & r & E & _). rewrite E. exists (x :: r). split; auto. discriminate.
      + intros x Hx. apply below_In. exists c. auto.
    - rewrite E in Hw. inversion Hw; subst. destruct IH as (H1' & H2' & (v & Hv & ->) & H4'); auto.
      split; auto. split; auto. split.
      + exists (lab c ++ v). rewrite app_assoc. split; auto. intros Hn. apply app_eq_nil in Hn. tauto.
      + intros x Hx. apply below_In. exists c. split; auto. rewrite E, leaves_node; auto.
        inversion Hi; subst; destruct ccs; try discriminate; contradiction.
  Qed.

  Lemma inode_branch p cs q t : inode p cs q t -> Forall child_ok cs -> 2 <= arity t ->
    exists a b x y, a <> b /\ In (q ++ a :: x) (below p cs) /\ In (q ++ b :: y) (below p cs).
  Proof.
    intros Hi Hok Har. destruct (inode_ok p cs q t Hi Hok) as (_ & Hw & _ & Hl).
    destruct t as [num [|c1 [|c2 ccs]]]; cbn in Har; try lia.
    inversion Hw as [? ? Hch Hnd]; subst.
    inversion Hch as [|? ? (He1 & _) Hch2]; subst. inversion Hch2 as [|? ? (He2 & _) _]; subst.
    destruct (lab_cons c1 He1) as (a & r1 & E1 & F1), (lab_cons c2 He2) as (b & r2 & E2 & F2).
    destruct (some_leaf (q ++ lab c1) (snd c1)) as (x & Hx & w1 & ->).
    destruct (some_leaf (q ++ lab c2) (snd c2)) as (y & Hy & w2 & ->).
    exists a, b, (r1 ++ w1), (r2 ++ w2). split; [|split].
    - intros ->. cbn [map] in Hnd. inversion Hnd as [|? ? Hn _]; subst. apply Hn. left. congruence.
    - apply Hl. rewrite leaves_node by discriminate. apply below_In. exists c1. split; [left; auto|].
      rewrite E1, <- app_assoc in Hx. rewrite E1. exact Hx.
    - apply Hl. rewrite leaves_node by discriminate. apply below_In. exists c2. split; [right; left; auto|].
      rewrite E2, <- app_assoc in Hy. rewrite E2. exact Hy.
  Qed.

  Lemma child_of_leaf p cs v x : Forall child_ok cs -> v <> [] -> In (p ++ v ++ x) (below p cs) ->
    exists c, In c cs /\ first c = nth_error v 0 /\ In (p ++ v ++ x) (leaves (p ++ lab c) (snd c)) /\
              exists w, v ++ x = lab c ++ w.
  Proof.
    intros Hok Hv Hin. apply below_In in Hin as (c & Hc & Hx). rewrite Forall_forall in Hok.
    destruct (Hok c Hc) as (He & _). pose proof (leaves_pre _ _ _ Hx) as (w & E).
    rewrite <- app_assoc in E. apply app_inv_head in E.
    exists c. split; auto. split; [|split; eauto].
    destruct (lab_cons c He) as (a & r & El & ->). rewrite El in E. destruct v as [|b v]; [congruence|].
    cbn in *. congruence.
  Qed.

  Lemma branch_inode : forall t num cs p v a b x y, t = Node num cs -> wf t -> v <> [] -> a <> b ->
    In (p ++ v ++ a :: x) (below p cs) -> In (p ++ v ++ b :: y) (below p cs) ->
    exists t', inode p cs (p ++ v) t' /\ 2 <= arity t'.
  Proof.
    induction t as [num0 cs0 IH] using tree_ind'; intros num cs p v a b x y E Hw Hv Hab Ha Hb.
    injection E as -> ->. inversion Hw as [? ? Hch Hnd]; subst.
    destruct (child_of_leaf p cs v _ Hch Hv Ha) as (c & Hc & Fc & Hac & wa & Ea).
    destruct (child_of_leaf p cs v _ Hch Hv Hb) as (c2 & Hc2 & Fc2 & Hbc & wb & Eb).
    assert (c2 = c) by (eapply NoDup_map_inj; eauto; congruence). subst c2. clear Hc2 Fc2.
    rewrite Forall_forall in Hch, IH. destruct (Hch c Hc) as (He & Har & Hwc).
    destruct (le_lt_dec (length (lab c)) (length v)) as [Le|Gt].
    - symmetry in Ea. destruct (app_prefix _ _ _ _ Ea Le) as (v' & Ev & _). subst v.
      assert (Hac' : In ((p ++ lab c) ++ v' ++ a :: x) (leaves (p ++ lab c) (snd c))).
      { rewrite <- !app_assoc in *. exact Hac. }
      assert (Hbc' : In ((p ++ lab c) ++ v' ++ b :: y) (leaves (p ++ lab c) (snd c))).
      { rewrite <- !app_assoc in *. exact Hbc. }
      specialize (IH c Hc). destruct c as [e [k ccs]]; cbn [snd] in *.
      assert (Hne : ccs <> []).
      { intros ->. destruct Hac' as [E|[]]. apply (f_equal (@length A)) in E. rewrite !app_length in E. cbn in E. lia. }
      rewrite leaves_node in Hac', Hbc' by auto.
      destruct v' as [|z v'].
      + exists (Node k ccs). rewrite app_nil_r. split; [apply (inode_here p cs (e, Node k ccs)); auto|].
        destruct ccs as [|? [|? ?]]; cbn in *; [congruence|congruence|lia].
      + destruct (IH k ccs (p ++ lab (e, Node k ccs)) (z :: v') a b x y eq_refl Hwc ltac:(discriminate) Hab Hac' Hbc')
          as (t' & Hi & Ht').
        exists t'. split; auto. rewrite app_assoc. eapply inode_deep; eauto. reflexivity.
    - exfalso. assert (Na : nth_error (lab c) (length v) = Some a).
      { rewrite <- (nth_error_app1 (lab c) wa) by auto. rewrite <- Ea, nth_error_app2, Nat.sub_diag by auto. auto. }
      assert (Nb : nth_error (lab c) (length v) = Some b).
      { rewrite <- (nth_error_app1 (lab c) wb) by auto. rewrite <- Eb, nth_error_app2, Nat.sub_diag by auto. auto. }
      congruence.
  Qed.

  (** ** the list of nodes *)
  Fixpoint nodes0 (p : list A) (t : tree) : list (nat * list A * nat) :=
    match t with
    | Node num cs =>
      flat_map (fun c =>
        let q := p ++ lab c in
        match snd c with Node k _ => (k, q, total_descendants (snd c)) :: nodes0 q (snd c) end) cs
    end.
  Lemma nodes_nodes0 : forall t p,
    nodes dollar W p t = map (fun '(k, q, d) => (k, strip dollar q, d)) (nodes0 p t).
  Proof.
    induction t as [num cs IH] using tree_ind'; intros p. cbn [nodes nodes0].
    induction IH as [|c cs Hc _ IHc]; cbn [flat_map]; auto. rewrite map_app, <- IHc. f_equal.
    unfold lab. destruct (snd c) as [k ccs] eqn:E. cbn [map]. f_equal. apply Hc.
  Qed.
  Lemma nodes0_In : forall t num cs p k q d, t = Node num cs ->
    In (k, q, d) (nodes0 p t) <-> exists ccs, inode p cs q (Node k ccs) /\ d = total_descendants (Node k ccs).
  Proof.
    induction t as [num0 cs0 IH] using tree_ind'; intros num cs p k q d E. injection E as -> ->.
    cbn [nodes0]. rewrite in_flat_map. rewrite Forall_forall in IH. split.
    - intros (c & Hc & Hin). destruct (snd c) as [k' ccs] eqn:Ec. destruct Hin as [E|Hin].
      + assert (Ek : k = k') by congruence. assert (Eq2 : q = p ++ lab c) by congruence. subst k q. exists ccs. rewrite <- Ec in *. split; [apply inode_here; auto|]. congruence.
      + rewrite <- Ec in Hin. apply (IH c Hc k' ccs) in Hin; auto. destruct Hin as (cc & Hi & ->). exists cc.
        split; auto. eapply inode_deep; eauto.
    - intros (ccs & Hi & ->). inversion Hi as [? ? c Hc E1 E2 E3|? ? c num' cc ? ? Hc Ec Hi']; subst.
      + exists c. split; auto. rewrite H0. left. auto.
      + exists c. split; auto. rewrite Ec. right. rewrite <- Ec. apply (IH c Hc num' cc); auto. exists ccs. auto.
  Qed.
  Lemma nodes0_pre num cs p k q d : Forall child_ok cs -> In (k, q, d) (nodes0 p (Node num cs)) ->
    exists c v, In c cs /\ q = p ++ lab c ++ v.
  Proof.
    intros Hok Hin. apply (nodes0_In (Node num cs) num cs) in Hin as (ccs & Hi & _); auto.
    inversion Hi as [? ? c Hc E1 E2 E3|? ? c num' cc ? ? Hc Ec Hi']; subst.
    - exists c, []. rewrite app_nil_r. auto.
    - rewrite Forall_forall in Hok. destruct (Hok c Hc) as (_ & _ & Hw). rewrite Ec in Hw. inversion Hw; subst.
      destruct (inode_ok _ _ _ _ Hi') as (_ & _ & (v & _ & ->) & _); auto.
      exists c, v. rewrite app_assoc. auto.
  Qed.
  Lemma nodes0_NoDup : forall t p, wf t -> NoDup (map (fun x => snd (fst x)) (nodes0 p t)).
  Proof.
    induction t as [num cs IH] using tree_ind'; intros p Hw. inversion Hw as [? ? Hch Hnd]; subst.
    cbn [nodes0]. clear Hw. revert Hch Hnd. induction IH as [|c cs Hc _ IHc]; intros Hch Hnd; cbn [flat_map map]; [constructor|].
    inversion Hch as [|? ? (He & Har & Hwc) Hch']; subst. cbn [map] in Hnd. inversion Hnd as [|? ? Hfc Hnd']; subst.
    rewrite map_app. apply NoDup_app_intro; auto.
    - destruct (snd c) as [k ccs] eqn:Ec. cbn [map fst snd]. constructor; [|apply Hc; auto].
      intros Hin. apply in_map_iff in Hin as (((k' & q) & d) & Eq & Hin). cbn in Eq. subst q.
      inversion Hwc; subst. apply nodes0_pre in Hin as (c' & v & Hc' & Eq); auto.
      rewrite Forall_forall in H2. destruct (H2 c' Hc') as (He' & _).
      destruct (lab_cons c' He') as (z & r & El & _). rewrite El in Eq.
      apply (f_equal (@length A)) in Eq. rewrite !app_length in Eq. cbn in Eq. lia.
    - intros q Hq Hq2.
      assert (Hq1 : exists v, q = p ++ lab c ++ v).
      { destruct (snd c) as [k ccs] eqn:Ec. cbn [map fst snd] in Hq. destruct Hq as [<-|Hq].
        - exists []. rewrite app_nil_r. auto.
        - apply in_map_iff in Hq as (((k' & q') & d) & Eq & Hin). cbn in Eq. subst q'.
          inversion Hwc; subst. apply nodes0_pre in Hin as (c' & v & Hc' & ->); auto.
          exists (lab c' ++ v). rewrite <- app_assoc. auto. }
      apply in_map_iff in Hq2 as (((k' & q') & d) & Eq & Hin). cbn in Eq. subst q'.
      apply (nodes0_pre 0) in Hin as (c' & v' & Hc' & E'); auto.
      destruct Hq1 as (v & E). rewrite E in E'. apply app_inv_head in E'.
      rewrite Forall_forall in Hch'. destruct (Hch' c' Hc') as (He' & _).
      destruct (lab_cons c He) as (z & r & El & Fz), (lab_cons c' He') as (z' & r' & El' & Fz').
      rewrite El, El' in E'. cbn in E'. injection E' as -> _. apply Hfc. rewrite Fz, <- Fz'. apply in_map; auto.
  Qed.

  (** ** right branching words *)
  Definition branching (u : list A) : Prop :=
    exists p q, occurs_at u s p /\ occurs_at u s q /\ nth_error s (p + length u) <> nth_error s (q + length u).

  Lemma suffix_word u a x : (exists j, j < n /\ u ++ a :: x = skipn j W) ->
    exists p, occurs_at u s p /\ nth_error W (p + length u) = Some a.
  Proof.
    intros (j & Hj & E). exists j. assert (Hn := n_s).
    assert (Hl : length u + S (length x) = n - j).
    { apply (f_equal (@length A)) in E. rewrite app_length, skipn_length in E. cbn in E. fold n in E. lia. }
    assert (Hnth : forall i, nth_error W (j + i) = nth_error (u ++ a :: x) i).
    { intros i. rewrite E, nth_error_skipn. auto. }
    split.
    - apply occurs_at_iff. split; [lia|]. intros i Hi. rewrite <- (nth_error_app1 u (a :: x)), <- Hnth by auto.
      rewrite nth_W. destruct (Nat.ltb_spec (j + i) (length s)); auto. lia.
    - rewrite Hnth, nth_error_app2, Nat.sub_diag by auto. auto.
  Qed.
  Lemma word_suffix u p : occurs_at u s p ->
    exists a x, (exists j, j < n /\ u ++ a :: x = skipn j W) /\ nth_error W (p + length u) = Some a.
  Proof.
    intros Ho. pose proof (occurs_at_bound _ _ _ Ho) as Hb. assert (Hn := n_s).
    destruct (nth_error_lt W (p + length u)) as (a & Ea); [fold n; lia|].
    exists a, (skipn (S (p + length u)) W). split; auto. exists p. split; [lia|].
    apply nth_error_ext. intros i. rewrite nth_error_skipn. rewrite occurs_at_iff in Ho.
    destruct (lt_eq_lt_dec i (length u)) as [[L| ->]|G].
    - rewrite nth_error_app1 by auto. rewrite nth_W. destruct (Nat.ltb_spec (p + i) (length s)); [|lia].
      symmetry. apply Ho; auto.
    - rewrite nth_error_app2, Nat.sub_diag by auto. auto.
    - rewrite nth_error_app2 by lia. replace (i - length u) with (S (i - S (length u))) by lia.
      cbn [nth_error]. rewrite nth_error_skipn. f_equal. lia.
  Qed.
  Lemma nth_W_inj i j : i <= length s -> j <= length s ->
    (nth_error W i = nth_error W j <-> nth_error s i = nth_error s j).
  Proof.
    intros Hi Hj. rewrite !nth_W.
    destruct (Nat.ltb_spec i (length s)) as [Li|Li], (Nat.ltb_spec j (length s)) as [Lj|Lj]; try tauto.
    - replace j with (length s) by lia. rewrite Nat.eqb_refl. rewrite (proj2 (nth_error_None s (length s))) by lia.
      split; intros E; exfalso.
      + apply nth_error_In in E. contradiction.
      + apply nth_error_None in E. lia.
    - replace i with (length s) by lia. rewrite Nat.eqb_refl. rewrite (proj2 (nth_error_None s (length s))) by lia.
      split; intros E; exfalso; symmetry in E.
      + apply nth_error_In in E. contradiction.
      + apply nth_error_None in E. lia.
    - replace i with (length s) by lia. replace j with (length s) by lia. tauto.
  Qed.

  Lemma branching_iff u cs : (forall x, In x (below [] cs) <-> exists j, j < n /\ x = skipn j W) ->
    branching u <-> exists a b x y, a <> b /\ In (u ++ a :: x) (below [] cs) /\ In (u ++ b :: y) (below [] cs).
  Proof.
    intros Hb. split.
    - intros (p & q & Hp & Hq & Hne).
      pose proof (occurs_at_bound _ _ _ Hp). pose proof (occurs_at_bound _ _ _ Hq).
      destruct (word_suffix u p Hp) as (a & x & Hx & Ea), (word_suffix u q Hq) as (b & y & Hy & Eb).
      exists a, b, x, y. rewrite !Hb. split; auto. intros ->. apply Hne. apply nth_W_inj; try lia. congruence.
    - intros (a & b & x & y & Hab & Hx & Hy). apply Hb in Hx, Hy.
      destruct (suffix_word _ _ _ Hx) as (p & Hp & Ea), (suffix_word _ _ _ Hy) as (q & Hq & Eb).
      pose proof (occurs_at_bound _ _ _ Hp). pose proof (occurs_at_bound _ _ _ Hq).
      exists p, q. split; auto. split; auto. intros E. apply nth_W_inj in E; try lia. congruence.
  Qed.

  Lemma strip_inner u a x j : u ++ a :: x = skipn j W -> strip dollar u = u.
  Proof.
    intros E. unfold strip. destruct (rev u) as [|z r] eqn:Er; auto. destruct (eqb_ok z dollar) as [->|]; auto.
    exfalso. assert (Eu : u = rev r ++ [dollar]) by (rewrite <- (rev_involutive u), Er; auto).
    assert (Hd : nth_error (skipn j W) (length (rev r)) = Some dollar).
    { rewrite <- E, Eu, <- app_assoc, nth_error_app2, Nat.sub_diag by auto. auto. }
    rewrite nth_error_skipn in Hd. apply dollar_at in Hd. assert (Hn := n_s).
    apply (f_equal (@length A)) in E. rewrite Eu, !app_length, skipn_length in E. cbn in E. fold n in E. lia.
  Qed.
End S.
