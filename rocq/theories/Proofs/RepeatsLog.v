From Verif.Model Require Import Base Sort ListUtils Patterns SuffixTree.
From Verif.Spec Require Import Lists Words.
From Verif.Lib Require Import ListLib SortLib.
From Verif.Proofs Require Import SuffixTree Repeats Words.
From Verif.Proofs Require ListUtils Patterns.
From Coq Require Import Sorted Permutation.
Open Scope nat_scope.

Section R.
  Context {A : Type} `{Eq A} (dollar sep : A).

  Lemma sepfree_eq (u x b y : list A) : ~ In sep u -> ~ In sep x -> u ++ sep :: b = x ++ sep :: y -> u = x /\ b = y.
  Proof.
    revert x; induction u as [|c u IH]; intros x Hu Hx E; destruct x as [|d x]; cbn in *.
    - injection E; auto.
    - injection E as -> _. exfalso. auto.
    - injection E as <- _. exfalso. auto.
    - injection E as -> E. destruct (IH x) as [-> ->]; auto.
  Qed.
  Lemma segment_free w u : ~ In sep w -> (segment sep w u <-> u = w).
  Proof.
    intros Hw. split.
    - intros (_ & a & b & E & Ha & Hb). destruct Ha as [->|(a' & ->)], Hb as [->|(b' & ->)]; cbn in E.
      + rewrite app_nil_r in E. auto.
      + exfalso. apply Hw. rewrite E. apply in_or_app. right; left; auto.
      + exfalso. apply Hw. rewrite E, <- app_assoc. apply in_or_app. right; left; auto.
      + exfalso. apply Hw. rewrite E, <- app_assoc. apply in_or_app. right; left; auto.
    - intros ->. split; auto. exists [], []. rewrite app_nil_r. auto.
  Qed.
  Lemma segment_split x y u : ~ In sep x -> (segment sep (x ++ sep :: y) u <-> u = x \/ segment sep y u).
  Proof.
    intros Hx. split.
    - intros (Hu & a & b & E & Ha & Hb). destruct Ha as [->|(a' & ->)].
      + left. cbn in E. destruct Hb as [->|(b' & ->)].
        * exfalso. apply Hu. rewrite app_nil_r in E. rewrite <- E. apply in_or_app. right; left; auto.
        * symmetry in E. apply sepfree_eq in E as [E _]; auto.
      + right. split; auto. rewrite <- app_assoc in E. cbn in E.
        assert (Hl : length x <= length a').
        { destruct (le_lt_dec (length x) (length a')) as [|L]; auto. exfalso.
          assert (Hn : nth_error (x ++ sep :: y) (length a') = Some sep).
          { rewrite E, nth_error_app2, Nat.sub_diag by auto. auto. }
          rewrite nth_error_app1 in Hn by auto. apply nth_error_In in Hn. auto. }
        destruct (app_prefix _ _ _ _ E Hl) as (e & -> & E2). destruct e as [|z e].
        * injection E2 as ->. exists [], b. auto.
        * injection E2 as <- ->. exists (e ++ [sep]), b. rewrite <- app_assoc. split; auto. split; auto. right. eauto.
    - intros [->|(Hu & a & b & -> & Ha & Hb)].
      + split; auto. exists [], (sep :: y). split; auto. split; auto. right. eauto.
      + split; auto. exists (x ++ sep :: a), b. split; [rewrite <- app_assoc; auto|]. split; auto. right.
        destruct Ha as [->|(a' & ->)]; [exists x; auto|]. exists (x ++ sep :: a'). rewrite <- app_assoc. auto.
  Qed.

  Lemma pieces_ok w : forall occ i, ascending occ -> i <= length w ->
    (forall k, In k occ <-> i <= k /\ nth_error w k = Some sep) ->
    forall u, In u (pieces w i occ) <-> segment sep (skipn i w) u.
  Proof.
    induction occ as [|j occ IH]; intros i Ha Hi Hocc u; cbn [pieces].
    - rewrite segment_free.
      + rewrite (slice_n w). cbn. split; [intros [|[]]; auto|auto].
      + intros Hs. apply In_nth_error in Hs as (k & Hk). rewrite nth_error_skipn in Hk.
        apply (Hocc (i + k)). split; auto. lia.
    - destruct (proj1 (Hocc j) (or_introl eq_refl)) as [Hij Hj]. pose proof (nth_error_Some_lt _ _ _ Hj) as Hjl.
      apply ascending_cons_iff in Ha as [Hlt Ha].
      assert (E : skipn i w = slice w i j ++ sep :: skipn (j + 1) w).
      { rewrite <- (slice_skipn w i j) by lia. f_equal. apply nth_error_ext. intros k.
        rewrite nth_error_skipn. destruct k; cbn; [rewrite Nat.add_0_r; auto|]. rewrite nth_error_skipn. f_equal. lia. }
      rewrite E, segment_split.
      + cbn [In]. rewrite (IH (j + 1)); [|auto|lia|].
        * split; intros [|]; auto.
        * intros k. split.
          -- intros Hk. split; [specialize (Hlt k Hk); lia|]. apply Hocc. right; auto.
          -- intros [Hk1 Hk2]. destruct (proj2 (Hocc k)) as [->|]; auto; [split; auto; lia|lia].
      + intros Hs. apply In_nth_error in Hs as (k & Hk). rewrite slice_nth in Hk.
        destruct (Nat.ltb_spec k (j - i)); [|discriminate].
        destruct (proj2 (Hocc (i + k))) as [E2|Hin]; [split; auto; lia|lia|]. specialize (Hlt _ Hin). lia.
  Qed.

  Lemma split_repeats_ok rs :
    exists ps, mapM (fun w => do occ <- search_all w [sep] ; Ok (pieces w 0 occ)) rs = Ok ps /\
      forall u, In u (concat ps) <-> exists w, In w rs /\ segment sep w u.
  Proof.
    induction rs as [|w rs (ps & E & Hps)]; cbn [mapM].
    - exists []. split; auto. cbn. intros u. split; [intros []|]. intros (w & [] & _).
    - destruct (ListUtils.search_all_ok w [sep]) as (occ & -> & Ha & Ho). cbn [bind]. rewrite E. cbn [bind].
      eexists; split; [reflexivity|]. intros u. cbn [concat]. rewrite in_app_iff, Hps.
      rewrite (pieces_ok w occ 0 Ha); [|lia|].
      + cbn [skipn]. split.
        * intros [|(w' & Hw & Hs)]; [exists w; split; auto; left; auto|exists w'; split; auto; right; auto].
        * intros (w' & [->|Hw] & Hs); auto. right. exists w'. auto.
      + intros k. rewrite Ho, occurs_at_iff. cbn [length]. split.
        * intros [H1 H2]. split; [lia|]. specialize (H2 0 ltac:(lia)). rewrite Nat.add_0_r in H2. auto.
        * intros [_ H2]. pose proof (nth_error_Some_lt _ _ _ H2). split; [lia|]. intros i Hi.
          replace i with 0 by lia. rewrite Nat.add_0_r. auto.
  Qed.

  Lemma concatenate_ok (log : list (list A)) : log <> [] -> concatenate_log sep log = Ok (join_with sep log).
  Proof.
    destruct log as [|t rest]; [congruence|]. intros _. cbn [concatenate_log]. f_equal.
    revert t; induction rest as [|t2 rest IH]; intros t; cbn [fold_left]; auto.
    rewrite IH. destruct rest; cbn [join_with]; rewrite <- ?app_assoc; auto.
  Qed.

  Lemma occurs_split u t y p : u <> [] -> ~ In sep u -> occurs_at u (t ++ sep :: y) p ->
    occurs_at u t p \/ (S (length t) <= p /\ occurs_at u y (p - S (length t))).
  Proof.
    intros Hu Hs Ho. pose proof (occurs_at_bound _ _ _ Ho) as Hb. rewrite occurs_at_iff in Ho. destruct Ho as [_ Ho].
    rewrite app_length in Hb. cbn in Hb.
    assert (Hl : 0 < length u) by (destruct u; [congruence|cbn; lia]).
    destruct (le_lt_dec (p + length u) (length t)) as [L|L].
    - left. apply occurs_at_iff. split; auto. intros i Hi. rewrite <- Ho by auto.
      rewrite nth_error_app1 by lia. auto.
    - destruct (le_lt_dec p (length t)) as [Lp|Lp].
      + exfalso. specialize (Ho (length t - p) ltac:(lia)). replace (p + (length t - p)) with (length t) in Ho by lia.
        rewrite nth_error_app2, Nat.sub_diag in Ho by auto. symmetry in Ho. apply nth_error_In in Ho. auto.
      + right. split; [lia|]. apply occurs_at_iff. split; [lia|]. intros i Hi. rewrite <- Ho by auto.
        rewrite nth_error_app2 by lia. replace (p + i - length t) with (S (p - S (length t) + i)) by lia. auto.
  Qed.
  Lemma occurs_join u : u <> [] -> ~ In sep u -> forall log p, occurs_at u (join_with sep log) p ->
    exists i t q, nth_error log i = Some t /\ occurs_at u t q /\
      p = list_sum (map (fun t => S (length t)) (firstn i log)) + q.
  Proof.
    intros Hu Hs. induction log as [|t log IH]; intros p Ho.
    - apply occurs_at_bound in Ho. destruct u; [congruence|cbn in Ho; lia].
    - destruct log as [|t2 log].
      + exists 0, t, p. auto.
      + cbn [join_with] in Ho. apply occurs_split in Ho as [Ho|[Hp Ho]]; auto.
        * exists 0, t, p. auto.
        * destruct (IH _ Ho) as (i & t' & q & H1 & H2 & H3). exists (S i), t', q. split; auto. split; auto.
          cbn [firstn map list_sum fold_right]. unfold list_sum in H3. lia.
  Qed.

  Theorem over_log_ok order (log : list (list A)) (m : Z) : (forall x, Permutation (order x) x) ->
    join_with sep log <> [] -> dollar <> sep -> (forall t, In t log -> ~ In dollar t) -> 
    exists r, get_maximal_repeats_over_log dollar order log sep m = Ok r /\ NoDup r /\
      forall u, In u r <-> (m <= Z.of_nat (length u))%Z /\
        exists w, inclusion_maximal (fun v => v <> [] /\ (m <= Z.of_nat (length v))%Z /\
                                     right_branching (join_with sep log) v) w /\ segment sep w u.
  Proof.
    intros Ho Hs Hds Hd. unfold get_maximal_repeats_over_log.
    rewrite concatenate_ok by (intros ->; auto). cbn [bind].
    assert (Hnd : ~ In dollar (join_with sep log)).
    { clear - Hds Hd. induction log as [|t log IH]; [auto|]. destruct log as [|t2 log].
      - apply Hd. left; auto.
      - cbn [join_with]. rewrite in_app_iff. intros [Hi|[Hi|Hi]]; [apply (Hd t); auto; left; auto|congruence|].
        apply IH; auto. intros; apply Hd; right; auto. }
    destruct (find_super_ok dollar _ m Hs Hnd) as (rs & -> & _ & Hrs). cbn [bind].
    destruct (split_repeats_ok rs) as (ps & -> & Hps). cbn [bind].
    eexists; split; [reflexivity|]. split.
    - apply NoDup_filter. eapply Permutation_NoDup; [symmetry; apply Ho|]. apply Patterns.set_of_NoDup.
    - intros u. rewrite filter_In, Z.leb_le.
      assert (Hin : In u (order (set_of (concat ps))) <-> In u (concat ps)).
      { split; intros Hi.
        - apply (Permutation_in _ (Ho _)) in Hi. apply (proj1 (Patterns.set_of_In _ _)) in Hi. auto.
        - apply (Permutation_in _ (Permutation_sym (Ho _))). apply (proj2 (Patterns.set_of_In _ _)). auto. }
      rewrite Hin, Hps. split.
      + intros [(w & Hw & Hsg) Hm]. split; auto. exists w. rewrite <- Hrs. auto.
      + intros [Hm (w & Hw & Hsg)]. split; auto. exists w. rewrite Hrs. auto.
  Qed.

  (** every reported word stands at two places of the log, inside traces *)
  Theorem over_log_twice order (log : list (list A)) (m : Z) r u : (forall x, Permutation (order x) x) ->
    join_with sep log <> [] -> dollar <> sep -> (forall t, In t log -> ~ In dollar t) -> (1 <= m)%Z ->
    get_maximal_repeats_over_log dollar order log sep m = Ok r -> In u r ->
    ~ In sep u /\
    exists i j ti tj p q, (i, p) <> (j, q) /\ nth_error log i = Some ti /\ occurs_at u ti p /\
                          nth_error log j = Some tj /\ occurs_at u tj q.
  Proof.
    intros Ho Hs Hds Hd Hm E Hu. destruct (over_log_ok order log m Ho Hs Hds Hd) as (r' & E' & _ & Hr).
    rewrite E in E'. injection E' as <-. apply Hr in Hu as (Hl & w & [(Hw & _ & Hb) _] & Hsg).
    apply branching_twice in Hb as (p & q & Hpq & Hp & Hq).
    destruct Hsg as (Hsf & a & b & -> & _). split; auto.
    assert (Hne : u <> []) by (intros ->; cbn in Hl; lia).
    apply occurs_at_app in Hp as [_ Hp], Hq as [_ Hq]. apply occurs_at_app in Hp as [Hp _], Hq as [Hq _].
    destruct (occurs_join u Hne Hsf log _ Hp) as (i & ti & p' & H1 & H2 & H3).
    destruct (occurs_join u Hne Hsf log _ Hq) as (j & tj & q' & H4 & H5 & H6).
    exists i, j, ti, tj, p', q'. split; auto. intros E2. injection E2 as -> ->. apply Hpq. lia.
  Qed.
End R.
