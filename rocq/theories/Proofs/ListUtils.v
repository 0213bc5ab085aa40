From Verif.Model Require Import Base ListUtils.
From Verif.Spec Require Import Lists.
From Verif.Lib Require Import ListLib.

Section BMproofs.
  Context {A : Type} `{Eq A}.
  Implicit Types l needle : list A.

  Lemma is_prefix_loop_iff suf needle :
    is_prefix_loop suf needle = true <->
    forall i, i < length suf -> nth_error suf i = nth_error needle i.
  Proof.
    revert needle; induction suf as [|x suf IH]; intros [|y needle]; cbn.
    - split; auto; intros; lia.
    - split; auto; intros; lia.
    - split; [discriminate|]. intros E. specialize (E 0 ltac:(lia)). discriminate.
    - destruct (eqb_ok x y) as [->|Hn].
      + rewrite IH. split; intros E.
        * intros [|i] Hi; auto. apply E; lia.
        * intros i Hi. apply (E (S i)); lia.
      + split; [discriminate|]. intros E. specialize (E 0 ltac:(lia)). cbn in E; congruence.
  Qed.

  (** needle[p:] is a prefix of needle *)
  Definition border (needle : list A) (p : nat) :=
    forall i, p + i < length needle -> nth_error needle (p + i) = nth_error needle i.

  Lemma is_prefix_iff needle p : is_prefix needle p = true <-> border needle p.
  Proof.
    unfold is_prefix, border. rewrite is_prefix_loop_iff, skipn_length.
    split; intros E i Hi.
    - rewrite <- nth_error_skipn. apply E; lia.
    - rewrite nth_error_skipn. apply E; lia.
  Qed.

  Lemma suffix_length_loop_spec needle c j len :
    c <= j -> j < length needle ->
    let r := suffix_length_loop needle c j len in
    len <= r <= len + c /\
    (forall k, k < r - len -> nth_error needle (c - 1 - k) = nth_error needle (j - k)) /\
    (r - len < c -> nth_error needle (c - 1 - (r - len)) <> nth_error needle (j - (r - len))).
  Proof.
    revert j len; induction c as [|i IH]; intros j len Hc Hj; cbn.
    - split; [lia|]. split; intros; lia.
    - destruct (nth_error_lt needle i) as [x Ex]; [lia|].
      destruct (nth_error_lt needle j) as [y Ey]; [lia|].
      rewrite Ex, Ey. destruct (eqb_ok x y) as [->|Hn].
      + specialize (IH (j - 1) (S len) ltac:(lia) ltac:(lia)). cbn in IH.
        destruct IH as (H1 & H2 & H3). split; [lia|]. split.
        * intros [|k] Hk.
          -- rewrite !Nat.sub_0_r. congruence.
          -- specialize (H2 k ltac:(lia)). replace (i - 0 - S k) with (i - 1 - k) by lia.
             rewrite H2. f_equal; lia.
        * intros Hr. specialize (H3 ltac:(lia)).
          replace (i - 0 - (suffix_length_loop needle i (j - 1) (S len) - len)) with
            (i - 1 - (suffix_length_loop needle i (j - 1) (S len) - S len)) by lia.
          replace (j - (suffix_length_loop needle i (j - 1) (S len) - len)) with
            (j - 1 - (suffix_length_loop needle i (j - 1) (S len) - S len)) by lia. auto.
      + rewrite Nat.sub_diag. split; [lia|]. split; [intros; lia|].
        intros _. rewrite !Nat.sub_0_r. congruence.
  Qed.

  Lemma suffix_length_spec needle p :
    S p < length needle ->
    let r := suffix_length needle p in
    r <= S p /\
    (forall k, k < r -> nth_error needle (p - k) = nth_error needle (length needle - 1 - k)) /\
    (r <= p -> nth_error needle (p - r) <> nth_error needle (length needle - 1 - r)).
  Proof.
    intros Hp. unfold suffix_length.
    destruct (suffix_length_loop_spec needle (S p) (length needle - 1) 0) as (H1 & H2 & H3); try lia.
    split; [lia|]. split.
    - intros k Hk. specialize (H2 k ltac:(lia)). rewrite <- H2. f_equal; lia.
    - intros Hr. specialize (H3 ltac:(lia)).
      rewrite Nat.sub_0_r in *. replace (S p - 1) with p in * by lia. auto.
  Qed.

  (** shift [t] is compatible with a mismatch at position [j] of the needle *)
  Definition admissible needle (j t : nat) :=
    (forall k, j < k -> t <= k -> k < length needle ->
               nth_error needle k = nth_error needle (k - t)) /\
    (t <= j -> nth_error needle j <> nth_error needle (j - t)).

  (** the entry for m matched symbols *)
  Definition good_entry needle (m o : nat) :=
    m + 1 <= o /\
    forall t, 1 <= t -> admissible needle (length needle - 1 - m) t -> o <= t + m.

  Lemma prefix_entries needle c lp table :
    c <= length needle -> length table = length needle - c ->
    c <= lp <= length needle ->
    (c < length needle -> c < lp) ->
    border needle lp ->
    (forall p, c < p -> p <= length needle -> border needle p -> lp <= p) ->
    (forall m, m < length table -> exists q,
        nth_error table m = Some (q + m) /\ length needle - 1 - m < q <= length needle /\
        border needle q /\
        (forall p, length needle - 1 - m < p -> p <= length needle -> border needle p -> q <= p)) ->
    let T := offset_table_prefix needle c lp table in
    length T = length needle /\
    (forall m, m < length T -> exists q,
        nth_error T m = Some (q + m) /\ length needle - 1 - m < q <= length needle /\
        border needle q /\
        (forall p, length needle - 1 - m < p -> p <= length needle -> border needle p -> q <= p)).
  Proof.
    revert lp table; induction c as [|i IH]; intros lp table Hc Hlen Hlp Hlp' Hb Hmin Hent; cbn.
    - split; [lia|]. auto.
    - set (lp' := if is_prefix needle (i + 1) then i + 1 else lp).
      assert (Hlp2 : i < lp' <= length needle /\ border needle lp' /\
                     forall p, i < p -> p <= length needle -> border needle p -> lp' <= p).
      { unfold lp'. destruct (is_prefix needle (i + 1)) eqn:E.
        - apply is_prefix_iff in E. repeat split; auto; intros; lia.
        - repeat split; auto; try lia. intros p Hp Hp2 Hbp.
          destruct (Nat.eq_dec p (i + 1)) as [->|Hne].
          + apply is_prefix_iff in Hbp. congruence.
          + apply Hmin; auto; lia. }
      destruct Hlp2 as (Ha & Hb' & Hm').
      apply IH; auto; try lia.
      + rewrite app_length; cbn; lia.
      + intros m Hm. rewrite app_length in Hm; cbn in Hm.
        destruct (Nat.eq_dec m (length table)) as [->|Hne].
        * exists lp'. rewrite nth_error_app2, Nat.sub_diag by lia. cbn.
          replace (length needle - 1 - length table) with i by lia.
          repeat split; auto; try lia. f_equal; lia.
        * rewrite nth_error_app1 by lia. apply Hent; lia.
  Qed.

  Lemma make_offset_table_ok needle :
    exists T, make_offset_table needle = Ok T /\ length T = length needle /\
      forall m, m < length needle -> exists o, nth_error T m = Some o /\ good_entry needle m o.
  Proof.
    set (n := length needle).
    destruct (prefix_entries needle n n []) as [HT0 HE0]; auto; try (cbn; lia).
    all: try (unfold border; intros; unfold n in *; cbn in *; lia).
    unfold make_offset_table. fold n.
    set (T0 := offset_table_prefix needle n n []) in *.
    (* invariant: processed indices i < d *)
    assert (Hfold : forall d T,
      d <= n - 1 -> length T = n ->
      (forall m, m < n ->
         (exists i, i < n - 1 - d /\ suffix_length needle i = m /\
                    nth_error T m = Some (n - 1 - i + m) /\
                    forall i', i' < n - 1 - d -> suffix_length needle i' = m -> i' <= i) \/
         ((forall i', i' < n - 1 - d -> suffix_length needle i' <> m) /\
          nth_error T m = nth_error T0 m)) ->
      exists T', foldM (fun table i => of_option IndexError
                   (list_set table (suffix_length needle i)
                             (n - 1 - i + suffix_length needle i)))
                 (seq (n - 1 - d) d) T = Ok T' /\
      length T' = n /\
      forall m, m < n ->
         (exists i, i < n - 1 /\ suffix_length needle i = m /\
                    nth_error T' m = Some (n - 1 - i + m) /\
                    forall i', i' < n - 1 -> suffix_length needle i' = m -> i' <= i) \/
         ((forall i', i' < n - 1 -> suffix_length needle i' <> m) /\
          nth_error T' m = nth_error T0 m)).
    { induction d as [|d IH]; intros T Hd HT HI.
      - exists T. rewrite Nat.sub_0_r in HI. cbn. auto.
      - cbn [seq foldM].
        destruct (suffix_length_spec needle (n - 1 - S d)) as (Hs & _); [unfold n; lia|].
        destruct (list_set_spec T (suffix_length needle (n - 1 - S d))
                    (n - 1 - (n - 1 - S d) + suffix_length needle (n - 1 - S d)))
          as (T1 & E1 & HT1 & HE1); [lia|].
        rewrite E1; cbn [of_option bind].
        replace (S (n - 1 - S d)) with (n - 1 - d) by lia.
        apply IH; try lia.
        intros m Hm. rewrite HE1.
        destruct (Nat.eqb_spec m (suffix_length needle (n - 1 - S d))) as [Em|Em].
        + left. exists (n - 1 - S d). rewrite <- Em. repeat split; auto; try lia.
        + destruct (HI m Hm) as [(i & H1 & H2 & H3 & H4)|(H1 & H2)].
          * left. exists i. repeat split; auto; try lia.
            intros i' Hi' Es. destruct (Nat.eq_dec i' (n - 1 - S d)) as [->|Hne]; [congruence|].
            apply H4; auto; lia.
          * right. split; auto. intros i' Hi'.
            destruct (Nat.eq_dec i' (n - 1 - S d)) as [->|Hne]; [congruence|].
            apply H1; lia. }
    destruct (Hfold (n - 1) T0) as (T & ET & HT & HE); auto.
    { intros m Hm. right; split; auto. intros; lia. }
    rewrite Nat.sub_diag in ET. exists T. split; [exact ET|]. split; auto.
    intros m Hm.
    assert (Hadm : forall t, 1 <= t -> admissible needle (n - 1 - m) t ->
              (t <= n - 1 - m -> suffix_length needle (n - 1 - t) = m) /\
              (n - 1 - m < t -> t <= n -> border needle t)).
    { intros t Ht [Ha1 Ha2]. split.
      - intros Htj.
        destruct (suffix_length_spec needle (n - 1 - t)) as (H1 & H2 & H3); [unfold n in *; lia|].
        fold n in H1, H2, H3. specialize (Ha2 Htj).
        set (r := suffix_length needle (n - 1 - t)) in *.
        destruct (lt_eq_lt_dec r m) as [[Hlt|Heq]|Hgt]; auto.
        + exfalso. apply H3; [lia|].
          rewrite (Ha1 (n - 1 - r)) by (unfold n in *; lia). f_equal; lia.
        + exfalso. apply Ha2. rewrite <- (H2 m Hgt). f_equal; lia.
      - intros Htj Htn i Hi. rewrite (Ha1 (t + i)) by lia. f_equal; lia. }
    destruct (HE m Hm) as [(i & H1 & H2 & H3 & H4)|(H1 & H2)].
    - exists (n - 1 - i + m). split; auto. split; [lia|]. fold n.
      destruct (suffix_length_spec needle i) as (H5 & _); [unfold n in *; lia|].
      intros t Ht Had. destruct (Hadm t Ht Had) as [Hx Hy].
      destruct (le_lt_dec t (n - 1 - m)) as [Hle|Hlt].
      + specialize (H4 (n - 1 - t) ltac:(lia) (Hx Hle)). lia.
      + lia.
    - rewrite HT0 in HE0. destruct (HE0 m Hm) as (q & Eq & Hq1 & Hq2 & Hq3).
      fold n in Hq1, Hq3. exists (q + m). rewrite H2. split; auto. split; [lia|]. fold n.
      intros t Ht Had. destruct (Hadm t Ht Had) as [Hx Hy].
      destruct (le_lt_dec t (n - 1 - m)) as [Hle|Hlt].
      + exfalso. apply (H1 (n - 1 - t)); [lia|]. auto.
      + destruct (le_lt_dec t n) as [Htn|Htn]; [|lia].
        specialize (Hq3 t Hlt Htn (Hy Hlt Htn)). lia.
  Qed.

  (** char table: the entry of c is n-1-k for the last k < n-1 with needle[k] = c *)
  Lemma make_char_table_ok needle c :
    let n := length needle in
    match dict_get c (make_char_table needle) with
    | Some d => exists k, k < n - 1 /\ d = n - 1 - k /\ nth_error needle k = Some c /\
                          forall k', k' < n - 1 -> nth_error needle k' = Some c -> k' <= k
    | None => forall k', k' < n - 1 -> nth_error needle k' <> Some c
    end.
  Proof.
    cbn. unfold make_char_table. set (n := length needle).
    assert (Hfold : forall d T,
      d <= n - 1 ->
      match dict_get c T with
      | Some v => exists k, k < n - 1 - d /\ v = n - 1 - k /\ nth_error needle k = Some c /\
                          forall k', k' < n - 1 - d -> nth_error needle k' = Some c -> k' <= k
      | None => forall k', k' < n - 1 - d -> nth_error needle k' <> Some c
      end ->
      match dict_get c (fold_left (fun table i => match nth_error needle i with
         | Some x => dict_set x (n - 1 - i) table | None => table end)
           (seq (n - 1 - d) d) T) with
      | Some v => exists k, k < n - 1 /\ v = n - 1 - k /\ nth_error needle k = Some c /\
                          forall k', k' < n - 1 -> nth_error needle k' = Some c -> k' <= k
      | None => forall k', k' < n - 1 -> nth_error needle k' <> Some c
      end).
    { induction d as [|d IH]; intros T Hd HI.
      - rewrite Nat.sub_0_r in HI. exact HI.
      - cbn [seq fold_left]. replace (S (n - 1 - S d)) with (n - 1 - d) by lia.
        apply IH; [lia|].
        destruct (nth_error_lt needle (n - 1 - S d)) as [x Ex]; [unfold n; unfold n in Hd; lia|].
        rewrite Ex, dict_get_set.
        destruct (eqb_ok c x) as [<-|Hne].
        + exists (n - 1 - S d). repeat split; auto; try lia.
        + destruct (dict_get c T) as [v|].
          * destruct HI as (k & H1 & H2 & H3 & H4). exists k; repeat split; auto; try lia.
            intros k' Hk' Ek'. destruct (Nat.eq_dec k' (n - 1 - S d)) as [->|]; [congruence|].
            apply H4; auto; lia.
          * intros k' Hk' Ek'. destruct (Nat.eq_dec k' (n - 1 - S d)) as [->|]; [congruence|].
            apply (HI k'); auto; lia. }
    specialize (Hfold (n - 1) []). rewrite Nat.sub_diag in Hfold. apply Hfold; [lia|].
    cbn. intros; lia.
  Qed.

  Lemma bm_inner_ok l sub j i :
    j < length sub -> i < length l -> j <= i ->
    match bm_inner l sub j i with
    | Ok (Found k) => k = i - j /\ (forall d, d <= j -> nth_error sub (j - d) = nth_error l (i - d))
    | Ok (Mismatch i' j') => exists d, d <= j /\ i' = i - d /\ j' = j - d /\
        nth_error sub j' <> nth_error l i' /\
        (forall d', d' < d -> nth_error sub (j - d') = nth_error l (i - d'))
    | Err _ => False
    end.
  Proof.
    revert i; induction j as [|j IH]; intros i Hj Hi Hji; cbn [bm_inner].
    - destruct (nth_error_lt sub 0 Hj) as [x Ex]. destruct (nth_error_lt l i Hi) as [y Ey].
      rewrite Ex, Ey. destruct (eqb_ok x y) as [->|Hn].
      + split; [lia|]. intros d Hd. replace d with 0 by lia. rewrite !Nat.sub_0_r; congruence.
      + exists 0. rewrite !Nat.sub_0_r. repeat split; auto; try congruence. intros; lia.
    - destruct (nth_error_lt sub (S j) Hj) as [x Ex]. destruct (nth_error_lt l i Hi) as [y Ey].
      rewrite Ex, Ey. destruct (eqb_ok x y) as [->|Hn].
      + destruct i as [|i]; [lia|]. specialize (IH i ltac:(lia) ltac:(lia) ltac:(lia)).
        destruct (bm_inner l sub j i) as [[k|i' j']|]; auto.
        * destruct IH as [-> HE]. split; [lia|]. intros [|d] Hd.
          -- rewrite !Nat.sub_0_r; congruence.
          -- apply HE; lia.
        * destruct IH as (d & H1 & H2 & H3 & H4 & H5). exists (S d).
          repeat split; auto; try lia. intros [|d'] Hd'.
          -- rewrite !Nat.sub_0_r; congruence.
          -- apply H5; lia.
      + exists 0. rewrite !Nat.sub_0_r. repeat split; auto; try lia; try congruence.
  Qed.

  Definition first_occ (l sub : list A) (r : result Z) : Prop :=
    (r = Ok (-1)%Z /\ forall k, ~ occurs_at sub l k) \/
    (exists k, r = Ok (Z.of_nat k) /\ occurs_at sub l k /\ forall k', occurs_at sub l k' -> k <= k').

  Lemma bm_loop_ok fuel l sub T i :
    sub <> [] ->
    (forall m, m < length sub -> exists o, nth_error T m = Some o /\ good_entry sub m o) ->
    length sub - 1 <= i -> length l < fuel + i ->
    (forall k, occurs_at sub l k -> i - (length sub - 1) <= k) ->
    first_occ l sub (bm_loop fuel l sub (make_char_table sub) T i).
  Proof.
    intros Hsub HT. set (n := length sub) in *.
    assert (Hn : 1 <= n) by (destruct sub; cbn in *; [congruence|unfold n; cbn; lia]).
    revert i; induction fuel as [|fuel IH]; intros i Hi Hf Hocc; cbn [bm_loop];
      destruct (Nat.ltb_spec i (length l)) as [Hil|Hil]; try lia.
    1, 3: left; split; auto; intros k Hk; pose proof (occurs_at_bound _ _ _ Hk);
      specialize (Hocc _ Hk); unfold n in *; lia.
    fold n. pose proof (bm_inner_ok l sub (n - 1) i ltac:(unfold n; unfold n in Hn; lia) Hil Hi) as Hin.
    destruct (bm_inner l sub (n - 1) i) as [[k|i' j]|]; [| |contradiction].
    - destruct Hin as [-> HE]. right. exists (i - (n - 1)). cbn. split; auto. split; auto.
      apply occurs_at_iff. fold n. split; [lia|]. intros d Hd.
      specialize (HE (n - 1 - d) ltac:(lia)).
      replace (n - 1 - (n - 1 - d)) with d in HE by lia. rewrite HE. f_equal; lia.
    - destruct Hin as (d & Hd & Ei & Ej & Hne & Heq). cbn [bind].
      destruct (HT (n - 1 - j)) as (o & Eo & Hge & Hsh); [lia|].
      rewrite Eo; cbn [of_option bind]. fold n in Hsh.
      replace (n - 1 - (n - 1 - j)) with j in Hsh by lia.
      destruct (nth_error_lt l i') as [c Ec]; [lia|]. rewrite Ec; cbn [of_option bind].
      pose proof (make_char_table_ok sub c) as Hct. cbn in Hct. fold n in Hct.
      set (dc := match dict_get c (make_char_table sub) with Some d0 => d0 | None => 1 end).
      apply IH; try lia.
      intros k Hk. pose proof (Hocc _ Hk) as Hk1.
      pose proof (proj1 (occurs_at_iff _ _ _) Hk) as [Hkb Hkn]. fold n in Hkb, Hkn.
      set (start := i - (n - 1)) in *.
      assert (Hks : start < k).
      { destruct (Nat.eq_dec k start) as [->|]; [|lia]. exfalso. apply Hne.
        rewrite <- (Hkn j) by lia. f_equal; lia. }
      (* offset rule *)
      assert (Hoff : o <= (k - start) + (n - 1 - j)).
      { apply Hsh; [lia|]. split.
        - intros q Hq1 Hq2 Hq3. fold n in Hq3.
          assert (E1 : nth_error sub q = nth_error l (start + q)).
          { specialize (Heq (n - 1 - q) ltac:(lia)).
            replace (n - 1 - (n - 1 - q)) with q in Heq by lia. rewrite Heq. f_equal; lia. }
          rewrite E1. rewrite <- (Hkn (q - (k - start))) by lia. f_equal; lia.
        - intros Ht E. apply Hne. rewrite E.
          rewrite <- (Hkn (j - (k - start))) by lia. f_equal; lia. }
      (* char rule *)
      assert (Hchar : i' + dc - (n - 1) <= k).
      { destruct (le_lt_dec k i') as [Hki|Hki].
        - assert (Es : nth_error sub (i' - k) = Some c).
          { rewrite <- Hkn by lia. rewrite <- Ec. f_equal; lia. }
          unfold dc. destruct (dict_get c (make_char_table sub)) as [v|].
          + destruct Hct as (kk & H1 & -> & _ & H4). specialize (H4 (i' - k) ltac:(lia) Es). lia.
          + exfalso. apply (Hct (i' - k)); [lia|auto].
        - unfold dc. destruct (dict_get c (make_char_table sub)) as [v|].
          + destruct Hct as (kk & H1 & -> & _ & H4). lia.
          + lia. }
      lia.
  Qed.

  Lemma search_with_tables_ok l sub T :
    make_offset_table sub = Ok T ->
    first_occ l sub (search_with_tables l sub (make_char_table sub) T).
  Proof.
    intros ET. unfold search_with_tables. destruct sub as [|a sub0] eqn:Es.
    - right. exists 0. split; auto. split; [apply occurs_at_nil; lia|intros; lia].
    - rewrite <- Es in *. destruct (make_offset_table_ok sub) as (T' & ET' & HT' & HE).
      rewrite ET in ET'. injection ET' as <-.
      apply bm_loop_ok; auto; try lia; try (rewrite Es; discriminate).
  Qed.

  Theorem search_sublist_bm_ok l sub : first_occ l sub (search_sublist_bm l sub).
  Proof.
    unfold search_sublist_bm. destruct sub as [|a sub0] eqn:Es.
    - right. exists 0. split; auto. split; [apply occurs_at_nil; lia|intros; lia].
    - rewrite <- Es. destruct (make_offset_table_ok sub) as (T & ET & HT & HE).
      rewrite ET; cbn [bind]. apply search_with_tables_ok; auto.
  Qed.

  Theorem is_sublist_bm_ok l sub :
    exists b, is_sublist_bm l sub = Ok b /\ (b = true <-> exists k, occurs_at sub l k).
  Proof.
    unfold is_sublist_bm.
    destruct (search_sublist_bm_ok l sub) as [[-> Hn]|(k & -> & Hk & _)]; cbn [bind].
    - exists false. split; auto. split; [discriminate|]. intros [k Hk]. destruct (Hn _ Hk).
    - exists true. split; [|split; eauto]. f_equal. lia.
  Qed.

  Lemma all_occ_loop_ok fuel l sub T index s occ :
    make_offset_table sub = Ok T ->
    index <= length l + 1 -> length l + 1 < fuel + index ->
    ascending occ ->
    (forall k, In k occ <-> occurs_at sub l k /\ k < index) ->
    (index <= length l -> first_occ (skipn index l) sub (Ok s)) ->
    exists r, all_occ_loop fuel l sub (make_char_table sub) T index s occ = Ok r /\
      ascending r /\ forall k, In k r <-> occurs_at sub l k.
  Proof.
    intros ET. revert index s occ; induction fuel as [|fuel IH]; intros index s occ Hi Hf Ha Hin Hfo;
      cbn [all_occ_loop];
      destruct (Nat.leb_spec index (length l)) as [Hil|Hil]; try lia;
      rewrite ?andb_false_r, ?andb_true_r.
    2: { exists occ; repeat split; auto; intros Hk.
         - apply Hin; auto.
         - apply Hin; split; auto. apply occurs_at_bound in Hk. lia. }
    specialize (Hfo Hil).
    destruct Hfo as [[Es Hno]|(k & Es & Hk & Hmin)]; injection Es as ->.
    - cbn. exists occ; repeat split; auto; intros Hk.
      + apply Hin; auto.
      + apply Hin; split; auto. destruct (le_lt_dec index k) as [Hle|]; auto. exfalso.
        apply (Hno (k - index)). apply occurs_at_skipn; auto.
        replace (index + (k - index)) with k by lia; auto.
    - destruct (Z.leb_spec 0 (Z.of_nat k)); [|lia]. rewrite Nat2Z.id.
      apply occurs_at_skipn in Hk; auto. pose proof (occurs_at_bound _ _ _ Hk).
      destruct (search_with_tables_ok (skipn (index + k + 1) l) sub T ET) as [[E Hno]|(k2 & E & Hk2 & Hm2)];
        rewrite E; cbn [bind]; apply IH; try lia.
      all: try (apply ascending_app; split; [exact Ha|split; [constructor|]];
        intros x y Hx [<-|[]]; apply Hin in Hx; lia).
      all: try (intros q; rewrite in_app_iff, Hin; cbn; split;
        [intros [[? ?]|[<-|[]]]; split; auto; lia|];
        intros [Hq1 Hq2]; destruct (lt_dec q index) as [Hq|Hq]; [left; auto|];
        right; left; pose proof (proj2 (occurs_at_skipn sub l index (q - index) Hil));
        assert (k <= q - index) by (apply Hmin, occurs_at_skipn; auto;
          replace (index + (q - index)) with q by lia; auto); lia).
      + left; split; auto.
      + right; exists k2; auto.
  Qed.

  Theorem search_all_ok l sub :
    exists r, search_all l sub = Ok r /\ ascending r /\ forall k, In k r <-> occurs_at sub l k.
  Proof.
    unfold search_all. destruct (make_offset_table_ok sub) as (T & ET & _). rewrite ET; cbn [bind].
    pose proof (search_with_tables_ok l sub T ET) as Hs.
    destruct Hs as [[E Hno]|(k2 & E & Hk2 & Hm2)]; rewrite E; cbn [bind];
      apply all_occ_loop_ok; auto; try lia; try (apply asc_nil);
      try (intros k; split; [intros []|lia]).
    - intros _; left; auto.
    - intros _; right; exists k2; auto.
  Qed.
End BMproofs.
