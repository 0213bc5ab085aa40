From Verif.Model Require Import Base ListUtils.
From Verif.Spec Require Import Lists Nested.
From Verif.Lib Require Import ListLib.
From Coq Require Import Permutation.

(** ** view_of_n_partitions *)
Lemma range_step_spec k : forall fuel a step,
  1 <= step -> k <= fuel ->
  range_step fuel a (a + k * step) step = map (fun i => a + i * step) (seq 0 k).
Proof.
  induction k as [|k IH]; intros fuel a step Hs Hf.
  - cbn [Nat.mul seq map]. rewrite Nat.add_0_r. destruct fuel; cbn [range_step]; auto.
    destruct (Nat.ltb_spec a a); [lia|auto].
  - destruct fuel as [|fuel]; [lia|]. cbn [range_step].
    destruct (Nat.ltb_spec a (a + S k * step)) as [Hlt|Hge].
    2: { exfalso. cbn in Hge. lia. }
    cbn [seq map]. f_equal; [lia|].
    replace (a + S k * step) with (a + step + k * step) by (cbn; lia).
    rewrite IH by lia. rewrite <- seq_shift, map_map. apply map_ext. intros i; cbn; lia.
Qed.

Lemma firstn_add {A} (l : list A) a b : firstn (a + b) l = firstn a l ++ firstn b (skipn a l).
Proof.
  revert l; induction a as [|a IH]; intros l; cbn; auto.
  destruct l as [|x l]; cbn; auto.
  - destruct b; auto.
  - f_equal; auto.
Qed.
Lemma skipn_skipn' {A} (l : list A) a b : skipn a (skipn b l) = skipn (b + a) l.
Proof. revert l; induction b as [|b IH]; intros l; cbn; auto. destruct l; auto. destruct a; auto. Qed.

Lemma concat_slices {A} (l : list A) k : forall a step,
  concat (map (fun p => slice l p (p + step)) (map (fun i => a + i * step) (seq 0 k)))
  = slice l a (a + k * step).
Proof.
  induction k as [|k IH]; intros a step.
  - cbn. unfold slice. rewrite Nat.add_0_r, Nat.sub_diag. reflexivity.
  - cbn [seq map concat]. rewrite <- seq_shift, (map_map S).
    rewrite (map_ext (fun i => a + S i * step) (fun i => (a + step) + i * step)) by (intros; cbn; lia).
    rewrite IH. unfold slice.
    replace (a + 0 * step + step - (a + 0 * step)) with step by lia.
    replace (a + step + k * step - (a + step)) with (k * step) by lia.
    replace (a + S k * step - a) with (step + k * step) by (cbn; lia).
    rewrite firstn_add, skipn_skipn'. f_equal. f_equal. f_equal. lia.
Qed.

Lemma slice_lengths {A} (l : list A) k a step :
  a + k * step <= length l ->
  map (@length A) (map (fun p => slice l p (p + step)) (map (fun i => a + i * step) (seq 0 k)))
  = repeat step k.
Proof.
  intros Hb. rewrite !map_map.
  transitivity (map (fun _ : nat => step) (seq 0 k)).
  - apply map_ext_in. intros i Hi. apply in_seq in Hi. rewrite slice_length.
    assert ((i + 1) * step <= k * step) by (apply Nat.mul_le_mono_r; lia). lia.
  - clear. generalize 0. induction k as [|k IH]; intros s; cbn; auto. f_equal; auto.
Qed.

Lemma view_of_n_partitions_ok {A} (l : list A) (n : Z) :
  l <> [] -> (1 <= n)%Z ->
  exists ps q r r', view_of_n_partitions l n = Ok ps /\ concat ps = l /\
    length ps = Nat.min (Z.to_nat n) (length l) /\ 1 <= q /\
    map (@length A) ps = repeat (q + 1) r ++ repeat q r'.
Proof.
  intros Hl Hn. unfold view_of_n_partitions.
  set (L := length l).
  assert (HL : 1 <= L) by (unfold L; destruct l; [congruence|cbn; lia]).
  set (m := Z.to_nat (Z.max (Z.min n (Z.of_nat L)) 0)).
  assert (Hm : m = Nat.min (Z.to_nat n) L) by (unfold m; lia).
  destruct (Nat.eqb_spec m 0) as [E|E]; [lia|].
  pose proof (Nat.div_mod L m E) as Hdm. pose proof (Nat.mod_upper_bound L m E) as Hmb.
  set (s := L / m) in *. set (r := L mod m) in *.
  assert (Hs : 1 <= s).
  { unfold s. apply Nat.div_le_lower_bound; lia. }
  assert (HLeq : L = r * (s + 1) + (m - r) * s).
  { assert (E2 : m * s = r * s + (m - r) * s) by (rewrite <- Nat.mul_add_distr_r; f_equal; lia). lia. }
  assert (Hr1 : range_step (r * (s + 1)) 0 (r * (s + 1)) (s + 1)
                = map (fun i => 0 + i * (s + 1)) (seq 0 r)).
  { apply (range_step_spec r (r * (s+1)) 0 (s + 1)); [lia|]. rewrite Nat.mul_add_distr_l. lia. }
  assert (Hr2 : range_step L (r * (s + 1)) L s = map (fun i => r * (s + 1) + i * s) (seq 0 (m - r))).
  { rewrite HLeq at 2. apply (range_step_spec (m - r) L (r * (s + 1)) s); [lia|].
    assert ((m - r) * 1 <= (m - r) * s) by (apply Nat.mul_le_mono_l; lia). lia. }
  rewrite Hr1, Hr2.
  eexists; exists s, r, (m - r). split; [reflexivity|]. repeat split; auto.
  - rewrite concat_app, !concat_slices. rewrite <- HLeq. unfold slice. cbn [skipn].
    rewrite Nat.sub_0_r. cbn [Nat.add].
    rewrite (firstn_all2 (n := L - r * (s + 1))) by (rewrite skipn_length; unfold L; lia).
    apply firstn_skipn.
  - rewrite app_length, !map_length, !seq_length. lia.
  - rewrite map_app, !slice_lengths; auto; fold L; lia.
Qed.

Lemma view_of_n_partitions_err {A} (l : list A) (n : Z) :
  l = [] \/ (n <= 0)%Z -> view_of_n_partitions l n = Err ZeroDivisionError.
Proof.
  intros Hx. unfold view_of_n_partitions.
  destruct (Nat.eqb_spec (Z.to_nat (Z.max (Z.min n (Z.of_nat (length l))) 0)) 0) as [E|E]; auto.
  destruct Hx as [->|Hn]; cbn in *; lia.
Qed.

(** ** enumerate_reversed, iterate_self_product *)
Lemma enumerate_reversed_length {A} (l : list A) : length (enumerate_reversed l) = length l.
Proof. unfold enumerate_reversed. rewrite map_length, combine_length, seq_length, rev_length. lia. Qed.

Lemma nth_error_combine {A B} (l : list A) (m : list B) k :
  nth_error (combine l m) k =
  match nth_error l k, nth_error m k with Some a, Some b => Some (a, b) | _, _ => None end.
Proof.
  revert l m; induction k as [|k IH]; intros [|a l] [|b m]; cbn; auto.
  destruct (nth_error l k); auto.
Qed.
Lemma nth_error_seq a n k : nth_error (seq a n) k = if k <? n then Some (a + k) else None.
Proof.
  revert a k; induction n as [|n IH]; intros a k; cbn [seq].
  - destruct k; reflexivity.
  - destruct k as [|k]; cbn [nth_error].
    + cbn. f_equal; lia.
    + rewrite IH. change (S k <? S n) with (k <? n). destruct (k <? n); auto. f_equal; lia.
Qed.
Lemma nth_error_rev {A} (l : list A) k :
  k < length l -> nth_error (rev l) k = nth_error l (length l - 1 - k).
Proof.
  revert k; induction l as [|a l IH]; intros k Hk; cbn in *; [lia|].
  destruct (Nat.eq_dec k (length l)) as [->|Hne].
  - rewrite nth_error_app2 by (rewrite rev_length; lia). rewrite rev_length.
    replace (length l - length l) with 0 by lia.
    replace (length l - 0 - length l) with 0 by lia. reflexivity.
  - rewrite nth_error_app1 by (rewrite rev_length; lia).
    rewrite IH by lia. replace (length l - 0 - k) with (S (length l - 1 - k)) by lia. reflexivity.
Qed.

Lemma enumerate_reversed_nth {A} (l : list A) k :
  k < length l ->
  exists x, nth_error l (length l - 1 - k) = Some x /\
            nth_error (enumerate_reversed l) k = Some (length l - 1 - k, x).
Proof.
  intros Hk. destruct (nth_error_lt l (length l - 1 - k)) as [x Ex]; [lia|].
  exists x. split; auto. unfold enumerate_reversed.
  rewrite nth_error_map, nth_error_combine, nth_error_seq, nth_error_rev by auto.
  destruct (Nat.ltb_spec k (length l)); [|lia]. rewrite Ex. cbn. auto.
Qed.

Lemma combine_seq_nth {A} (l : list A) d : forall s,
  combine (seq s (length l)) l = map (fun i => (s + i, nth i l d)) (seq 0 (length l)).
Proof.
  induction l as [|a l IH]; intros s; cbn; auto. rewrite Nat.add_0_r. f_equal.
  rewrite IH, <- seq_shift, map_map. apply map_ext. intros i. f_equal. lia.
Qed.

Lemma flat_map_map' {A B C} (f : A -> B) (g : B -> list C) l :
  flat_map g (map f l) = flat_map (fun x => g (f x)) l.
Proof. induction l as [|a l IH]; cbn; auto. rewrite IH; auto. Qed.

Lemma iterate_self_product_ok {A} (l : list A) (skip : bool) d :
  iterate_self_product l skip =
  map (fun '(i, j) => (nth i l d, nth j l d))
      (filter (fun '(i, j) => negb (skip && (i =? j)))
              (list_prod (seq 0 (length l)) (seq 0 (length l)))).
Proof.
  unfold iterate_self_product. rewrite (combine_seq_nth l d 0). cbn [Nat.add].
  rewrite flat_map_map'.
  assert (E : forall ms js,
    flat_map (fun i : nat => flat_map (fun '(j, y) => if negb skip || negb (i =? j) then [(nth i l d, y)] else [])
                 (map (fun i0 => (i0, nth i0 l d)) js)) ms =
    map (fun '(i, j) => (nth i l d, nth j l d))
      (filter (fun '(i, j) => negb (skip && (i =? j))) (list_prod ms js))).
  { intros ms js. induction ms as [|i ms IH]; cbn; auto.
    rewrite IH, filter_app, map_app. f_equal.
    clear. induction js as [|j js IH]; cbn; auto. rewrite IH.
    rewrite negb_andb. destruct (negb skip || negb (i =? j)); auto. }
  apply E.
Qed.

(** ** deep_flatten *)
Lemma fold_left_app_acc {A B} (f : A -> list B) l acc :
  fold_left (fun fl x => fl ++ f x) l acc = acc ++ flat_map f l.
Proof.
  revert acc; induction l as [|a l IH]; intros acc; cbn.
  - rewrite app_nil_r; auto.
  - rewrite IH, app_assoc; auto.
Qed.

Lemma deep_flatten_ok {A} : forall v : pyval A, leaves v (deep_flatten v).
Proof.
  fix IH 1. intros [a|l]; [constructor|].
  cbn [deep_flatten]. rewrite fold_left_app_acc. cbn [app].
  induction l as [|x l IHl]; cbn; constructor; auto.
Qed.

(** ** shuffle_together *)
Lemma min_length_fold {A} (ls : list (list A)) m :
  fold_left (fun m l' => Nat.min m (length l')) ls m <= m /\
  (forall l, In l ls -> fold_left (fun m l' => Nat.min m (length l')) ls m <= length l) /\
  (fold_left (fun m l' => Nat.min m (length l')) ls m = m \/
   exists l, In l ls /\ fold_left (fun m l' => Nat.min m (length l')) ls m = length l).
Proof.
  revert m; induction ls as [|l0 ls IH]; intros m; cbn.
  - repeat split; auto. intros l [].
  - destruct (IH (Nat.min m (length l0))) as (H1 & H2 & H3). repeat split; try lia.
    + intros l [<-|Hl]; auto. lia.
    + destruct H3 as [H3|(l & Hl & H3)]; [|right; eauto].
      destruct (Nat.min_spec m (length l0)) as [[_ E]|[_ E]]; rewrite E in *; auto.
      right; exists l0; auto.
Qed.
Lemma min_length_eq {A} (ls : list (list A)) n :
  (forall l, In l ls -> n <= length l) -> (exists l, In l ls /\ length l = n) ->
  min_length ls = n.
Proof.
  intros Hall (l & Hl & <-). destruct ls as [|l0 ls]; [destruct Hl|]. cbn [min_length].
  destruct (min_length_fold ls (length l0)) as (H1 & H2 & H3).
  apply Nat.le_antisymm.
  - destruct Hl as [->|Hl]; auto.
  - destruct H3 as [->|(l' & Hl' & ->)]; apply Hall; [left|right]; auto.
Qed.

Lemma column_nth {A} (ls : list (list A)) k q l x :
  (forall l', In l' ls -> k < length l') ->
  nth_error ls q = Some l -> nth_error l k = Some x ->
  nth_error (column k ls) q = Some x.
Proof.
  revert q; induction ls as [|l0 ls IH]; intros q Hall Hq Hx; [destruct q; discriminate|].
  unfold column; cbn [flat_map]. fold (column k ls).
  destruct (nth_error_lt l0 k (Hall l0 (or_introl eq_refl))) as [x0 E0]. rewrite E0. cbn [app].
  destruct q as [|q]; cbn in *.
  - injection Hq as ->. congruence.
  - apply IH; auto.
Qed.
Lemma column_length {A} (ls : list (list A)) k :
  (forall l', In l' ls -> k < length l') -> length (column k ls) = length ls.
Proof.
  intros Hall. induction ls as [|l0 ls IH]; auto.
  unfold column; cbn [flat_map]. fold (column k ls).
  destruct (nth_error_lt l0 k (Hall l0 (or_introl eq_refl))) as [x0 E0]. rewrite E0. cbn.
  f_equal; apply IH. intros; apply Hall; right; auto.
Qed.

Lemma shuffle_together_ok {A} (shuffle : list (list A) -> list (list A)) ls n :
  (forall rows, Permutation (shuffle rows) rows) ->
  1 <= n -> (forall l, In l ls -> n <= length l) -> (exists l, In l ls /\ length l = n) ->
  exists sigma, Permutation sigma (seq 0 n) /\
    length (shuffle_together shuffle ls) = length ls /\
    forall q l, nth_error ls q = Some l ->
      exists l', nth_error (shuffle_together shuffle ls) q = Some l' /\
                 Forall2 (fun k x => nth_error l k = Some x) sigma l'.
Proof.
  intros Hsh Hn Hall Hex. pose proof (min_length_eq ls n Hall Hex) as Hmin.
  assert (Ez : zip_star ls = map (fun k => column k ls) (seq 0 n)).
  { unfold zip_star. rewrite Hmin. reflexivity. }
  unfold shuffle_together. rewrite Ez.
  destruct (Permutation_map_inv _ _ (Hsh (map (fun k => column k ls) (seq 0 n))))
    as (sigma & Es & Hp).
  exists sigma. rewrite Es. clear Es Hsh shuffle.
  apply Permutation_sym in Hp. split; auto.
  assert (Hin : forall k, In k sigma -> k < n).
  { intros k Hk. apply (Permutation_in k Hp) in Hk. apply in_seq in Hk; lia. }
  assert (Hcl : forall k, In k sigma -> length (column k ls) = length ls).
  { intros k Hk. apply column_length. intros l' Hl'. specialize (Hall _ Hl'). specialize (Hin _ Hk). lia. }
  assert (Hsl : length sigma = n) by (rewrite (Permutation_length Hp), seq_length; auto).
  assert (Hm2 : min_length (map (fun k => column k ls) sigma) = length ls).
  { apply min_length_eq.
    - intros l Hl. apply in_map_iff in Hl as (k & <- & Hk). rewrite Hcl; auto.
    - destruct sigma as [|k sigma]; cbn in Hsl; [lia|]. exists (column k ls). cbn. split; auto.
      apply Hcl; left; auto. }
  unfold zip_star. rewrite Hm2, map_length, seq_length. split; auto.
  intros q l Hq. pose proof (nth_error_Some_lt _ _ _ Hq) as Hql.
  rewrite nth_error_map, nth_error_seq. destruct (Nat.ltb_spec q (length ls)); [|lia]. cbn.
  eexists; split; [reflexivity|].
  assert (Hcol : forall sg, (forall k, In k sg -> k < n) ->
     Forall2 (fun k x => nth_error l k = Some x) sg (column q (map (fun k => column k ls) sg))).
  { induction sg as [|k sg IH]; intros Hk; [constructor|].
    assert (Hkn : k < n) by (apply Hk; left; auto).
    destruct (nth_error_lt l k) as [x Ex].
    { apply nth_error_In in Hq. specialize (Hall _ Hq). lia. }
    unfold column at 1. cbn [map flat_map].
    rewrite (column_nth ls k q l x); auto.
    2: { intros l' Hl'; specialize (Hall _ Hl'); lia. }
    cbn. constructor; auto. apply IH. intros; apply Hk; right; auto. }
  apply Hcol; auto.
Qed.

(** ** longest_common_sublists *)
Section LCSub.
  Context {A : Type} `{Eq A}.
  Variables a b : list A.

  (** length of the longest common block ending at i / j *)
  Fixpoint cs (i j : nat) : nat :=
    match nth_error a i, nth_error b j with
    | Some x, Some y =>
      if eqb x y then match i, j with S i', S j' => S (cs i' j') | _, _ => 1 end else 0
    | _, _ => 0
    end.

  Lemma cs_spec i : forall j k, i < length a -> j < length b ->
    k <= cs i j <->
    k <= S i /\ k <= S j /\ forall d, d < k -> nth_error a (i - d) = nth_error b (j - d).
  Proof.
    induction i as [|i IH]; intros j k Hi Hj; cbn [cs];
      destruct (nth_error_lt a _ Hi) as [x Ex]; destruct (nth_error_lt b _ Hj) as [y Ey];
      rewrite Ex, Ey; destruct (eqb_ok x y) as [->|Hn].
    - split; [intros Hk; repeat split; try lia; intros d Hd; replace d with 0 by lia;
              rewrite !Nat.sub_0_r; congruence|lia].
    - split; [intros; repeat split; lia|]. intros (H1 & H2 & H3).
      destruct k as [|k]; auto. exfalso. apply Hn. specialize (H3 0 ltac:(lia)).
      rewrite !Nat.sub_0_r in H3. congruence.
    - destruct j as [|j].
      + split; [intros Hk; repeat split; try lia; intros d Hd; replace d with 0 by lia;
                rewrite !Nat.sub_0_r; congruence|lia].
      + destruct k as [|k]; [split; [intros; repeat split; lia|lia]|].
        specialize (IH j k ltac:(lia) ltac:(lia)).
        split.
        * intros Hk. apply le_S_n in Hk. apply IH in Hk as (H1 & H2 & H3).
          repeat split; try lia. intros [|d] Hd; [rewrite !Nat.sub_0_r; congruence|].
          apply H3; lia.
        * intros (H1 & H2 & H3). apply le_n_S. apply IH. repeat split; try lia.
          intros d Hd. apply (H3 (S d)). lia.
    - split; [intros; repeat split; lia|]. intros (H1 & H2 & H3).
      destruct k as [|k]; auto. exfalso. apply Hn. specialize (H3 0 ltac:(lia)).
      rewrite !Nat.sub_0_r in H3. congruence.
  Qed.

  Lemma common_block_iff i j m :
    common_block a b i j m <->
    i + m <= length a /\ j + m <= length b /\
    forall d, d < m -> nth_error a (i + d) = nth_error b (j + d).
  Proof.
    split.
    - intros (w & Hw & Ha & Hb). apply occurs_at_iff in Ha as [Ha1 Ha2].
      apply occurs_at_iff in Hb as [Hb1 Hb2]. rewrite Hw in *. repeat split; auto.
      intros d Hd. rewrite Ha2, Hb2; auto.
    - intros (H1 & H2 & H3). exists (firstn m (skipn i a)).
      assert (E : length (firstn m (skipn i a)) = m) by (rewrite firstn_length, skipn_length; lia).
      split; auto. rewrite !occurs_at_iff, E.
      split; split; auto; intros d Hd; rewrite nth_error_firstn, nth_error_skipn;
        destruct (Nat.ltb_spec d m); try lia; auto. symmetry; auto.
  Qed.

  Lemma common_block_cs i j m :
    1 <= m -> common_block a b i j m <->
    i + m <= length a /\ j + m <= length b /\ m <= cs (i + m - 1) (j + m - 1).
  Proof.
    intros Hm. rewrite common_block_iff. split; intros (H1 & H2 & H3); repeat split; auto.
    - apply cs_spec; try lia. repeat split; try lia. intros d Hd.
      specialize (H3 (m - 1 - d) ltac:(lia)).
      replace (i + m - 1 - d) with (i + (m - 1 - d)) by lia.
      replace (j + m - 1 - d) with (j + (m - 1 - d)) by lia. auto.
    - intros d Hd. apply cs_spec in H3 as (_ & _ & H3); try lia.
      specialize (H3 (m - 1 - d) ltac:(lia)).
      replace (i + m - 1 - (m - 1 - d)) with (i + d) in H3 by lia.
      replace (j + m - 1 - (m - 1 - d)) with (j + d) in H3 by lia. auto.
  Qed.

  (** the scan in terms of [cs] *)
  Definition scan_step (st : nat * list (nat * nat)) (p : nat * nat) :=
    let '(len, ind) := st in
    let m := cs (fst p) (snd p) in
    if m =? 0 then st
    else if len <? m then (m, [p]) else if m =? len then (len, ind ++ [p]) else st.

  Lemma scan_ok cells : forall len ind,
    let '(len', ind') := fold_left scan_step cells (len, ind) in
    len <= len' /\ (forall p, In p cells -> cs (fst p) (snd p) <= len') /\
    ind' = (if len' =? len then ind else []) ++
           (if len' =? 0 then [] else filter (fun p => cs (fst p) (snd p) =? len') cells) /\
    (len' = len \/ exists p, In p cells /\ cs (fst p) (snd p) = len').
  Proof.
    induction cells as [|p cells IH]; intros len ind; cbn [fold_left].
    - rewrite Nat.eqb_refl. repeat split; auto; [intros q []|].
      destruct (len =? 0); rewrite app_nil_r; auto.
    - set (m := cs (fst p) (snd p)).
      assert (Hst : exists l1 i1, scan_step (len, ind) p = (l1, i1) /\
        ((m <= len /\ l1 = len /\ i1 = if m =? 0 then ind else if m =? len then ind ++ [p] else ind) \/
         (len < m /\ l1 = m /\ i1 = [p]))).
      { unfold scan_step. fold m. destruct (Nat.eqb_spec m 0).
        - exists len, ind; split; auto. left. repeat split; auto; lia.
        - destruct (Nat.ltb_spec len m).
          + exists m, [p]; split; auto.
          + destruct (Nat.eqb_spec m len); eexists; eexists; (split; [reflexivity|]); left; auto. }
      destruct Hst as (l1 & i1 & -> & Hst). specialize (IH l1 i1).
      destruct (fold_left scan_step cells (l1, i1)) as [len' ind'].
      destruct IH as (H1 & H2 & H3 & H4).
      destruct Hst as [(Hm & -> & ->)|(Hm & -> & ->)].
      + repeat split; auto.
        * intros q [<-|Hq]; auto. fold m; lia.
        * rewrite H3. cbn [filter]. fold m.
          destruct (Nat.eqb_spec len' len) as [->|Hne].
          -- destruct (Nat.eqb_spec m 0) as [E0|E0].
             ++ destruct (Nat.eqb_spec m len); destruct (Nat.eqb_spec len 0); auto; lia.
             ++ destruct (Nat.eqb_spec m len); destruct (Nat.eqb_spec len 0); auto; try lia.
                rewrite <- app_assoc; auto.
          -- destruct (Nat.eqb_spec m len'); auto. lia.
        * destruct H4 as [->|(q & Hq & E)]; auto. right; exists q; split; auto. right; auto.
      + repeat split; auto; try lia.
        * intros q [<-|Hq]; auto.
        * rewrite H3. cbn [filter]. fold m.
          destruct (Nat.eqb_spec len' len) as [->|Hne]; [lia|].
          destruct (Nat.eqb_spec len' 0); [lia|].
          destruct (Nat.eqb_spec len' m) as [->|Hne'].
          -- rewrite Nat.eqb_refl; auto.
          -- destruct (Nat.eqb_spec m len'); [congruence|auto].
        * right. destruct H4 as [->|(q & Hq & E)].
          -- exists p; split; [left|]; auto.
          -- exists q; split; [right|]; auto.
  Qed.

  Lemma skipn_nth_error_cons (l : list A) i x :
    nth_error l i = Some x -> skipn i l = x :: skipn (S i) l.
  Proof.
    revert i; induction l as [|y l IH]; intros [|i] E; cbn in *; try discriminate.
    - congruence.
    - apply IH in E. rewrite E. auto.
  Qed.

  Lemma lcs_row_eq prev i x : forall ys j row st,
    nth_error a i = Some x ->
    ys = skipn j b -> j <= length b -> row = map (fun q => cs i q) (seq 0 j) ->
    (i <> 0 -> prev = map (fun q => cs (i - 1) q) (seq 0 (length b))) ->
    lcs_row prev i j x ys row st =
    (map (fun q => cs i q) (seq 0 (length b)),
     fold_left scan_step (map (pair i) (seq j (length b - j))) st).
  Proof.
    induction ys as [|y ys IH]; intros j row st Hx Hys Hj Hrow Hprev.
    - assert (j = length b) as ->.
      { assert (E : length (skipn j b) = 0) by (rewrite <- Hys; auto). rewrite skipn_length in E. lia. }
      rewrite Nat.sub_diag. cbn. subst row. auto.
    - assert (Hj2 : j < length b).
      { assert (E : length (skipn j b) = S (length ys)) by (rewrite <- Hys; auto).
        rewrite skipn_length in E. lia. }
      destruct (nth_error_lt b j Hj2) as [y' Ey]. rewrite (skipn_nth_error_cons _ _ _ Ey) in Hys.
      injection Hys as <- Hys.
      replace (length b - j) with (S (length b - S j)) by lia. cbn [seq map fold_left lcs_row].
      assert (Hcell : lcs_cell prev row i j x y st = (cs i j, scan_step st (i, j))).
      { unfold lcs_cell, scan_step. cbn [fst snd]. destruct st as [len ind].
        assert (Ecs : cs i j = if eqb x y
             then (if (i =? 0) || (j =? 0) then 1 else nth (j - 1) prev 0 + 1) else 0).
        { destruct i as [|i]; cbn [cs]; rewrite Hx, Ey; destruct (eqb x y); auto.
          destruct j as [|j]; auto. cbn [Nat.eqb orb]. rewrite Hprev by lia.
          replace (S i - 1) with i by lia. replace (S j - 1) with j by lia.
          erewrite nth_error_nth; [|rewrite nth_error_map, nth_error_seq;
            destruct (Nat.ltb_spec j (length b)); [reflexivity|lia]].
          cbn. lia. }
        rewrite Ecs. destruct (eqb x y); auto.
        set (m := if (i =? 0) || (j =? 0) then 1 else nth (j - 1) prev 0 + 1).
        destruct (Nat.eqb_spec m 0) as [E|E].
        { unfold m in E. destruct ((i =? 0) || (j =? 0)); lia. }
        destruct (len <? m); auto. destruct (m =? len); auto. }
      rewrite Hcell. apply IH; auto.
      rewrite Hrow. rewrite seq_S, map_app. auto.
  Qed.

  Lemma lcs_rows_eq : forall xs i prev st,
    xs = skipn i a -> i <= length a ->
    (i <> 0 -> prev = map (fun q => cs (i - 1) q) (seq 0 (length b))) ->
    lcs_rows prev i xs b st =
    fold_left scan_step (list_prod (seq i (length a - i)) (seq 0 (length b))) st.
  Proof.
    induction xs as [|x xs IH]; intros i prev st Hxs Hi Hprev.
    - assert (i = length a) as ->.
      { assert (E : length (skipn i a) = 0) by (rewrite <- Hxs; auto). rewrite skipn_length in E. lia. }
      rewrite Nat.sub_diag. reflexivity.
    - assert (Hi2 : i < length a).
      { assert (E : length (skipn i a) = S (length xs)) by (rewrite <- Hxs; auto).
        rewrite skipn_length in E. lia. }
      destruct (nth_error_lt a i Hi2) as [x' Ex]. rewrite (skipn_nth_error_cons _ _ _ Ex) in Hxs.
      injection Hxs as <- Hxs.
      replace (length a - i) with (S (length a - S i)) by lia. cbn [seq list_prod lcs_rows].
      rewrite fold_left_app.
      rewrite (lcs_row_eq prev i x b 0 [] st); auto; [|lia].
      rewrite Nat.sub_0_r. apply IH; auto.
      intros _. replace (S i - 1) with i by lia. auto.
  Qed.

  Lemma NoDup_app_iff' {X} (l m : list X) :
    NoDup (l ++ m) <-> NoDup l /\ NoDup m /\ (forall x, In x l -> ~ In x m).
  Proof.
    induction l as [|a0 l IH]; cbn.
    - split; [intros Hm; repeat split; auto; constructor|tauto].
    - rewrite !NoDup_cons_iff, IH, in_app_iff. split.
      + intros (H1 & H2 & H3 & H4). repeat split; auto. intros x [<-|Hx]; auto.
      + intros ((H1 & H2) & H3 & H4). repeat split; auto.
        intros [H5|H5]; auto. apply (H4 a0); auto.
  Qed.
  Lemma NoDup_list_prod {X Y} (l : list X) (m : list Y) : NoDup l -> NoDup m -> NoDup (list_prod l m).
  Proof.
    intros Hl Hm. induction Hl as [|x l Hx Hl IH]; cbn; [constructor|].
    apply NoDup_app_iff'. repeat split; auto.
    - apply FinFun.Injective_map_NoDup; auto. intros u v E; congruence.
    - intros [u v] H1 H2. apply in_map_iff in H1 as (w & E & _). apply in_prod_iff in H2 as [H2 _].
      injection E as <- <-. auto.
  Qed.

  Theorem longest_common_sublists_ok :
    let '(m, pairs) := longest_common_sublists a b in
    (forall i j m', common_block a b i j m' -> m' <= m) /\
    (m = 0 -> pairs = []) /\
    (0 < m -> pairs <> [] /\ NoDup pairs /\
              forall i j, In (i, j) pairs <-> common_block a b i j m).
  Proof.
    unfold longest_common_sublists.
    rewrite (lcs_rows_eq a 0 [] (0, [])); auto; try lia.
    rewrite Nat.sub_0_r.
    set (cells := list_prod (seq 0 (length a)) (seq 0 (length b))).
    pose proof (scan_ok cells 0 []) as Hs.
    destruct (fold_left scan_step cells (0, [])) as [m ind].
    destruct Hs as (_ & Hmax & Hind & Hex).
    assert (Hcell : forall i j, In (i, j) cells <-> i < length a /\ j < length b).
    { intros i j. unfold cells. rewrite in_prod_iff, !in_seq. lia. }
    assert (Hub : forall i j m', common_block a b i j m' -> m' <= m).
    { intros i j m' Hc. destruct m' as [|m']; [lia|].
      apply common_block_cs in Hc as (H1 & H2 & H3); [|lia].
      specialize (Hmax (i + S m' - 1, j + S m' - 1)). cbn [fst snd] in Hmax.
      etransitivity; [exact H3|]. apply Hmax. apply Hcell. lia. }
    split; auto. split.
    { intros ->. rewrite Hind. reflexivity. }
    intros Hm. destruct (Nat.eqb_spec m 0) as [|_]; [lia|]. cbn [app] in Hind.
    assert (Hind' : forall i j, In (i, j) ind <-> i < length a /\ j < length b /\ cs i j = m).
    { intros i j. rewrite Hind. rewrite filter_In, Hcell. cbn [fst snd]. rewrite Nat.eqb_eq. tauto. }
    assert (Hbnd : forall i j, In (i, j) ind -> m <= S i /\ m <= S j).
    { intros i j Hij. apply Hind' in Hij as (H1 & H2 & H3).
      assert (H4 : m <= cs i j) by lia. apply cs_spec in H4; lia. }
    split; [|split].
    - destruct Hex as [E|((i, j) & Hp & E)]; [lia|]. cbn in E.
      intros En. apply map_eq_nil in En. assert (Hx : In (i, j) ind) by (apply Hind', and_assoc; split; [apply Hcell|]; auto).
      rewrite En in Hx. destruct Hx.
    - assert (Hnd : NoDup ind).
      { rewrite Hind. apply NoDup_filter. apply NoDup_list_prod; apply seq_NoDup. }
      clear -Hnd Hbnd. induction Hnd as [|[i j] l Hx Hl IH]; cbn; constructor.
      + intros Hin. apply in_map_iff in Hin as ((i', j') & E & Hin). injection E as E1 E2.
        apply Hx. assert (i' = i /\ j' = j) as [<- <-]; auto.
        pose proof (Hbnd _ _ (or_introl eq_refl)). pose proof (Hbnd _ _ (or_intror Hin)). lia.
      + apply IH. intros; apply Hbnd; right; auto.
    - intros i j. rewrite in_map_iff. rewrite common_block_cs by lia. split.
      + intros ((i', j') & E & Hin). injection E as <- <-. pose proof (Hbnd _ _ Hin).
        apply Hind' in Hin as (H1 & H2 & H3).
        replace (i' + 1 - m + m - 1) with i' by lia. replace (j' + 1 - m + m - 1) with j' by lia. lia.
      + intros (H1 & H2 & H3). exists (i + m - 1, j + m - 1). split; [f_equal; lia|].
        apply Hind'. repeat split; try lia.
        specialize (Hmax (i + m - 1, j + m - 1)). cbn [fst snd] in Hmax.
        assert (cs (i + m - 1) (j + m - 1) <= m) by (apply Hmax, Hcell; lia). lia.
  Qed.
End LCSub.
