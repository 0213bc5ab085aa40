From Verif.Model Require Import Base DP Levenshtein.
From Verif.Spec Require Import Lists Edit EditOps.
From Verif.Lib Require Import ListLib.
From Verif.Proofs Require Import Lcs ListUtils2 Levenshtein.
From Coq Require Import Permutation.

Section Edited.
  Context {A : Type}.
  Variables s t : list A.

  Definition pick (p : nat -> bool) : list A :=
    map snd (filter (fun q => p (fst q)) (combine (seq 0 (length t)) t)).
  Definition at_index (q : nat) : list A := match nth_error t q with Some y => [y] | None => [] end.

  Lemma pick_eq p : pick p = flat_map (fun q => if p q then at_index q else []) (seq 0 (length t)).
  Proof.
    unfold pick, at_index. clear s.
    assert (Hg : forall m k l, length l = m -> skipn k t = l ->
       map snd (filter (fun q => p (fst q)) (combine (seq k m) l)) =
       flat_map (fun q => if p q then match nth_error t q with Some y => [y] | None => [] end else []) (seq k m)).
    { induction m as [|m IH]; intros k l Hl Hk; destruct l as [|y l]; cbn in Hl; try lia; auto.
      cbn [seq combine filter flat_map fst].
      assert (E : nth_error t k = Some y).
      { rewrite <- (Nat.add_0_r k), <- nth_error_skipn, Hk. reflexivity. }
      rewrite E. assert (Hk' : skipn (S k) t = l).
      { replace (S k) with (k + 1) by lia. rewrite <- skipn_skipn', Hk. reflexivity. }
      destruct (p k); cbn [map app snd]; rewrite (IH (S k) l); auto; lia. }
    apply Hg; auto.
  Qed.

  Lemma pick_none p : (forall q, q < length t -> p q = false) -> pick p = [].
  Proof.
    intros Hp. rewrite pick_eq.
    assert (Hg : forall l, (forall q, In q l -> q < length t) ->
       flat_map (fun q => if p q then at_index q else []) l = []).
    { induction l as [|q l IH]; intros Hl; cbn; auto. rewrite Hp by (apply Hl; left; auto).
      apply IH. intros; apply Hl; right; auto. }
    apply Hg. intros q Hq; apply in_seq in Hq; lia.
  Qed.
  Lemma pick_ext p p' : (forall q, q < length t -> p q = p' q) -> pick p = pick p'.
  Proof.
    intros Hp. rewrite !pick_eq.
    assert (Hg : forall l, (forall q, In q l -> q < length t) ->
       flat_map (fun q => if p q then at_index q else []) l =
       flat_map (fun q => if p' q then at_index q else []) l).
    { induction l as [|q l IH]; intros Hl; cbn; auto. rewrite Hp by (apply Hl; left; auto).
      f_equal. apply IH. intros; apply Hl; right; auto. }
    apply Hg. intros q Hq; apply in_seq in Hq; lia.
  Qed.
  Lemma pick_snoc p j y :
    nth_error t j = Some y -> (forall q, p q = true -> q < j) ->
    pick (fun q => (q =? j) || p q) = pick p ++ [y].
  Proof.
    intros Ej Hp. rewrite !pick_eq. pose proof (nth_error_Some_lt _ _ _ Ej) as Hj.
    replace (length t) with (j + S (length t - S j)) by lia. rewrite seq_app. cbn [seq Nat.add].
    rewrite !flat_map_app. cbn [flat_map]. rewrite Nat.eqb_refl.
    assert (Hpj : p j = false) by (destruct (p j) eqn:E; auto; apply Hp in E; lia). rewrite Hpj.
    assert (Hz : forall l f, (forall q, In q l -> S j <= q) ->
       (forall q, S j <= q -> f q = p q) ->
       flat_map (fun q => if f q then at_index q else []) l = []).
    { induction l as [|q l IH]; intros f Hl Hfq; cbn; auto.
      rewrite Hfq by (apply Hl; left; auto).
      destruct (p q) eqn:E; [apply Hp in E; specialize (Hl q (or_introl eq_refl)); lia|].
      apply IH; auto. intros; apply Hl; right; auto. }
    rewrite (Hz (seq (S j) (length t - S j)) p); auto.
    2: { intros q Hq; apply in_seq in Hq; lia. }
    rewrite (Hz (seq (S j) (length t - S j)) (fun q => (q =? j) || p q)).
    2: { intros q Hq; apply in_seq in Hq; lia. }
    2: { intros q Hq. destruct (Nat.eqb_spec q j); [lia|auto]. }
    unfold at_index at 2. rewrite Ej. cbn [orb app]. rewrite app_nil_r. f_equal.
    assert (Hg : forall l, (forall q, In q l -> q < j) ->
       flat_map (fun q => if (q =? j) || p q then at_index q else []) l =
       flat_map (fun q => if p q then at_index q else []) l).
    { induction l as [|q l IH]; intros Hl; cbn; auto.
      destruct (Nat.eqb_spec q j) as [->|_]; [specialize (Hl j (or_introl eq_refl)); lia|].
      cbn [orb]. f_equal. apply IH. intros; apply Hl; right; auto. }
    apply Hg. intros q Hq; apply in_seq in Hq; lia.
  Qed.

  Definition at_pos (ops : list edit_op) (i : nat) : list A :=
    match nth_error s i with
    | None => []
    | Some x => if has_op_at ops DELETE i then []
                else match pick (has_op ops SUBSTITUTE i) with [] => [x] | ys => ys end
    end.
  Definition block ops i := pick (has_op ops INSERT i) ++ at_pos ops i.
  Definition part ops i := flat_map (block ops) (seq 0 i) ++ pick (has_op ops INSERT i).

  Lemma combine_seq_some (l : list A) : forall k,
    combine (seq k (length l + 1)) (map Some l ++ [None]) =
    map (fun i => (k + i, nth_error l i)) (seq 0 (length l + 1)).
  Proof.
    induction l as [|x l IH]; intros k; cbn.
    - rewrite Nat.add_0_r; auto.
    - rewrite Nat.add_0_r. f_equal. rewrite IH, <- seq_shift, map_map. apply map_ext.
      intros i; f_equal; lia.
  Qed.

  Lemma apply_ops_part ops : apply_ops ops s t = part ops (length s).
  Proof.
    unfold apply_ops, edited. rewrite (combine_seq_some s 0). cbn [Nat.add].
    rewrite flat_map_map'. rewrite seq_app, flat_map_app. cbn [seq flat_map Nat.add fst snd].
    assert (E : nth_error s (length s) = None) by (apply nth_error_None; auto).
    rewrite E. rewrite !app_nil_r. reflexivity.
  Qed.

  Lemma R_bounds i j O : R s t i j O ->
    (i <= length s /\ j <= length t) /\
    (forall p q, has_op O INSERT p q = true -> p <= i /\ q < j) /\
    (forall p, has_op_at O DELETE p = true -> p < i) /\
    (forall p q, has_op O SUBSTITUTE p q = true -> p < i /\ q < j).
  Proof.
    induction 1 as [|i j O x HR IH Ex Ey|i j O HR IH Hi Hj|i j O HR IH Hi|i j O HR IH Hj].
    - split; [lia|]. repeat split; discriminate.
    - destruct IH as ((H1 & H2) & H3 & H4 & H5).
      pose proof (nth_error_Some_lt _ _ _ Ex). pose proof (nth_error_Some_lt _ _ _ Ey).
      split; [lia|]. split; [|split].
      + intros p q Hp. apply H3 in Hp. lia.
      + intros p Hp. apply H4 in Hp. lia.
      + intros p q Hp. apply H5 in Hp. lia.
    - destruct IH as ((H1 & H2) & H3 & H4 & H5).
      split; [lia|]. split; [|split].
      + intros p q Hp. apply H3 in Hp. lia.
      + intros p Hp. apply H4 in Hp. lia.
      + intros p q Hp. apply orb_true_iff in Hp as [Hp|Hp]; [cbn in Hp; lia|]. apply H5 in Hp. lia.
    - destruct IH as ((H1 & H2) & H3 & H4 & H5).
      split; [lia|]. split; [|split].
      + intros p q Hp. apply H3 in Hp. lia.
      + intros p Hp. apply orb_true_iff in Hp as [Hp|Hp]; [cbn in Hp; lia|]. apply H4 in Hp. lia.
      + intros p q Hp. apply H5 in Hp. lia.
    - destruct IH as ((H1 & H2) & H3 & H4 & H5).
      split; [lia|]. split; [|split].
      + intros p q Hp. apply orb_true_iff in Hp as [Hp|Hp]; [cbn in Hp; lia|]. apply H3 in Hp. lia.
      + intros p Hp. apply H4 in Hp. lia.
      + intros p q Hp. apply H5 in Hp. lia.
  Qed.

  Lemma flat_map_ext_in' {X Y} (f g : X -> list Y) l :
    (forall x, In x l -> f x = g x) -> flat_map f l = flat_map g l.
  Proof.
    induction l as [|a l IH]; intros Hx; cbn; auto. rewrite Hx by (left; auto). f_equal.
    apply IH. intros; apply Hx; right; auto.
  Qed.

  Lemma block_other o O i : op_i o <> i -> block (o :: O) i = block O i.
  Proof.
    intros Hne.
    assert (H1 : forall k q, has_op (o :: O) k i q = has_op O k i q).
    { intros k q. unfold has_op. cbn [existsb].
      destruct (Nat.eqb_spec (op_i o) i) as [E|_]; [congruence|]. rewrite andb_false_r. reflexivity. }
    assert (H2 : forall k, has_op_at (o :: O) k i = has_op_at O k i).
    { intros k. unfold has_op_at. cbn [existsb].
      destruct (Nat.eqb_spec (op_i o) i) as [E|_]; [congruence|]. rewrite andb_false_r. reflexivity. }
    unfold block, at_pos. rewrite H2.
    rewrite (pick_ext (has_op (o :: O) INSERT i) (has_op O INSERT i)) by auto.
    rewrite (pick_ext (has_op (o :: O) SUBSTITUTE i) (has_op O SUBSTITUTE i)) by auto. reflexivity.
  Qed.

  Lemma R_part i j O : R s t i j O -> part O i = firstn j t.
  Proof.
    assert (Hsn : forall j y, nth_error t j = Some y -> firstn (S j) t = firstn j t ++ [y]).
    { intros j0 y Ey. rewrite <- (rev_involutive (firstn (S j0) t)), (firstn_S_rev _ _ _ Ey). cbn.
      rewrite rev_involutive. reflexivity. }
    induction 1 as [|i j O x HR IH Ex Ey|i j O HR IH Hi Hj|i j O HR IH Hi|i j O HR IH Hj].
    - unfold part. cbn. apply pick_none. auto.
    - pose proof (R_bounds _ _ _ HR) as (_ & HI & HD & HS).
      unfold part in *. rewrite seq_S, flat_map_app. cbn [flat_map Nat.add]. rewrite app_nil_r.
      unfold block at 2, at_pos. rewrite Ex.
      replace (has_op_at O DELETE i) with false.
      2: { destruct (has_op_at O DELETE i) eqn:E; auto. apply HD in E; lia. }
      rewrite (pick_none (has_op O SUBSTITUTE i)).
      2: { intros q _. destruct (has_op O SUBSTITUTE i q) eqn:E; auto. apply HS in E; lia. }
      rewrite (pick_none (has_op O INSERT (S i))).
      2: { intros q _. destruct (has_op O INSERT (S i) q) eqn:E; auto. apply HI in E; lia. }
      rewrite app_nil_r, app_assoc, IH, (Hsn j x Ey). reflexivity.
    - pose proof (R_bounds _ _ _ HR) as (_ & HI & HD & HS).
      destruct (nth_error_lt t j Hj) as [y Ey]. destruct (nth_error_lt s i Hi) as [x Ex].
      set (O' := EditOperation i j SUBSTITUTE :: O).
      unfold part in *. rewrite seq_S, flat_map_app. cbn [flat_map Nat.add]. rewrite app_nil_r.
      assert (E1 : flat_map (block O') (seq 0 i) = flat_map (block O) (seq 0 i)).
      { apply flat_map_ext_in'. intros p Hp. apply in_seq in Hp. apply block_other. cbn; lia. }
      rewrite E1.
      unfold block, at_pos. rewrite Ex.
      replace (has_op_at O' DELETE i) with false.
      2: { unfold O'. cbn. destruct (has_op_at O DELETE i) eqn:E; auto. apply HD in E; lia. }
      rewrite (pick_ext (has_op O' INSERT i) (has_op O INSERT i)) by (intros; reflexivity).
      rewrite (pick_ext (has_op O' SUBSTITUTE i) (fun q => (q =? j) || false)).
      2: { intros q _. unfold O', has_op. cbn [existsb op_i op_j is_op op_t]. rewrite Nat.eqb_refl. cbn [andb].
           replace (existsb _ O) with false; [rewrite Nat.eqb_sym; auto|].
           symmetry. destruct (existsb _ O) eqn:E; auto. apply HS in E; lia. }
      rewrite (pick_snoc (fun _ => false) j y Ey) by discriminate.
      rewrite (pick_none (fun _ => false)) by auto. cbn [app].
      rewrite (pick_none (has_op O' INSERT (S i))).
      2: { intros q _. destruct (has_op O' INSERT (S i) q) eqn:E; auto. apply HI in E; lia. }
      rewrite app_nil_r, app_assoc. fold (block O). rewrite (Hsn j y Ey), <- IH. reflexivity.
    - pose proof (R_bounds _ _ _ HR) as (_ & HI & HD & HS).
      destruct (nth_error_lt s i Hi) as [x Ex].
      set (O' := EditOperation i j DELETE :: O).
      unfold part in *. rewrite seq_S, flat_map_app. cbn [flat_map Nat.add]. rewrite app_nil_r.
      assert (E1 : flat_map (block O') (seq 0 i) = flat_map (block O) (seq 0 i)).
      { apply flat_map_ext_in'. intros p Hp. apply in_seq in Hp. apply block_other. cbn; lia. }
      rewrite E1.
      unfold block, at_pos. rewrite Ex.
      replace (has_op_at O' DELETE i) with true by (unfold O'; cbn; rewrite Nat.eqb_refl; auto).
      rewrite (pick_ext (has_op O' INSERT i) (has_op O INSERT i)) by (intros; reflexivity).
      rewrite (pick_none (has_op O' INSERT (S i))).
      2: { intros q _. destruct (has_op O' INSERT (S i) q) eqn:E; auto. apply HI in E; lia. }
      rewrite !app_nil_r. rewrite <- IH. reflexivity.
    - pose proof (R_bounds _ _ _ HR) as (_ & HI & HD & HS).
      destruct (nth_error_lt t j Hj) as [y Ey].
      set (O' := EditOperation i j INSERT :: O).
      unfold part in *.
      assert (E1 : flat_map (block O') (seq 0 i) = flat_map (block O) (seq 0 i)).
      { apply flat_map_ext_in'. intros p Hp. apply in_seq in Hp. apply block_other. cbn; lia. }
      rewrite E1.
      rewrite (pick_ext (has_op O' INSERT i) (fun q => (q =? j) || has_op O INSERT i q)).
      2: { intros q _. unfold O'; cbn. rewrite Nat.eqb_refl, (Nat.eqb_sym j q). reflexivity. }
      rewrite (pick_snoc (has_op O INSERT i) j y Ey).
      2: { intros q Hq. apply HI in Hq; lia. }
      rewrite app_assoc, IH, (Hsn j y Ey). reflexivity.
  Qed.

  Lemma apply_ops_perm O O' : Permutation O O' -> apply_ops O s t = apply_ops O' s t.
  Proof.
    intros HP.
    assert (HE : forall f, existsb f O = existsb f O').
    { intros f. destruct (existsb f O) eqn:E; symmetry.
      - apply existsb_exists in E as (o & Ho & Ef). apply existsb_exists. exists o; split; auto.
        eapply Permutation_in; eauto.
      - apply not_true_is_false. intros E'. apply existsb_exists in E' as (o & Ho & Ef).
        assert (existsb f O = true); [|congruence]. apply existsb_exists. exists o; split; auto.
        eapply Permutation_in; [apply Permutation_sym|]; eauto. }
    rewrite !apply_ops_part. unfold part. f_equal.
    - apply flat_map_ext_in'. intros i _. unfold block, at_pos. f_equal.
      + apply pick_ext. intros; apply HE.
      + destruct (nth_error s i); auto. unfold has_op_at. rewrite HE.
        rewrite (pick_ext (has_op O SUBSTITUTE i) (has_op O' SUBSTITUTE i)); auto. intros; apply HE.
    - apply pick_ext. intros; apply HE.
  Qed.
End Edited.

Theorem levenshtein_unit_ok {A} `{Eq A} (s t : list A) fuel :
  (Z.of_nat (length s) <= 100000)%Z -> (Z.of_nat (length t) <= 100000)%Z ->
  length s + length t <= fuel ->
  exists c ops, levenshtein_with_backtrace fuel s t 1 1 1 = Ok (c, ops) /\
    cheapest 1 1 1 s t c /\ Z.of_nat (length ops) = c /\ apply_ops ops s t = t.
Proof.
  intros Hs Ht Hf. unfold levenshtein_with_backtrace, backtrace.
  destruct (backtrace_loop_ok s t Hs Ht fuel (length s) (length t) []) as (r & O & E & HP & HR & HL); auto.
  rewrite E, (lev_entry 1 s t) by auto. cbn [bind]. rewrite !firstn_all in *.
  eexists; exists r. split; [reflexivity|]. split; [apply lv_cheapest; lia|]. split.
  - rewrite (Permutation_length HP). auto.
  - cbn in HP. rewrite (apply_ops_perm s t r O HP), apply_ops_part, (R_part s t _ _ _ HR).
    apply firstn_all.
Qed.

(** the cost alone, any length *)
Theorem levenshtein_cost_ok {A} `{Eq A} (s t : list A) fuel ops c :
  levenshtein_with_backtrace fuel s t 1 1 1 = Ok (c, ops) -> cheapest 1 1 1 s t c.
Proof.
  unfold levenshtein_with_backtrace. destruct (backtrace _ _ _ _); cbn; [|discriminate].
  destruct (cost_entry_cheapest 1 ltac:(lia) s t) as (c' & -> & Hc). cbn. intros E; injection E as <- _. auto.
Qed.

(** substitution may have any non-negative price *)
Theorem levenshtein_cost_sub {A} `{Eq A} (s t : list A) fuel ops sub c :
  (0 <= sub)%Z ->
  levenshtein_with_backtrace fuel s t 1 1 sub = Ok (c, ops) -> cheapest 1 1 sub s t c.
Proof.
  intros Hsub. unfold levenshtein_with_backtrace. destruct (backtrace _ _ _ _); cbn; [|discriminate].
  destruct (cost_entry_cheapest sub Hsub s t) as (c' & -> & Hc). cbn. intros E; injection E as <- _. auto.
Qed.

(** ** non-termination: inserting more than 100001 symbols into nothing *)
Theorem backtrace_diverges {A} `{Eq A} (t : list A) sub :
  (100002 <= Z.of_nat (length t))%Z ->
  forall fuel, levenshtein_with_backtrace fuel [] t 1 1 sub = Err OutOfFuel.
Proof.
  intros Ht fuel. unfold levenshtein_with_backtrace, backtrace. cbn [length].
  set (C := compute_cost_matrix [] t 1 1 sub).
  assert (He : forall j, j <= length t -> entry C 0 j = Ok (Z.of_nat j)).
  { intros j Hj. unfold C, compute_cost_matrix, entry, dp_matrix. cbn [nth_error].
    rewrite nth_error_map, nth_error_seq. destruct (Nat.ltb_spec j (length t + 1)); [|lia]. reflexivity. }
  destruct (length t) as [|j] eqn:Ej; [lia|].
  assert (Hloop : forall edits, backtrace_loop fuel C 0 (S j) edits = Err OutOfFuel).
  { clear Ej. induction fuel as [|fuel IH]; intros edits; [reflexivity|].
    cbn [backtrace_loop Nat.eqb andb orb negb bind].
    replace (S j - 1) with j by lia. rewrite !He by lia. cbn [bind]. unfold MAX_COST.
    rewrite Z.min_l by lia.
    destruct (Z.eqb_spec 100000 (Z.of_nat (S j))); [lia|].
    destruct (Z.eqb_spec 100000 (Z.of_nat j)); [lia|]. apply IH. }
  rewrite Hloop. reflexivity.
Qed.

(** ** findings *)
From Coq Require Import Sorted.
Theorem operations_unordered :
  exists (s1 s2 : list nat) fuel c ops,
    levenshtein_with_backtrace fuel s1 s2 1 1 1 = Ok (c, ops) /\
    ~ StronglySorted (fun o p => op_i o <= op_i p) ops /\
    ~ StronglySorted (fun o p => op_i o >= op_i p) ops.
Proof.
  exists [1;2;3], [4;5;6], 10, 3%Z, [EditOperation 0 0 SUBSTITUTE; EditOperation 2 2 SUBSTITUTE; EditOperation 1 1 SUBSTITUTE].
  split; [reflexivity|]. split; intros Hs.
  - apply StronglySorted_inv in Hs as [Hs _]. apply StronglySorted_inv in Hs as [_ Hs].
    inversion Hs; cbn in *; lia.
  - apply StronglySorted_inv in Hs as [_ Hs]. inversion Hs; cbn in *; lia.
Qed.

Lemma step_insert_only ins del sub {A} (s t : list A) c :
  (0 <= ins)%Z -> (0 <= del)%Z -> (0 <= sub)%Z ->
  edit_path ins del sub s t c -> (0 <= c)%Z /\ (length s < length t -> (ins <= c)%Z).
Proof.
  intros Hi Hd Hs HP. induction HP as [s|s t u c d HP [IH1 IH2] HS].
  - split; lia.
  - destruct HS as [p q y|p q x|p q x y]; rewrite ?app_length in *; cbn [length] in *;
      (split; [lia|]; intros; try (assert (length s < length p + S (length q)) by lia); try lia).
Qed.
Theorem weighted_cost_wrong :
  exists (s1 s2 : list nat) fuel ins del sub c ops,
    (0 <= ins)%Z /\ (0 <= del)%Z /\ (0 <= sub)%Z /\
    levenshtein_with_backtrace fuel s1 s2 ins del sub = Ok (c, ops) /\
    ~ cheapest ins del sub s1 s2 c.
Proof.
  exists [], [1], 5, 5%Z, 1%Z, 1%Z, 1%Z, [EditOperation 0 0 INSERT].
  repeat split; try lia. intros [HP _].
  apply step_insert_only in HP as [_ HP]; try lia. cbn in HP. lia.
Qed.
