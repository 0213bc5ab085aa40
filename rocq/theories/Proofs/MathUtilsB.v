(** prime_factors on all integers: it ends for all but 0, and what it gives for
    negative ones (C14) *)
From Verif.Model Require Import Base MathUtils.
From Verif.Proofs Require Import MathUtils.
Open Scope Z_scope.

Lemma round_bound q : q <> 0 -> 0 < Z.abs (round_binary64 q) < 2 * Z.abs q /\ 0 < Z.sgn (round_binary64 q) * Z.sgn q.
Proof.
  intros Hq. unfold round_binary64. cbv zeta. destruct (Z.ltb_spec (Z.abs q) (2 ^ 53)) as [|Hl].
  - split; [lia|]. destruct q; cbn; lia.
  - set (a := Z.abs q) in *. set (s := 2 ^ (Z.log2 a - 52)).
    assert (L53 : 53 <= Z.log2 a) by (apply Z.log2_le_pow2; lia).
    assert (Hs : 0 < s) by (apply Z.pow_pos_nonneg; lia).
    assert (Ha : s * 2 ^ 52 <= a). { unfold s. rewrite <- Z.pow_add_r by lia. replace (Z.log2 a - 52 + 52) with (Z.log2 a) by lia. apply Z.log2_spec. lia. }
    pose proof (Z.div_mod a s ltac:(lia)) as Dm. pose proof (Z.mod_pos_bound a s Hs) as Mb.
    assert (Hm : 1 <= a / s) by (apply Z.div_le_lower_bound; lia).
    set (m' := if _ : bool then a / s + 1 else a / s). assert (Hm' : 1 <= m' <= a / s + 1) by (unfold m'; destruct (_ || _)%bool; lia).
    assert (E : 0 < m' * s < 2 * a) by (change (2 ^ 52) with 4503599627370496 in Ha; nia).
    rewrite Z.abs_mul. replace (Z.abs (Z.sgn q)) with 1 by (destruct q; cbn; lia). rewrite (Z.abs_eq (m' * s)) by lia. split; [lia|].
    rewrite Z.sgn_mul, Z.sgn_sgn. rewrite (Z.sgn_pos (m' * s)) by lia. destruct q; cbn; lia.
Qed.
Lemma quotient_bound n f : 2 <= f -> n <> 0 -> n mod f = 0 ->
  0 < Z.abs (round_binary64 (n / f)) < Z.abs n /\ 0 < Z.sgn (round_binary64 (n / f)) * Z.sgn n.
Proof.
  intros Hf Hn Hm. pose proof (div_exact n f ltac:(lia) Hm) as E.
  assert (Hq : n / f <> 0) by nia. destruct (round_bound _ Hq) as [A B]. split; [nia|].
  assert (Hs : Z.sgn n = Z.sgn (n / f)) by (rewrite E at 1; rewrite Z.sgn_mul, (Z.sgn_pos f) by lia; lia). rewrite Hs. auto.
Qed.
Lemma halve_ends fuel : forall n fs, n <> 0 -> Z.abs n <= Z.of_nat fuel ->
  exists n' fs', halve_loop fuel n fs = Ok (n', fs') /\ 0 < Z.abs n' <= Z.abs n /\ 0 < Z.sgn n' * Z.sgn n /\ exists k, fs' = fs ++ repeat 2 k.
Proof.
  induction fuel as [|fuel IH]; intros n fs Hn Hf; [lia|]. cbn [halve_loop]. destruct (Z.eqb_spec (n mod 2) 0) as [E|E].
  - destruct (quotient_bound n 2 ltac:(lia) Hn E) as [A B]. set (m := round_binary64 (n / 2)) in *.
    destruct (IH m (fs ++ [2])) as (n' & fs' & E2 & H1 & H2 & k & Ek); [lia|lia|]. exists n', fs'. split; [auto|]. split; [lia|]. split.
    + destruct n, m, n'; cbn in *; lia.
    + exists (S k). rewrite Ek, <- app_assoc. reflexivity.
  - exists n, fs. split; [auto|]. split; [lia|]. split; [destruct n; cbn; lia|]. exists 0%nat. symmetry. apply app_nil_r.
Qed.
Lemma divide_ends f fuel : 2 <= f -> forall n fs, 0 < n -> n <= Z.of_nat fuel ->
  exists n' fs', divide_loop fuel f n fs = Ok (n', fs') /\ 0 < n' <= n.
Proof.
  intros Hf2. induction fuel as [|fuel IH]; intros n fs Hn Hf; [lia|]. cbn [divide_loop]. destruct (Z.eqb_spec (n mod f) 0) as [E|E].
  - destruct (quotient_bound n f Hf2 ltac:(lia) E) as [A B]. set (m := round_binary64 (n / f)) in *.
    assert (0 < m) by (destruct n, m; cbn in *; lia).
    destruct (IH m (fs ++ [f])) as (n' & fs' & E2 & H1); [lia|lia|]. exists n', fs'. split; [auto|]. lia.
  - exists n, fs. split; [auto|]. lia.
Qed.
Lemma factor_ends inner fuel : forall f n fs, 2 <= f -> 0 < n <= Z.of_nat inner -> n - f + 1 <= Z.of_nat fuel ->
  exists n' fs', factor_loop fuel inner f n fs = Ok (n', fs').
Proof.
  induction fuel as [|fuel IH]; intros f n fs Hf Hn Hfuel; cbn [factor_loop].
  - destruct (Z.leb_spec (f * f) n); [nia|]. eauto.
  - destruct (Z.leb_spec (f * f) n); [|eauto]. destruct (divide_ends f inner Hf n fs) as (n' & fs' & E & A); [lia|lia|].
    rewrite E. cbn [bind fst snd]. apply IH; lia.
Qed.

Lemma C14_terminates : forall (n : Z) (fuel : nat), n <> 0 -> Z.abs n <= Z.of_nat fuel ->
  exists fs, prime_factors fuel n = Ok fs.
Proof.
  intros n fuel Hn Hf. unfold prime_factors. destruct (halve_ends fuel n [] Hn Hf) as (m & fs & E & A & B & _). rewrite E. cbn [bind fst snd].
  destruct (Z.le_gt_cases m 0) as [Hm|Hm].
  - assert (X : factor_loop fuel fuel 3 m fs = Ok (m, fs)) by (destruct fuel; cbn [factor_loop]; destruct (Z.leb_spec (3 * 3) m); auto; lia).
    rewrite X. cbn [bind]. eauto.
  - destruct (factor_ends fuel fuel 3 m fs) as (m' & fs' & E2); [lia|lia|lia|]. rewrite E2. cbn [bind]. eauto.
Qed.

Lemma halve_negative fuel : forall n fs, - 2 ^ 53 <= n < 0 -> Z.abs n <= Z.of_nat fuel ->
  exists k m, halve_loop fuel n fs = Ok (m, fs ++ repeat 2 k) /\ n = 2 ^ Z.of_nat k * m /\ Z.odd m = true /\ m < 0.
Proof.
  induction fuel as [|fuel IH]; intros n fs Hn Hf; [lia|]. cbn [halve_loop]. destruct (Z.eqb_spec (n mod 2) 0) as [E|E].
  - pose proof (div_exact n 2 ltac:(lia) E) as D.
    assert (R : round_binary64 (n / 2) = n / 2) by (unfold round_binary64; destruct (Z.ltb_spec (Z.abs (n / 2)) (2 ^ 53)); auto; lia).
    rewrite R. destruct (IH (n / 2) (fs ++ [2])) as (k & m & E2 & A & B); [lia|lia|]. exists (S k), m.
    split; [rewrite E2, <- app_assoc; reflexivity|]. split; [|auto].
    rewrite Nat2Z.inj_succ, Z.pow_succ_r by lia. rewrite D at 1. rewrite A at 1. ring.
  - exists 0%nat, n. split; [cbn [repeat]; rewrite app_nil_r; auto|]. split; [change (2 ^ Z.of_nat 0) with 1; lia|]. split; [|lia].
    rewrite Zodd_mod. pose proof (Z.mod_pos_bound n 2 ltac:(lia)). replace (n mod 2) with 1 by lia. reflexivity.
Qed.
(** a negative number: one 2 for each time it can be halved, nothing else *)
Lemma C14_negative : forall (n : Z) (fuel : nat), - 2 ^ 53 <= n < 0 -> Z.abs n <= Z.of_nat fuel ->
  exists k m, prime_factors fuel n = Ok (repeat 2 k) /\ n = 2 ^ Z.of_nat k * m /\ Z.odd m = true.
Proof.
  intros n fuel Hn Hf. destruct (halve_negative fuel n [] Hn Hf) as (k & m & E & A & B & C). exists k, m. split; [|auto].
  unfold prime_factors. rewrite E. cbn [bind fst snd app].
  assert (X : factor_loop fuel fuel 3 m (repeat 2 k) = Ok (m, repeat 2 k)) by (destruct fuel; cbn [factor_loop]; destruct (Z.leb_spec (3 * 3) m); auto; lia).
  rewrite X. cbn [bind]. destruct (Z.gtb_spec m 1); [lia|auto].
Qed.
