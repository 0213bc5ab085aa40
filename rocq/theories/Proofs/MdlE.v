(** Kraft's inequality fails for the universal code over all integers (C91) *)
From Coq Require Import Reals ZArith Lra Lia List Arith.
From Verif.Model Require Import Base Mdl.
From Verif.Spec Require Import MdlSpec.
From Verif.Proofs Require Import MdlA MdlB.
Open Scope R_scope.
Open Scope list_scope.

Lemma ln_le_sub x : 0 < x -> ln x <= x - 1.
Proof. intros H. pose proof (exp_ineq1_le (ln x)) as E. rewrite exp_ln in E by auto. lra. Qed.
(** bounds of logarithms by powers *)
Lemma lg_up a b p q : (0 < a)%Z -> (0 < b)%Z -> (0 < q)%Z -> (0 <= p)%Z -> (a ^ q <=? 2 ^ p * b ^ q)%Z = true -> lg (IZR a / IZR b) <= IZR p / IZR q.
Proof.
  intros Ha Hb Hq Hp H. apply Z.leb_le in H. assert (Ra : 0 < IZR a) by (apply (IZR_lt 0); auto). assert (Rb : 0 < IZR b) by (apply (IZR_lt 0); auto). assert (Rq : 0 < IZR q) by (apply (IZR_lt 0); auto).
  apply IZR_le in H. rewrite mult_IZR in H. replace q with (Z.of_nat (Z.to_nat q)) in H by lia. replace p with (Z.of_nat (Z.to_nat p)) in H by lia.
  rewrite <- !pow_IZR in H. assert (H1 : ln (IZR a ^ Z.to_nat q) <= ln (2 ^ Z.to_nat p * IZR b ^ Z.to_nat q)).
  { destruct H as [H|H]; [left; apply ln_increasing; auto; apply pow_lt; auto|right; f_equal; auto]. }
  rewrite ln_mult in H1 by (apply pow_lt; lra). rewrite !ln_pow in H1 by lra. rewrite !INR_IZR_INZ in H1. replace (Z.of_nat (Z.to_nat q)) with q in H1 by lia. replace (Z.of_nat (Z.to_nat p)) with p in H1 by lia.
  pose proof ln2_pos. assert (E : lg (IZR a / IZR b) = (ln (IZR a) - ln (IZR b)) / ln 2).
  { unfold lg. unfold Rdiv at 2. rewrite ln_mult, ln_Rinv by (auto; apply Rinv_0_lt_compat; auto). auto. }
  rewrite E. apply Rmult_le_reg_r with (ln 2 * IZR q); [apply Rmult_lt_0_compat; auto|].
  replace ((ln (IZR a) - ln (IZR b)) / ln 2 * (ln 2 * IZR q)) with (IZR q * ln (IZR a) - IZR q * ln (IZR b)) by (field; lra).
  replace (IZR p / IZR q * (ln 2 * IZR q)) with (IZR p * ln 2) by (field; lra). lra.
Qed.
Lemma ln_sq k a b : 0 < a -> 0 <= k -> a * a <= b -> forall x, x <= k * ln a -> x <= k / 2 * ln b.
Proof.
  intros Ha Hk H x Hx. assert (L : ln (a * a) <= ln b). { assert (0 < a * a) by (apply Rmult_lt_0_compat; auto). destruct H as [H|H]; [left; apply ln_increasing; auto|right; f_equal; auto]. }
  rewrite ln_mult in L by auto. assert (k * (ln a + ln a) <= k * ln b) by (apply Rmult_le_compat_l; auto). lra.
Qed.
Lemma ln2_low : 6929 / 10000 <= ln 2.
Proof.
  assert (H : 6929 / 10000 <= 1024 * ln (10240000 / 10233071)).
  { assert (H2 : ln (10233071 / 10240000) <= 10233071 / 10240000 - 1) by (apply ln_le_sub; lra).
    unfold Rdiv in *. rewrite ln_mult, ln_Rinv in * by lra. lra. }
  assert (H0 : 6929 / 10000 <= 1024 * ln (1000677119 / 1000000000)).
  { assert (ln (10240000 / 10233071) <= ln (1000677119 / 1000000000)) by (left; apply ln_increasing; lra). lra. }
  apply (ln_sq _ _ (1001354697 / 1000000000)) in H0 as H1; [|lra|lra|lra].
  apply (ln_sq _ _ (1002711230 / 1000000000)) in H1 as H2; [|lra|lra|lra].
  apply (ln_sq _ _ (1005429811 / 1000000000)) in H2 as H3; [|lra|lra|lra].
  apply (ln_sq _ _ (1010889105 / 1000000000)) in H3 as H4; [|lra|lra|lra].
  apply (ln_sq _ _ (1021896783 / 1000000000)) in H4 as H5; [|lra|lra|lra].
  apply (ln_sq _ _ (1044273036 / 1000000000)) in H5 as H6; [|lra|lra|lra].
  apply (ln_sq _ _ (1090506174 / 1000000000)) in H6 as H7; [|lra|lra|lra].
  apply (ln_sq _ _ (1189203716 / 1000000000)) in H7 as H8; [|lra|lra|lra].
  apply (ln_sq _ _ (1414205479 / 1000000000)) in H8 as H9; [|lra|lra|lra].
  apply (ln_sq _ _ (2000000000 / 1000000000)) in H9 as H10; [|lra|lra|lra].
  replace (2000000000 / 1000000000) with 2 in H10 by lra. lra.
Qed.

(** towers of powers of two *)
Fixpoint tower (j : nat) : nat := match j with O => 1%nat | S j' => (2 ^ tower j')%nat end.
Lemma tower_pos j : (1 <= tower j)%nat.
Proof. destruct j; cbn [tower]; [lia|]. pose proof (Nat.pow_nonzero 2 (tower j) ltac:(lia)). lia. Qed.
Lemma tower_up j : (tower j < tower (S j))%nat.
Proof. cbn [tower]. apply Nat.pow_gt_lin_r. lia. Qed.
Lemma lg_tower j : lg (INR (tower (S j))) = INR (tower j).
Proof. cbn [tower]. rewrite pow_INR. change (INR 2) with (1 + 1). replace (1 + 1) with 2 by lra. apply lg_pow2. Qed.
Lemma lgs_tower i : forall j, lgs i (INR (tower (i + j))) = INR (tower j).
Proof. induction i as [|i IH]; intros j; [auto|]. rewrite lgs_succ. change (S i + j)%nat with (S (i + j)). rewrite lg_tower. apply IH. Qed.
Lemma lgs_tower0 j : lgs j (INR (tower j)) = 1.
Proof. pose proof (lgs_tower j 0) as H. rewrite Nat.add_0_r in H. exact H. Qed.
Section B.
Variables (j n : nat).
Hypothesis Hn : (tower j <= n < tower (S j))%nat.
Let x := INR n.
Lemma x_low : INR (tower j) <= x. Proof. apply le_INR. lia. Qed.
Lemma lgs_low i : (i <= j)%nat -> 1 <= lgs i x.
Proof.
  intros Hi. replace j with (i + (j - i))%nat in Hn by lia.
  assert (Hp : forall i', (1 <= i' <= i)%nat -> 0 < lgs i' (INR (tower (i + (j - i))))).
  { intros i' H'. replace (i + (j - i))%nat with (i' + (j - i'))%nat by lia. rewrite lgs_tower. apply lt_0_INR. pose proof (tower_pos (j - i')). lia. }
  assert (M := lgs_mono (INR (tower (i + (j - i)))) x ltac:(apply lt_0_INR; pose proof (tower_pos (i + (j - i))); lia) ltac:(apply le_INR; lia) i Hp i ltac:(lia)).
  rewrite lgs_tower in M. pose proof (tower_pos (j - i)) as T. apply le_INR in T. change (INR 1) with 1 in T. lra.
Qed.
Lemma lgs_high y : x <= y -> y <= INR (tower (S j)) -> lgs (S j) y <= 1 /\ forall i, (i <= S j)%nat -> lgs i x <= lgs i y.
Proof.
  intros Hxy Hy. assert (Hx : 0 < x) by (apply lt_0_INR; pose proof (tower_pos j); lia).
  assert (M : forall i, (i <= S j)%nat -> lgs i x <= lgs i y).
  { apply lgs_mono; auto. intros i Hi. pose proof (lgs_low i ltac:(lia)). lra. }
  split; [|auto]. rewrite <- (lgs_tower0 (S j)). apply (lgs_mono y (INR (tower (S j))) ltac:(lra) Hy j); [|lia].
  intros i Hi. pose proof (lgs_low i ltac:(lia)). pose proof (M i ltac:(lia)). lra.
Qed.
Lemma weight_exact L : universal_code c0 (Z.of_nat n) L -> Rpower 2 (- L) = / c0 * / P (S j) x.
Proof.
  intros C. assert (Ex : IZR (Z.of_nat n) = x) by (unfold x; rewrite INR_IZR_INZ; auto).
  assert (Hc : 0 < c0) by (unfold c0; lra). assert (Hn1 : (1 <= Z.of_nat n)%Z) by (pose proof (tower_pos j); lia).
  destruct (lgs_high x ltac:(lra) ltac:(apply le_INR; lia)) as [Hh _].
  destruct (Rle_lt_dec (lgs (S j) x) 0) as [H0|H0].
  - rewrite (code_weight c0 (Z.of_nat n) L Hc Hn1 C j); rewrite ?Ex; [| |auto].
    + cbn [P]. assert (E1 : lgs j x = 1).
      { pose proof (lgs_low j ltac:(lia)) as H1. destruct (Rle_lt_dec (lgs j x) 1) as [|H2]; [lra|]. apply lg_pos in H2. cbn [lgs] in H0. lra. }
      rewrite E1, Rmult_1_r. auto.
    + intros i Hi. rewrite ?Ex. pose proof (lgs_low i ltac:(lia)). lra.
  - rewrite (code_weight c0 (Z.of_nat n) L Hc Hn1 C (S j)); rewrite ?Ex; [auto| |].
    + intros i Hi. rewrite ?Ex. destruct (Nat.eq_dec i (S j)) as [->|]; [auto|]. pose proof (lgs_low i ltac:(lia)). lra.
    + change (lgs (S (S j)) x) with (lg (lgs (S j) x)). rewrite <- lg_1. apply lg_le; auto.
Qed.
End B.
Lemma weight_up k y : (forall i, (i < k)%nat -> 0 < lgs i y) -> (ln 2) ^ k * (lgs k (y + 1) - lgs k y) <= / P k y.
Proof.
  pose proof ln2_pos as Hl. induction k as [|k IH]; intros H.
  - cbn. rewrite Rinv_1. lra.
  - specialize (IH ltac:(intros; apply H; lia)). destruct (weight_step k y ltac:(intros; apply H; lia)) as (_ & M & _). specialize (M k ltac:(lia)).
    assert (Hk : 0 < lgs k y) by (apply H; lia). assert (HP : 0 < P k y) by (apply P_pos; intros; apply H; lia).
    cbn [P pow lgs]. set (a := lgs k y) in *. set (b := lgs k (y + 1)) in *.
    assert (G : ln 2 * (lg b - lg a) <= (b - a) / a).
    { replace (ln 2 * (lg b - lg a)) with (ln b - ln a) by (unfold lg; field; lra).
      assert (E : ln b - ln a = ln (b / a)) by (unfold Rdiv; rewrite ln_mult, ln_Rinv by (auto; try apply Rinv_0_lt_compat; lra); lra).
      rewrite E. replace ((b - a) / a) with (b / a - 1) by (field; lra). apply ln_le_sub. apply Rdiv_lt_0_compat; lra. }
    assert (Q : 0 < ln 2 ^ k) by (apply pow_lt; auto).
    replace (ln 2 * ln 2 ^ k * (lg b - lg a)) with (ln 2 ^ k * (ln 2 * (lg b - lg a))) by ring.
    apply Rle_trans with (ln 2 ^ k * ((b - a) / a)); [apply Rmult_le_compat_l; lra|].
    replace (ln 2 ^ k * ((b - a) / a)) with (ln 2 ^ k * (b - a) * / a) by (field; lra).
    rewrite Rinv_mult. apply Rmult_le_compat_r; [left; apply Rinv_0_lt_compat; auto|auto].
Qed.

Section Sum.
Variable code : Z -> R.
Variable N : nat.
Hypothesis Hcode : forall n, (1 <= n <= Z.of_nat N)%Z -> universal_code c0 n (code n).
Notation f := (fun n => Rpower 2 (- code n)).
Lemma block j : (tower (S j) <= N + 1)%nat -> total f (tower j - 1) + / c0 * ln 2 ^ S j <= total f (tower (S j) - 1).
Proof.
  intros HN. assert (G : forall m, (tower j - 1 + m <= tower (S j) - 1)%nat ->
    total f (tower j - 1) + / c0 * (ln 2 ^ S j * lgs (S j) (INR (tower j + m))) <= total f (tower j - 1 + m)).
  { induction m as [|m IH]; intros Hm.
    - rewrite !Nat.add_0_r. cbn [lgs]. rewrite lgs_tower0, lg_1. lra.
    - specialize (IH ltac:(lia)). pose proof (tower_pos j) as Tp. replace (tower j - 1 + S m)%nat with (S (tower j - 1 + m)) by lia. rewrite total_S.
      set (n := (tower j + m)%nat) in *. replace (S (tower j - 1 + m)) with n by (unfold n; lia).
      assert (Hn : (tower j <= n < tower (S j))%nat) by (unfold n; lia).
      rewrite (weight_exact j n Hn (code (Z.of_nat n))) by (apply Hcode; unfold n in *; lia).
      assert (U := weight_up (S j) (INR n) ltac:(intros i Hi; pose proof (lgs_low j n Hn i ltac:(lia)); lra)).
      replace (INR (tower j + S m)) with (INR n + 1) by (unfold n; rewrite <- S_INR; f_equal; lia).
      assert (Hc : 0 < / c0) by (apply Rinv_0_lt_compat; unfold c0; lra).
      apply (Rmult_le_compat_l (/ c0)) in U; [|lra]. lra. }
  specialize (G (tower (S j) - tower j)%nat). pose proof (tower_up j). pose proof (tower_pos j).
  replace (tower j - 1 + (tower (S j) - tower j))%nat with (tower (S j) - 1)%nat in G by lia.
  replace (tower j + (tower (S j) - tower j))%nat with (tower (S j)) in G by lia. rewrite lgs_tower0 in G.
  specialize (G ltac:(lia)). lra.
Qed.
Lemma blocks j m : (tower (j + m) <= N + 1)%nat ->
  total f (tower j - 1) + / c0 * sum_R (map (fun i => ln 2 ^ S i) (seq j m)) <= total f (tower (j + m) - 1).
Proof.
  induction m as [|m IH]; intros H.
  - rewrite Nat.add_0_r. cbn. lra.
  - pose proof (tower_up (j + m)). replace (j + S m)%nat with (S (j + m)) in * by lia. specialize (IH ltac:(lia)).
    assert (B := block (j + m) H). rewrite seq_S, map_app, sum_R_app. cbn [map sum_R fold_right]. lra.
Qed.

Lemma small_weights : (15 <= N)%nat -> 21080 / 10000 * / c0 <= total f (tower 3 - 1).
Proof.
  intros HN. assert (Hc : 0 < / c0) by (apply Rinv_0_lt_compat; unfold c0; lra).
  assert (A : forall j n, (tower j <= n < tower (S j))%nat -> (n <= 15)%nat -> f (Z.of_nat n) = / c0 * / P (S j) (INR n)).
  { intros j n H1 H2. apply weight_exact; auto. apply Hcode. pose proof (tower_pos j). lia. }
  assert (T0 : tower 0 = 1%nat) by auto. assert (T1 : tower 1 = 2%nat) by auto. assert (T2 : tower 2 = 4%nat) by auto. assert (T3 : tower 3 = 16%nat) by auto.
  assert (B2 : forall n u, (2 <= n <= 3)%nat -> 0 < u -> lg (INR n) <= u -> / c0 * / (INR n * u) <= f (Z.of_nat n)).
  { intros n u H1 Hu H2. rewrite (A 1%nat n) by lia. apply Rmult_le_compat_l; [lra|]. cbn [P lgs]. rewrite Rmult_1_l.
    assert (0 < INR n) by (apply lt_0_INR; lia). pose proof (lgs_low 1 n ltac:(lia) 1 ltac:(lia)) as L1. cbn [lgs] in L1.
    apply Rinv_le_contravar; [apply Rmult_lt_0_compat; lra|]. apply Rmult_le_compat_l; lra. }
  assert (B3 : forall n u v, (4 <= n <= 15)%nat -> lg (INR n) <= u -> lg u <= v -> / c0 * / (INR n * u * v) <= f (Z.of_nat n)).
  { intros n u v H1 H2 H3. rewrite (A 2%nat n) by lia. apply Rmult_le_compat_l; [lra|]. cbn [P lgs]. rewrite Rmult_1_l.
    assert (0 < INR n) by (apply lt_0_INR; lia). pose proof (lgs_low 2 n ltac:(lia) 1 ltac:(lia)) as L1. pose proof (lgs_low 2 n ltac:(lia) 2 ltac:(lia)) as L2. cbn [lgs] in L1, L2.
    assert (lg (lg (INR n)) <= v). { apply Rle_trans with (lg u); [apply lg_le; lra|auto]. }
    apply Rinv_le_contravar; [apply Rmult_lt_0_compat; [apply Rmult_lt_0_compat; lra|lra]|]. apply Rmult_le_compat; try lra; [apply Rmult_le_pos; lra|]. apply Rmult_le_compat_l; lra. }
  assert (W1 : / c0 * / (1 * 1) <= f (Z.of_nat 1)) by (rewrite (A 0%nat 1%nat) by lia; cbn [P lgs INR]; rewrite Rmult_1_l; right; auto).
  assert (W2 : / c0 * / (INR 2 * 1) <= f (Z.of_nat 2)) by (apply B2; [lia|lra|change (INR 2) with (1 + 1); replace (1 + 1) with 2 by lra; rewrite lg_2; lra]).
  assert (U : forall n p q, (0 < n)%nat -> (0 <= p)%Z -> (0 < q)%Z -> (Z.of_nat n ^ q <=? 2 ^ p * 1 ^ q)%Z = true -> lg (INR n) <= IZR p / IZR q).
  { intros n p q Hn0 Hp Hq H. rewrite INR_IZR_INZ. replace (IZR (Z.of_nat n)) with (IZR (Z.of_nat n) / IZR 1) by (unfold Rdiv; rewrite Rinv_1; ring). apply (lg_up (Z.of_nat n) 1 p q); auto; lia. }
  assert (W3 : / c0 * / (INR 3 * (46 / 29)) <= f (Z.of_nat 3)) by (apply B2; [lia|lra|apply U; [lia|lia|lia|vm_compute; reflexivity]]).
  assert (W4 : / c0 * / (INR 4 * (2 / 1) * (1 / 1)) <= f (Z.of_nat 4)) by (apply B3; [lia|apply U; [lia|lia|lia|vm_compute; reflexivity]|apply (lg_up 2 1 1 1); [lia|lia|lia|lia|vm_compute; reflexivity]]).
  assert (W5 : / c0 * / (INR 5 * (72 / 31) * (45 / 37)) <= f (Z.of_nat 5)) by (apply B3; [lia|apply U; [lia|lia|lia|vm_compute; reflexivity]|apply (lg_up 72 31 45 37); [lia|lia|lia|lia|vm_compute; reflexivity]]).
  assert (W6 : / c0 * / (INR 6 * (75 / 29) * (48 / 35)) <= f (Z.of_nat 6)) by (apply B3; [lia|apply U; [lia|lia|lia|vm_compute; reflexivity]|apply (lg_up 75 29 48 35); [lia|lia|lia|lia|vm_compute; reflexivity]]).
  assert (W7 : / c0 * / (INR 7 * (73 / 26) * (3 / 2)) <= f (Z.of_nat 7)) by (apply B3; [lia|apply U; [lia|lia|lia|vm_compute; reflexivity]|apply (lg_up 73 26 3 2); [lia|lia|lia|lia|vm_compute; reflexivity]]).
  assert (W8 : / c0 * / (INR 8 * (3 / 1) * (46 / 29)) <= f (Z.of_nat 8)) by (apply B3; [lia|apply U; [lia|lia|lia|vm_compute; reflexivity]|apply (lg_up 3 1 46 29); [lia|lia|lia|lia|vm_compute; reflexivity]]).
  assert (W9 : / c0 * / (INR 9 * (111 / 35) * (5 / 3)) <= f (Z.of_nat 9)) by (apply B3; [lia|apply U; [lia|lia|lia|vm_compute; reflexivity]|apply (lg_up 111 35 5 3); [lia|lia|lia|lia|vm_compute; reflexivity]]).
  assert (W10 : / c0 * / (INR 10 * (103 / 31) * (26 / 15)) <= f (Z.of_nat 10)) by (apply B3; [lia|apply U; [lia|lia|lia|vm_compute; reflexivity]|apply (lg_up 103 31 26 15); [lia|lia|lia|lia|vm_compute; reflexivity]]).
  assert (W11 : / c0 * / (INR 11 * (128 / 37) * (43 / 24)) <= f (Z.of_nat 11)) by (apply B3; [lia|apply U; [lia|lia|lia|vm_compute; reflexivity]|apply (lg_up 128 37 43 24); [lia|lia|lia|lia|vm_compute; reflexivity]]).
  assert (W12 : / c0 * / (INR 12 * (104 / 29) * (59 / 32)) <= f (Z.of_nat 12)) by (apply B3; [lia|apply U; [lia|lia|lia|vm_compute; reflexivity]|apply (lg_up 104 29 59 32); [lia|lia|lia|lia|vm_compute; reflexivity]]).
  assert (W13 : / c0 * / (INR 13 * (137 / 37) * (17 / 9)) <= f (Z.of_nat 13)) by (apply B3; [lia|apply U; [lia|lia|lia|vm_compute; reflexivity]|apply (lg_up 137 37 17 9); [lia|lia|lia|lia|vm_compute; reflexivity]]).
  assert (W14 : / c0 * / (INR 14 * (99 / 26) * (56 / 29)) <= f (Z.of_nat 14)) by (apply B3; [lia|apply U; [lia|lia|lia|vm_compute; reflexivity]|apply (lg_up 99 26 56 29); [lia|lia|lia|lia|vm_compute; reflexivity]]).
  assert (W15 : / c0 * / (INR 15 * (43 / 11) * (61 / 31)) <= f (Z.of_nat 15)) by (apply B3; [lia|apply U; [lia|lia|lia|vm_compute; reflexivity]|apply (lg_up 43 11 61 31); [lia|lia|lia|lia|vm_compute; reflexivity]]).
  clear A B2 B3 U. rewrite T3. unfold total. change (16 - 1)%nat with 15%nat. cbn [seq map sum_R fold_right].
  rewrite INR_IZR_INZ in *. cbn [Z.of_nat Pos.of_succ_nat Pos.succ] in *.
  generalize dependent (/ c0). intros ic. intros. lra.
Qed.
End Sum.
Lemma tail_weight : 7499 / 10000 <= sum_R (map (fun i => ln 2 ^ S i) (seq 3 20)).
Proof.
  apply Rle_trans with (sum_R (map (fun i => (6929 / 10000) ^ S i) (seq 3 20))).
  - cbn [seq map sum_R fold_right pow]. lra.
  - apply sum_mono. intros i _. apply pow_incr. pose proof ln2_low. lra.
Qed.
Lemma big_tower : exists m T, T = tower (3 + m) /\ (16 <= T)%nat /\ m = 20%nat.
Proof.
  assert (G : forall m, (16 <= tower (3 + m))%nat).
  { induction m as [|m IH]; [rewrite Nat.add_0_r; cbn; lia|]. pose proof (tower_up (3 + m)). replace (3 + S m)%nat with (S (3 + m)) by lia. lia. }
  remember 20%nat as m eqn:Hm. exists m, (tower (3 + m)). split; [auto|split; [apply G|auto]].
Qed.
Lemma finite_choice (Q : Z -> R -> Prop) N : (forall n, (1 <= n <= Z.of_nat N)%Z -> exists r, Q n r) -> exists code, forall n, (1 <= n <= Z.of_nat N)%Z -> Q n (code n).
Proof.
  induction N as [|N IH]; intros H. { exists (fun _ => 0). intros n Hn. lia. }
  destruct IH as [g Hg]; [intros n Hn; apply H; lia|]. destruct (H (Z.of_nat (S N)) ltac:(lia)) as [r Hr].
  exists (fun n => if Z.eqb n (Z.of_nat (S N)) then r else g n). intros n Hn. destruct (Z.eqb_spec n (Z.of_nat (S N))) as [->|Hne]; [auto|]. apply Hg. lia.
Qed.
(*P C91 x *)
(** Over all integers the inequality fails, however the lengths of larger
    integers are defined: for some (very large) [N] the sum exceeds 1. *)
Lemma C91_kraft_fails_witness : forall fuel0 table, precomputed_L_N fuel0 = Ok table -> exists (code : Z -> R) N,
  (forall n, (1 <= n <= Z.of_nat N)%Z -> exists fuel, L_N fuel table n = Ok (code n)) /\
  1 < total (fun n => Rpower 2 (- code n)) N.
Proof.
  intros f0 t E. destruct big_tower as (m & T & ET & H16 & Hm).
  destruct (finite_choice (fun n L => exists fuel, L_N fuel t n = Ok L) (T - 1)) as [code Hcode].
  { intros n Hn. destruct (table_some f0 t E n ltac:(lia)) as (f1 & L & F). exists L, f1. apply F. lia. }
  exists code, (T - 1)%nat. split; [exact Hcode|].
  assert (Hu : forall n, (1 <= n <= Z.of_nat (T - 1))%Z -> universal_code c0 n (code n)).
  { intros n Hn. destruct (Hcode n Hn) as [f Hf]. apply (table_code f0 t E f n _ Hf). }
  assert (S1 := small_weights code (T - 1) Hu ltac:(lia)). assert (S2 := blocks code (T - 1) Hu 3 m ltac:(rewrite <- ET; lia)). rewrite <- ET in S2.
  assert (S3 := tail_weight). rewrite <- Hm in S3. assert (Hc : 0 < / c0) by (apply Rinv_0_lt_compat; unfold c0; lra).
  apply (Rmult_le_compat_l (/ c0)) in S3; [|lra].
  assert (S4 : 1 < (21080 / 10000 + 7499 / 10000) * / c0) by (unfold c0; lra). lra.
Qed.
