(** Universal codes for integers: monotone, and short enough for a prefix code *)
From Coq Require Import Reals ZArith Lra Lia List.
From Verif.Model Require Import Base Mdl.
From Verif.Spec Require Import MdlSpec.
From Verif.Proofs Require Import MdlA.
Open Scope R_scope.
Open Scope list_scope.

Lemma sum_R_app l l' : sum_R (l ++ l') = sum_R l + sum_R l'.
Proof. unfold sum_R. induction l as [|x l IH]; cbn [app fold_right]; [|rewrite IH]; lra. Qed.
Lemma lgs_mono x y : 0 < x -> x <= y -> forall k, (forall j, (1 <= j <= k)%nat -> 0 < lgs j x) -> forall i, (i <= S k)%nat -> lgs i x <= lgs i y.
Proof.
  intros Hx Hxy k Hp. induction i as [|i IH]; intros Hi; [exact Hxy|]. cbn [lgs]. apply lg_le; [|apply IH; lia].
  destruct i as [|i]; [exact Hx|]. apply Hp. lia.
Qed.
Lemma lgs_succ j x : lgs (S j) x = lgs j (lg x).
Proof. induction j as [|j IH]; [reflexivity|]. cbn [lgs] in *. rewrite IH. reflexivity. Qed.
Lemma sum_mono (f g : nat -> R) l : (forall i, In i l -> f i <= g i) -> sum_R (map f l) <= sum_R (map g l).
Proof.
  induction l as [|a l IH]; intros H; cbn [map sum_R fold_right]; [lra|]. specialize (H a (or_introl eq_refl)) as Ha.
  assert (sum_R (map f l) <= sum_R (map g l)) by (apply IH; intros i Hi; apply H; right; auto). unfold sum_R in *. lra.
Qed.
Lemma sum_nonneg (f : nat -> R) l : (forall i, In i l -> 0 <= f i) -> 0 <= sum_R (map f l).
Proof.
  induction l as [|a l IH]; intros H; cbn [map sum_R fold_right]; [lra|]. specialize (H a (or_introl eq_refl)) as Ha.
  assert (0 <= sum_R (map f l)) by (apply IH; intros i Hi; apply H; right; auto). unfold sum_R in *. lra.
Qed.
Lemma code_mono c n n' L L' : (1 <= n < n')%Z -> universal_code c n L -> universal_code c n' L' -> L < L'.
Proof.
  intros Hn (k & P & Q & ->) (k' & P' & Q' & ->).
  assert (Hr : 1 <= IZR n) by (apply (IZR_le 1); lia). assert (Hr' : IZR n < IZR n') by (apply IZR_lt; lia).
  assert (M : forall i, (i <= S k)%nat -> lgs i (IZR n) <= lgs i (IZR n')) by (apply lgs_mono; [lra|lra|exact P]).
  assert (Hk : (k <= k')%nat).
  { destruct (le_lt_dec k k') as [|H]; [auto|exfalso]. assert (0 < lgs (S k') (IZR n)) by (apply P; lia).
    assert (lgs (S k') (IZR n) <= lgs (S k') (IZR n')) by (apply M; lia). lra. }
  assert (Hk1 : (1 <= k')%nat).
  { destruct k'; [|lia]. exfalso. cbn [lgs] in Q'. assert (0 < lg (IZR n')) by (apply lg_pos; lra). lra. }
  assert (F : lgs 1 (IZR n) < lgs 1 (IZR n')) by (cbn [lgs]; apply lg_lt; lra).
  replace k' with (k + (k' - k))%nat by lia. rewrite seq_app, map_app, sum_R_app.
  destruct k as [|k].
  - cbn [seq map sum_R fold_right plus]. rewrite Nat.sub_0_r. destruct k' as [|k']; [lia|]. cbn [seq map sum_R fold_right].
    assert (0 < lgs 1 (IZR n')) by (apply P'; lia).
    assert (0 <= sum_R (map (fun j => lgs j (IZR n')) (seq 2 k'))).
    { apply sum_nonneg. intros i Hi. apply in_seq in Hi. left. apply P'. lia. }
    unfold sum_R in *. lra.
  - assert (0 <= sum_R (map (fun j => lgs j (IZR n')) (seq (1 + S k) (k' - S k)))).
    { apply sum_nonneg. intros i Hi. apply in_seq in Hi. left. apply P'. lia. }
    cbn [seq map sum_R fold_right].
    assert (sum_R (map (fun j => lgs j (IZR n)) (seq 2 k)) <= sum_R (map (fun j => lgs j (IZR n')) (seq 2 k))).
    { apply sum_mono. intros i Hi. apply in_seq in Hi. apply M. lia. }
    unfold sum_R in *. lra.
Qed.

(** products of iterated logarithms *)
Fixpoint P (k : nat) (x : R) : R := match k with O => 1 | S k' => P k' x * lgs k' x end.
Lemma P_pos k x : (forall j, (j < k)%nat -> 0 < lgs j x) -> 0 < P k x.
Proof.
  induction k as [|k IH]; intros H; cbn [P]; [lra|]. apply Rmult_lt_0_compat; [apply IH; intros; apply H; lia|apply H; lia].
Qed.
Lemma sum_P x k : (forall j, (j < k)%nat -> 0 < lgs j x) -> Rpower 2 (- sum_R (map (fun j => lgs j x) (seq 1 k))) = / P k x.
Proof.
  induction k as [|k IH]; intros H.
  - cbn [seq map sum_R fold_right P]. rewrite Ropp_0, Rpower_O by lra. lra.
  - rewrite seq_S, map_app, sum_R_app. cbn [map P]. rewrite Ropp_plus_distr, Rpower_plus, IH by (intros; apply H; lia).
    assert (Hp := P_pos k x ltac:(intros; apply H; lia)). assert (Hk : 0 < lgs k x) by (apply H; lia).
    rewrite Rinv_mult. f_equal. cbn [plus sum_R fold_right]. rewrite Rplus_0_r. cbn [lgs]. rewrite Rpower_Ropp, pow_lg; auto.
Qed.
Lemma code_weight c n L : 0 < c -> (1 <= n)%Z -> universal_code c n L ->
  forall k, (forall j, (1 <= j <= k)%nat -> 0 < lgs j (IZR n)) -> lgs (S k) (IZR n) <= 0 -> Rpower 2 (- L) = / c * / P k (IZR n).
Proof.
  intros Hc Hn (k' & Pk & Q & ->) k Pk' Q'. assert (k' = k).
  { destruct (lt_eq_lt_dec k k') as [[H|H]|H]; auto; exfalso.
    - assert (0 < lgs (S k) (IZR n)) by (apply Pk; lia). lra.
    - assert (0 < lgs (S k') (IZR n)) by (apply Pk'; lia). lra. }
  subst k'. rewrite Ropp_plus_distr, Rpower_plus, Rpower_Ropp, pow_lg by auto. f_equal. apply sum_P.
  intros [|j] Hj; [cbn; apply (IZR_lt 0); lia|]. apply Pk. lia.
Qed.
Lemma ln_gap a b : 0 < b -> b <= a -> (a - b) / a <= ln a - ln b.
Proof.
  intros Hb Ha. assert (E : ln (b / a) <= b / a - 1).
  { assert (Hq : 0 < b / a) by (apply Rdiv_lt_0_compat; lra). destruct (Req_dec (ln (b / a)) 0) as [Z|Z].
    - assert (b / a = 1) by (rewrite <- (exp_ln (b / a)), Z, exp_0 by lra; auto). rewrite Z. lra.
    - left. pose proof (exp_ineq1 (ln (b / a)) Z) as I. rewrite exp_ln in I by lra. lra. }
  assert (E2 : ln a = ln b - ln (b / a)).
  { replace (ln b) with (ln (b / a) + ln a); [lra|]. rewrite <- ln_mult; [f_equal; field; lra|apply Rdiv_lt_0_compat; lra|lra]. }
  replace ((a - b) / a) with (1 - b / a) by (field; lra). lra.
Qed.
Lemma weight_step k y : (forall j, (j < k)%nat -> 0 < lgs j y) ->
  0 < P k (y + 1) /\ (forall j, (j <= k)%nat -> lgs j y <= lgs j (y + 1)) /\ / P k (y + 1) <= (ln 2) ^ k * (lgs k (y + 1) - lgs k y).
Proof.
  pose proof ln2_pos as Hl. induction k as [|k IH]; intros H.
  - cbn [P lgs pow]. split; [lra|]. split; [|lra]. intros j Hj. destruct j; [cbn; lra|lia].
  - destruct (IH ltac:(intros; apply H; lia)) as (Hp & M & B). assert (Hk : 0 < lgs k y) by (apply H; lia).
    assert (Mk := M k (le_n k)). cbn [P pow]. split; [apply Rmult_lt_0_compat; lra|]. split.
    + intros j Hj. destruct (Nat.eq_dec j (S k)) as [->|]; [|apply M; lia]. cbn [lgs]. apply lg_le; auto.
    + cbn [lgs]. unfold lg. set (a := lgs k (y + 1)) in *. set (b := lgs k y) in *.
      replace (ln 2 * ln 2 ^ k * (ln a / ln 2 - ln b / ln 2)) with (ln 2 ^ k * (ln a - ln b)) by (field; lra).
      rewrite Rinv_mult. apply Rle_trans with (ln 2 ^ k * ((a - b) / a)).
      * unfold Rdiv. rewrite <- Rmult_assoc. apply Rmult_le_compat_r; [left; apply Rinv_0_lt_compat; lra|]. exact B.
      * apply Rmult_le_compat_l; [left; apply pow_lt; auto|]. apply ln_gap; lra.
Qed.
Lemma total_S f k : total f (S k) = total f k + f (Z.of_nat (S k)).
Proof. unfold total. rewrite seq_S, map_app, sum_R_app. cbn [map sum_R fold_right plus]. lra. Qed.

(** powers of two, powers of powers of two, ... *)
Lemma lg_pow2 k : lg (2 ^ k) = INR k.
Proof. unfold lg. rewrite ln_pow by lra. field. pose proof ln2_pos. lra. Qed.
Lemma lg_4 : lg 4 = 2. Proof. replace 4 with (2 ^ 2) by lra. rewrite lg_pow2. cbn. lra. Qed.
Lemma lg_16 : lg 16 = 4. Proof. replace 16 with (2 ^ 4) by lra. rewrite lg_pow2. cbn. lra. Qed.
Lemma lg_65536 : lg 65536 = 16. Proof. replace 65536 with (2 ^ 16) by lra. rewrite lg_pow2. cbn. lra. Qed.
Lemma lg_int : lg 4294967296 = 32. Proof. replace 4294967296 with (2 ^ 32) by lra. rewrite lg_pow2. cbn. lra. Qed.
Lemma lg_3 : 3 / 2 <= lg 3.
Proof.
  assert (H : lg 8 <= lg (3 * 3)) by (apply lg_le; lra). rewrite lg_mult in H by lra.
  replace 8 with (2 ^ 3) in H by lra. rewrite lg_pow2 in H. cbn in H. lra.
Qed.

Section Kraft.
  Variables (code : Z -> R) (top : Z).
  Hypothesis codes : forall n, (1 <= n < top)%Z -> universal_code c0 n (code n).
  Notation w := (fun n => Rpower 2 (- code n)).
  Lemma c0_pos : 0 < c0. Proof. unfold c0. lra. Qed.
  (** all the integers from [a] on to [b] have [k] positive logarithms *)
  Lemma phase k a b : (1 <= a)%nat -> (forall j, (j < k)%nat -> 0 < lgs j (INR a)) ->
    (forall n, (Z.of_nat a < n <= b)%Z -> (n < top)%Z -> (forall j, (1 <= j <= k)%nat -> 0 < lgs j (IZR n)) /\ lgs (S k) (IZR n) <= 0) ->
    forall N, (a <= N)%nat -> (Z.of_nat N <= b)%Z -> (Z.of_nat N < top)%Z ->
    (forall j, (j <= k)%nat -> lgs j (INR a) <= lgs j (INR N)) /\
    c0 * total w N <= c0 * total w a + (ln 2) ^ k * (lgs k (INR N) - lgs k (INR a)).
  Proof.
    intros Ha Hpa Hph N HaN. induction HaN as [|N HaN IH]; intros HN Ht; [split; [intros; lra|lra]|].
    destruct IH as [M B]; [lia|lia|]. rewrite total_S.
    destruct (weight_step k (INR N)) as (Hp & M1 & W); [intros j Hj; specialize (Hpa j Hj); specialize (M j ltac:(lia)); lra|].
    rewrite <- S_INR in *. split; [intros j Hj; specialize (M j Hj); specialize (M1 j Hj); lra|].
    destruct (Hph (Z.of_nat (S N))) as [Q1 Q2]; [lia|lia|]. 
    rewrite (code_weight c0 (Z.of_nat (S N)) (code (Z.of_nat (S N))) c0_pos ltac:(lia) (codes (Z.of_nat (S N)) ltac:(lia)) k Q1 Q2).
    rewrite <- INR_IZR_INZ. rewrite Rmult_plus_distr_l, <- (Rmult_assoc c0 (/ c0)), Rinv_r, Rmult_1_l by (pose proof c0_pos; lra). lra.
  Qed.
  Lemma weight_at n k p : (1 <= n < top)%Z -> (forall j, (1 <= j <= k)%nat -> 0 < lgs j (IZR n)) -> lgs (S k) (IZR n) <= 0 ->
    / P k (IZR n) <= p -> c0 * w n <= p.
  Proof.
    intros Hn Q1 Q2 Hp. cbv beta. rewrite (code_weight c0 n (code n) c0_pos ltac:(lia) (codes n Hn) k Q1 Q2), <- Rmult_assoc, Rinv_r, Rmult_1_l; [auto|].
    pose proof c0_pos. lra.
  Qed.
  Hypothesis top_int : (top <= 2147483648)%Z.
  Let l := ln 2.
  Lemma powl k : 0 < l ^ k <= (3 / 4) ^ k.
  Proof. split; [apply pow_lt, ln2_pos|]. apply pow_incr. pose proof ln2_pos. pose proof ln2_up. unfold l. lra. Qed.
  Lemma T1 : (1 < top)%Z -> c0 * total w 1 <= 1.
  Proof.
    intros H. unfold total. cbn [seq map sum_R fold_right]. rewrite Rplus_0_r. apply (weight_at 1 0); [lia|lia| |cbn; lra].
    cbn. rewrite lg_1. lra.
  Qed.
  Lemma T2 : (2 < top)%Z -> c0 * total w 2 <= 1 + 1 / 2.
  Proof.
    intros H. rewrite total_S, Rmult_plus_distr_l. apply Rplus_le_compat; [apply T1; lia|]. apply (weight_at 2 1); [lia| | |].
    - intros j Hj. replace j with 1%nat by lia. cbn. rewrite lg_2. lra.
    - cbn. rewrite lg_2, lg_1. lra.
    - cbn. lra.
  Qed.
  Lemma T3 : (3 < top)%Z -> c0 * total w 3 <= 1 + 1 / 2 + 2 / 9.
  Proof.
    intros H. rewrite total_S, Rmult_plus_distr_l. apply Rplus_le_compat; [apply T2; lia|].
    assert (L1 := lg_3). assert (L2 : lg 3 < 2) by (rewrite <- lg_4; apply lg_lt; lra).
    assert (L3 : 0 < lg (lg 3)) by (apply lg_pos; lra). assert (L4 : lg (lg 3) < 1) by (rewrite <- lg_2; apply lg_lt; lra).
    apply (weight_at 3 2); [lia| | |].
    - intros j Hj. destruct j as [|[|[|j]]]; try lia; cbn; lra.
    - cbn. rewrite <- lg_1. apply lg_le; lra.
    - cbn [P lgs]. rewrite Rmult_1_l. apply Rle_trans with (/ (9 / 2)); [|lra]. apply Rinv_le_contravar; lra.
  Qed.
  Lemma T4 : (4 < top)%Z -> c0 * total w 4 <= 1 + 1 / 2 + 2 / 9 + 1 / 8.
  Proof.
    intros H. rewrite total_S, Rmult_plus_distr_l. apply Rplus_le_compat; [apply T3; lia|]. apply (weight_at 4 2); [lia| | |].
    - intros j Hj. destruct j as [|[|[|j]]]; try lia; cbn; rewrite lg_4; [|rewrite lg_2]; lra.
    - cbn. rewrite lg_4, lg_2, lg_1. lra.
    - cbn. rewrite lg_4. lra.
  Qed.
  Lemma up4 x : 4 < x -> 2 < lg x /\ 1 < lg (lg x) /\ 0 < lg (lg (lg x)).
  Proof.
    intros H. assert (A : 2 < lg x) by (rewrite <- lg_4; apply lg_lt; lra).
    assert (B : 1 < lg (lg x)) by (rewrite <- lg_2 at 1; apply lg_lt; lra). split; [auto|]. split; [auto|]. apply lg_pos; auto.
  Qed.
  Lemma T16 N : (4 <= N)%nat -> (Z.of_nat N <= 16)%Z -> (Z.of_nat N < top)%Z -> c0 * total w N <= 1 + 1 / 2 + 2 / 9 + 1 / 8 + l ^ 3.
  Proof.
    intros H4 H16 Ht. destruct (phase 3 4 16) with (N := N) as [_ B]; auto; try lia.
    - intros j Hj. replace (INR 4) with 4 by (cbn; lra). destruct j as [|[|[|j]]]; try lia; cbn; rewrite ?lg_4, ?lg_2; lra.
    - intros n Hn Hnt. assert (Hr : 4 < IZR n) by (apply (IZR_lt 4); lia). assert (Hr' : IZR n <= 16) by (apply (IZR_le n 16); lia).
      destruct (up4 _ Hr) as (A1 & A2 & A3). split.
      + intros j Hj. destruct j as [|[|[|[|j]]]]; try lia; cbn; lra.
      + cbn [lgs]. assert (B1 : lg (IZR n) <= 4) by (rewrite <- lg_16; apply lg_le; lra).
        assert (B2 : lg (lg (IZR n)) <= 2) by (rewrite <- lg_4; apply lg_le; lra).
        assert (B3 : lg (lg (lg (IZR n))) <= 1) by (rewrite <- lg_2; apply lg_le; lra). rewrite <- lg_1. apply lg_le; lra.
    - assert (F := T4 ltac:(lia)). replace (INR 4) with 4 in B by (cbn; lra). cbn [lgs] in B. rewrite lg_4, lg_2, lg_1, Rminus_0_r in B.
      assert (C : lg (lg (lg (INR N))) <= 1).
      { destruct (Nat.eq_dec N 4) as [->|]; [replace (INR 4) with 4 by (cbn; lra); rewrite lg_4, lg_2, lg_1; lra|].
        assert (Hr : 4 < INR N) by (rewrite INR_IZR_INZ; apply (IZR_lt 4); lia). assert (Hr' : INR N <= 16) by (rewrite INR_IZR_INZ; apply (IZR_le _ 16); lia).
        destruct (up4 _ Hr) as (A1 & A2 & A3). rewrite <- lg_2. apply lg_le; [lra|]. rewrite <- lg_4. apply lg_le; [lra|]. rewrite <- lg_16. apply lg_le; lra. }
      assert (Lp := powl 3). fold l in B. assert (l ^ 3 * lg (lg (lg (INR N))) <= l ^ 3 * 1) by (apply Rmult_le_compat_l; lra). lra.
  Qed.
  Lemma up16 x : 16 < x -> 4 < lg x.
  Proof. intros H. rewrite <- lg_16. apply lg_lt; lra. Qed.
  Lemma T65536 N : (16 <= N)%nat -> (Z.of_nat N <= 65536)%Z -> (Z.of_nat N < top)%Z -> c0 * total w N <= 1 + 1 / 2 + 2 / 9 + 1 / 8 + l ^ 3 + l ^ 4.
  Proof.
    intros H4 H16 Ht. assert (I16 : INR 16 = 16) by (rewrite INR_IZR_INZ; auto).
    destruct (phase 4 16 65536) with (N := N) as [_ B]; auto; try lia.
    - intros j Hj. rewrite I16. destruct j as [|[|[|[|j]]]]; try lia; cbn; rewrite ?lg_16, ?lg_4, ?lg_2; lra.
    - intros n Hn Hnt. assert (Hr : 16 < IZR n) by (apply (IZR_lt 16); lia). assert (Hr' : IZR n <= 65536) by (apply (IZR_le n 65536); lia).
      assert (A0 := up16 _ Hr). destruct (up4 _ A0) as (A1 & A2 & A3). split.
      + intros j Hj. destruct j as [|[|[|[|[|j]]]]]; try lia; cbn; lra.
      + cbn [lgs]. assert (B0 : lg (IZR n) <= 16) by (rewrite <- lg_65536; apply lg_le; lra).
        assert (B1 : lg (lg (IZR n)) <= 4) by (rewrite <- lg_16; apply lg_le; lra).
        assert (B2 : lg (lg (lg (IZR n))) <= 2) by (rewrite <- lg_4; apply lg_le; lra).
        assert (B3 : lg (lg (lg (lg (IZR n)))) <= 1) by (rewrite <- lg_2; apply lg_le; lra). rewrite <- lg_1. apply lg_le; lra.
    - assert (F := T16 16 ltac:(lia) ltac:(lia) ltac:(lia)). rewrite I16 in B. cbn [lgs] in B. rewrite lg_16, lg_4, lg_2, lg_1, Rminus_0_r in B.
      assert (C : lg (lg (lg (lg (INR N)))) <= 1).
      { destruct (Nat.eq_dec N 16) as [->|]; [rewrite I16, lg_16, lg_4, lg_2, lg_1; lra|].
        assert (Hr : 16 < INR N) by (rewrite INR_IZR_INZ; apply (IZR_lt 16); lia). assert (Hr' : INR N <= 65536) by (rewrite INR_IZR_INZ; apply (IZR_le _ 65536); lia).
        assert (A0 := up16 _ Hr). destruct (up4 _ A0) as (A1 & A2 & A3). rewrite <- lg_2. apply lg_le; [lra|]. rewrite <- lg_4. apply lg_le; [lra|].
        rewrite <- lg_16. apply lg_le; [lra|]. rewrite <- lg_65536. apply lg_le; lra. }
      assert (Lp := powl 4). fold l in B. assert (l ^ 4 * lg (lg (lg (lg (INR N)))) <= l ^ 4 * 1) by (apply Rmult_le_compat_l; lra). lra.
  Qed.
  Lemma up65536 x : 65536 < x -> 16 < lg x.
  Proof. intros H. rewrite <- lg_65536. apply lg_lt; lra. Qed.
  Lemma down65536 x : 65536 < x -> x <= 4294967296 -> 0 < lg (lg (lg (lg (lg x)))) <= 1.
  Proof.
    intros H H'. assert (A := up65536 _ H). assert (A0 := up16 _ A). destruct (up4 _ A0) as (A1 & A2 & A3). split; [auto|].
    rewrite <- lg_2. apply lg_le; [lra|]. rewrite <- lg_4. apply lg_le; [lra|]. rewrite <- lg_16. apply lg_le; [lra|].
    apply Rle_trans with (lg 65536); [|rewrite lg_65536; lra]. apply lg_le; [lra|]. apply Rle_trans with (lg 4294967296); [apply lg_le; lra|rewrite lg_int; lra].
  Qed.
  Lemma Tint N : (65536 <= Z.of_nat N)%Z -> (Z.of_nat N < top)%Z -> c0 * total w N <= 1 + 1 / 2 + 2 / 9 + 1 / 8 + l ^ 3 + l ^ 4 + l ^ 5.
  Proof.
    intros H4 Ht. set (a := Z.to_nat 65536). assert (Ea : Z.of_nat a = 65536%Z) by (unfold a; lia). clearbody a.
    assert (I : INR a = 65536) by (rewrite INR_IZR_INZ, Ea; auto).
    destruct (phase 5 a 4294967296) with (N := N) as [_ B]; auto; try lia.
    - intros j Hj. rewrite I. destruct j as [|[|[|[|[|j]]]]]; try lia; cbn; rewrite ?lg_65536, ?lg_16, ?lg_4, ?lg_2; lra.
    - intros n Hn Hnt. assert (Hr : 65536 < IZR n) by (apply (IZR_lt 65536); lia). assert (Hr' : IZR n <= 4294967296) by (apply (IZR_le n 4294967296); lia).
      assert (D := down65536 _ Hr Hr'). assert (A := up65536 _ Hr). assert (A0 := up16 _ A). destruct (up4 _ A0) as (A1 & A2 & A3). split.
      + intros j Hj. destruct j as [|[|[|[|[|[|j]]]]]]; try lia; cbn; lra.
      + cbn [lgs]. rewrite <- lg_1. apply lg_le; lra.
    - assert (F := T65536 a ltac:(lia) ltac:(lia) ltac:(lia)). rewrite I in B. cbn [lgs] in B. rewrite lg_65536, lg_16, lg_4, lg_2, lg_1, Rminus_0_r in B.
      assert (C : lg (lg (lg (lg (lg (INR N))))) <= 1).
      { destruct (Z.eq_dec (Z.of_nat N) 65536) as [E|]; [rewrite INR_IZR_INZ, E, lg_65536, lg_16, lg_4, lg_2, lg_1; lra|].
        assert (Hr : 65536 < INR N) by (rewrite INR_IZR_INZ; apply (IZR_lt 65536); lia). assert (Hr' : INR N <= 4294967296) by (rewrite INR_IZR_INZ; apply (IZR_le _ 4294967296); lia).
        apply down65536; auto. }
      assert (Lp := powl 5). fold l in B. assert (l ^ 5 * lg (lg (lg (lg (lg (INR N))))) <= l ^ 5 * 1) by (apply Rmult_le_compat_l; lra). lra.
  Qed.
  Lemma kraft N : (Z.of_nat N < top)%Z -> total w N <= 1.
  Proof.
    intros Ht. assert (L3 := powl 3). assert (L4 := powl 4). assert (L5 := powl 5). assert (C : c0 * total w N <= c0).
    { unfold c0 at 2. destruct (le_lt_dec N 3) as [H|H].
      - destruct N as [|[|[|[|N]]]]; [unfold total; cbn; pose proof c0_pos; unfold c0; lra|pose proof (T1 ltac:(lia))|pose proof (T2 ltac:(lia))|pose proof (T3 ltac:(lia))|lia]; lra.
      - destruct (Z_le_gt_dec (Z.of_nat N) 16); [pose proof (T16 N ltac:(lia) ltac:(lia) Ht); lra|].
        destruct (Z_le_gt_dec (Z.of_nat N) 65536); [pose proof (T65536 N ltac:(lia) ltac:(lia) Ht); lra|].
        pose proof (Tint N ltac:(lia) Ht). lra. }
    apply Rmult_le_reg_l with c0; [apply c0_pos|]. lra.
  Qed.
End Kraft.

(** the table of the first hundred code lengths changes no result *)
Lemma table_code fuel0 table : precomputed_L_N fuel0 = Ok table ->
  forall fuel n L, L_N fuel table n = Ok L -> (1 <= n)%Z /\ universal_code c0 n L.
Proof.
  intros E fuel n L H. unfold L_N in H. destruct (Z.ltb_spec n 1) as [|Hn]; [discriminate|]. split; [auto|].
  destruct (nth_error table (Z.to_nat (n - 1))) as [v|] eqn:En.
  - injection H as <-. apply (precomputed_get _ _ E) in En. apply L_N_code in En. replace (Z.of_nat (S (Z.to_nat (n - 1)))) with n in En by lia. apply En.
  - apply (L_N_code fuel n L). unfold L_N. destruct (Z.ltb_spec n 1); [lia|]. destruct (Z.to_nat (n - 1)); exact H.
Qed.
Lemma table_some fuel0 table : precomputed_L_N fuel0 = Ok table ->
  forall n, (1 <= n)%Z -> exists fuel1 L, forall fuel, (fuel1 <= fuel)%nat -> L_N fuel table n = Ok L.
Proof.
  intros E n Hn. destruct (code_ex n Hn) as (L & f & C & F). destruct (nth_error table (Z.to_nat (n - 1))) as [v|] eqn:En.
  - exists 0%nat, v. intros fuel _. unfold L_N. destruct (Z.ltb_spec n 1); [lia|]. rewrite En. auto.
  - exists f, L. intros fuel Hf. specialize (F fuel Hf). unfold L_N in *. destruct (Z.ltb_spec n 1); [lia|]. rewrite En.
    destruct (Z.to_nat (n - 1)); exact F.
Qed.
Lemma table_ex : exists fuel0 table, precomputed_L_N fuel0 = Ok table.
Proof.
  unfold precomputed_L_N.
  assert (G : forall l, Forall (fun n => (1 <= n)%Z) l -> exists f t, forall f', (f <= f')%nat -> mapM (L_N f' []) l = Ok t).
  { induction l as [|z l IH]; intros H; [exists 0%nat, []; auto|]. inversion_clear H as [|? ? Hz Hl]. destruct (IH Hl) as (f & t & F).
    destruct (code_ex z Hz) as (L & f1 & _ & F1). exists (f + f1)%nat, (L :: t). intros f' Hf. cbn [mapM]. rewrite F1 by lia. cbn [bind]. rewrite F by lia. reflexivity. }
  destruct (G hundred) as (f & t & F).
  - unfold hundred. apply Forall_forall. intros z Hz. apply in_map_iff in Hz. destruct Hz as (i & <- & Hi). apply in_seq in Hi. lia.
  - exists f, t. apply F. auto.
Qed.
