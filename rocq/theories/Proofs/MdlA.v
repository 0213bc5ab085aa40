(** Universal codes for integers: what [L_N] computes *)
From Coq Require Import Reals ZArith Lra Lia List.
From Verif.Model Require Import Base Mdl.
From Verif.Spec Require Import MdlSpec.
Open Scope R_scope.
Open Scope list_scope.

Lemma ln2_pos : 0 < ln 2.
Proof. rewrite <- ln_1. apply ln_increasing; lra. Qed.
Lemma ln2_low : 1 / 2 < ln 2.
Proof. pose proof ln_lt_2. lra. Qed.
Lemma ln2_up : ln 2 <= 3 / 4.
Proof.
  destruct (Rle_lt_dec (ln 2) (3 / 4)) as [|H]; [auto|exfalso]. apply exp_increasing in H. rewrite exp_ln in H by lra.
  assert (E : exp (3 / 4) = exp (3 / 32) * exp (3 / 32) * (exp (3 / 32) * exp (3 / 32)) * (exp (3 / 32) * exp (3 / 32) * (exp (3 / 32) * exp (3 / 32)))).
  { rewrite <- !exp_plus. f_equal. lra. }
  assert (L : 1 + 3 / 32 <= exp (3 / 32)) by (left; apply exp_ineq1; lra).
  set (e := exp (3 / 32)) in *. 
  assert (L2 : 1225 / 1024 <= e * e). { apply Rle_trans with ((1 + 3 / 32) * (1 + 3 / 32)); [lra|]. apply Rmult_le_compat; lra. }
  assert (L4 : 1225 / 1024 * (1225 / 1024) <= e * e * (e * e)) by (apply Rmult_le_compat; lra).
  assert (L8 : 143 / 100 * (143 / 100) <= e * e * (e * e) * (e * e * (e * e))) by (apply Rmult_le_compat; lra).
  lra.
Qed.
Lemma lg_2 : lg 2 = 1.
Proof. unfold lg. field. pose proof ln2_pos. lra. Qed.
Lemma lg_1 : lg 1 = 0.
Proof. unfold lg. rewrite ln_1. unfold Rdiv. ring. Qed.
Lemma lg_lt x y : 0 < x -> x < y -> lg x < lg y.
Proof. intros H H1. unfold lg. apply Rmult_lt_compat_r; [apply Rinv_0_lt_compat, ln2_pos|]. apply ln_increasing; auto. Qed.
Lemma lg_le x y : 0 < x -> x <= y -> lg x <= lg y.
Proof. intros H [H1| ->]; [left; apply lg_lt; auto|right; auto]. Qed.
Lemma lg_pos x : 1 < x -> 0 < lg x.
Proof. intros H. rewrite <- lg_1. apply lg_lt; lra. Qed.
Lemma lg_pos_inv x : 0 < x -> 0 < lg x -> 1 < x.
Proof. intros H H1. destruct (Rle_lt_dec x 1) as [Hx|Hx]; [|auto]. apply lg_le in Hx; auto. rewrite lg_1 in Hx. lra. Qed.
Lemma lg_mult x y : 0 < x -> 0 < y -> lg (x * y) = lg x + lg y.
Proof. intros Hx Hy. unfold lg. rewrite ln_mult by auto. field. pose proof ln2_pos. lra. Qed.
Lemma pow_lg x : 0 < x -> Rpower 2 (lg x) = x.
Proof.
  intros H. unfold Rpower, lg. replace (ln x / ln 2 * ln 2) with (ln x) by (field; pose proof ln2_pos; lra). apply exp_ln. auto.
Qed.
(** every step of the loop gets smaller by a fixed amount at least *)
Lemma lg_drop x : 0 < x -> lg x <= x - (/ ln 2 - 1).
Proof.
  intros H. pose proof ln2_pos as P. pose proof ln2_low as Lo. pose proof ln2_up as Up.
  assert (E : ln x <= x / 2 - 1 + ln 2).
  { replace (ln x) with (ln (x / 2) + ln 2) by (rewrite <- ln_mult; [f_equal; lra|lra|lra]).
    assert (Hx : ln (x / 2) <= x / 2 - 1); [|lra].
    destruct (Req_dec (ln (x / 2)) 0) as [Z|Z].
    - assert (x / 2 = 1) by (rewrite <- (exp_ln (x / 2)), Z, exp_0 by lra; auto). rewrite Z. lra.
    - left. pose proof (exp_ineq1 (ln (x / 2)) Z) as I. rewrite exp_ln in I by lra. lra. }
  unfold lg. apply Rmult_le_reg_r with (ln 2); [auto|]. replace (ln x / ln 2 * ln 2) with (ln x) by (field; lra).
  replace ((x - (/ ln 2 - 1)) * ln 2) with (x * ln 2 - 1 + ln 2) by (field; lra).
  assert (x / 2 <= x * ln 2) by (apply Rmult_le_compat_l; lra). lra.
Qed.
Lemma drop_pos : 0 < / ln 2 - 1.
Proof.
  pose proof ln2_pos. pose proof ln2_up. assert (1 < / ln 2); [|lra]. rewrite <- Rinv_1 at 1. apply Rinv_lt_contravar; lra.
Qed.

(** the loop from the [j]-th logarithm on *)
Lemma loop_from n : forall steps j acc, (forall i, (1 <= i <= j)%nat -> 0 < lgs i n) -> 0 < n ->
  lgs (S j) n <= INR steps * (/ ln 2 - 1) ->
  exists k, (j <= k)%nat /\ (forall i, (1 <= i <= k)%nat -> 0 < lgs i n) /\ lgs (S k) n <= 0 /\
    forall fuel, (S steps <= fuel)%nat -> L_N_loop fuel (lgs (S j) n) acc = Ok (acc + sum_R (map (fun i => lgs i n) (seq (S j) (k - j)))).
Proof.
  induction steps as [|steps IH]; intros j acc Hp Hn Hs.
  - exists j. cbn [INR] in Hs. split; [auto|]. split; [auto|]. split; [lra|]. intros [|fuel] Hf; [lia|]. cbn [L_N_loop].
    destruct (Rlt_dec 0 (lgs (S j) n)); [lra|]. rewrite Nat.sub_diag. cbn. f_equal. lra.
  - destruct (Rlt_dec 0 (lgs (S j) n)) as [Hpos|Hneg].
    + destruct (IH (S j) (acc + lgs (S j) n)) as (k & Hk & Hp' & Hl & Hf).
      * intros i Hi. destruct (Nat.eq_dec i (S j)) as [->|]; [auto|]. apply Hp. lia.
      * auto.
      * change (lgs (S (S j)) n) with (lg (lgs (S j) n)). pose proof (lg_drop _ Hpos) as D. rewrite S_INR in Hs. lra.
      * exists k. split; [lia|]. split; [auto|]. split; [auto|]. intros [|fuel] Hfu; [lia|]. cbn [L_N_loop].
        destruct (Rlt_dec 0 (lgs (S j) n)); [|lra]. change (log2 (lgs (S j) n)) with (lgs (S (S j)) n).
        rewrite Hf by lia. replace (k - j)%nat with (S (k - S j)) by lia. cbn [seq map sum_R fold_right]. f_equal. unfold sum_R. lra.
    + exists j. split; [auto|]. split; [auto|]. split; [lra|]. intros [|fuel] Hf; [lia|]. cbn [L_N_loop].
      destruct (Rlt_dec 0 (lgs (S j) n)); [lra|]. rewrite Nat.sub_diag. cbn. f_equal. lra.
Qed.
Lemma archimed_nat x d : 0 < d -> exists k, x <= INR k * d.
Proof.
  intros Hd. destruct (archimed (x / d)) as [H _]. exists (Z.to_nat (up (x / d))). apply Rmult_le_reg_r with (/ d); [apply Rinv_0_lt_compat; auto|].
  replace (INR (Z.to_nat (up (x / d))) * d * / d) with (INR (Z.to_nat (up (x / d)))) by (field; lra).
  change (x * / d) with (x / d). rewrite INR_IZR_INZ. apply Rle_trans with (IZR (up (x / d))); [lra|]. apply IZR_le. lia.
Qed.
Definition c0 : R := 28565064 / 10000000.
Lemma code_ex n : (1 <= n)%Z -> exists L fuel0, universal_code c0 n L /\ forall fuel, (fuel0 <= fuel)%nat -> L_N fuel [] n = Ok L.
Proof.
  intros Hn. assert (Hr : 1 <= IZR n) by (apply (IZR_le 1); auto).
  destruct (archimed_nat (lgs 1 (IZR n)) (/ ln 2 - 1) drop_pos) as [steps Hs].
  destruct (loop_from (IZR n) steps 0 (log2 c0)) as (k & _ & Hp & Hl & Hf); [lia|lra|auto|].
  exists (log2 c0 + sum_R (map (fun i => lgs i (IZR n)) (seq 1 (k - 0)))), (S steps). rewrite Nat.sub_0_r in *. split.
  - exists k. split; [auto|]. split; [auto|]. reflexivity.
  - intros fuel Hfu. unfold L_N. destruct (Z.ltb_spec n 1); [lia|].
    replace (nth_error [] (Z.to_nat (n - 1))) with (@None R) by (destruct (Z.to_nat (n - 1)); auto). apply Hf. auto.
Qed.
Lemma code_fun c n L L' : universal_code c n L -> universal_code c n L' -> L = L'.
Proof.
  intros (k & P & Q & ->) (k' & P' & Q' & ->). assert (k = k'); [|congruence].
  destruct (lt_eq_lt_dec k k') as [[H|H]|H]; auto; exfalso.
  - specialize (P' (S k)). lra || (assert (0 < lgs (S k) (IZR n)) by (apply P'; lia); lra).
  - assert (0 < lgs (S k') (IZR n)) by (apply P; lia). lra.
Qed.
(** more fuel changes nothing *)
Lemma loop_more fuel : forall s a v, L_N_loop fuel s a = Ok v -> forall fuel', (fuel <= fuel')%nat -> L_N_loop fuel' s a = Ok v.
Proof.
  induction fuel as [|fuel IH]; intros s a v E fuel' Hf; [discriminate|]. destruct fuel' as [|fuel']; [lia|]. cbn [L_N_loop] in *.
  destruct (Rlt_dec 0 s); [|auto]. apply (IH _ _ _ E). lia.
Qed.
Lemma L_N_code fuel n L : L_N fuel [] n = Ok L -> (1 <= n)%Z /\ universal_code c0 n L.
Proof.
  intros E. assert (Hn : (1 <= n)%Z). { unfold L_N in E. destruct (Z.ltb_spec n 1); [discriminate|auto]. }
  split; [auto|]. destruct (code_ex n Hn) as (L' & f0 & C & F). assert (E' : L_N (f0 + fuel) [] n = Ok L') by (apply F; lia).
  assert (E2 : L_N (f0 + fuel) [] n = Ok L).
  { unfold L_N in *. destruct (n <? 1)%Z; [discriminate|].
    replace (nth_error [] (Z.to_nat (n - 1))) with (@None R) in * by (destruct (Z.to_nat (n - 1)); auto).
    eapply loop_more; eauto. lia. }
  congruence.
Qed.
Lemma precomputed_get fuel table : precomputed_L_N fuel = Ok table -> forall i v, nth_error table i = Some v -> L_N fuel [] (Z.of_nat (S i)) = Ok v.
Proof.
  intros E. unfold precomputed_L_N in E.
  assert (G : forall l t, mapM (L_N fuel []) l = Ok t -> forall i v, nth_error t i = Some v -> exists z, nth_error l i = Some z /\ L_N fuel [] z = Ok v).
  { induction l as [|z l IH]; intros t Et i v Hv; cbn [mapM] in Et.
    - injection Et as <-. destruct i; discriminate.
    - destruct (L_N fuel [] z) as [y|] eqn:Ez; [|discriminate]. cbn [bind] in Et. destruct (mapM (L_N fuel []) l) as [t'|] eqn:El; [|discriminate].
      injection Et as <-. destruct i as [|i]; cbn [nth_error] in *; [injection Hv as <-; eauto|eauto]. }
  intros i v Hv. destruct (G _ _ E i v Hv) as (z & Hz & Ez). unfold hundred in Hz. rewrite nth_error_map in Hz.
  destruct (nth_error (seq 1 100) i) as [j|] eqn:Ej; [|discriminate]. injection Hz as <-.
  assert (Hi : (i < 100)%nat). { rewrite <- (seq_length 100 1). apply nth_error_Some. congruence. }
  apply (nth_error_nth _ _ 0%nat) in Ej. rewrite seq_nth in Ej by auto. subst j. exact Ez.
Qed.
