(** The standard deviation of a Statistics object *)
From Coq Require Import List ZArith Reals Qreals QArith Lra Lia.
From Verif.Model Require Import Base Statistics StandardDeviation.
From Verif.Spec Require Import Moments.
From Verif.Proofs Require Statistics.
Import ListNotations.

Lemma stddev_variance s ddof : st_stddev s ddof = option_map (fun v => sqrt (Q2R v)) (st_variance s ddof).
Proof. unfold st_stddev, st_variance. destruct (ddof mod 2 ^ 64 >=? st_count s)%Z; reflexivity. Qed.
Lemma total_nonneg l : (forall x, In x l -> (0 <= x)%Q) -> (0 <= total l)%Q.
Proof.
  unfold total. induction l as [|a l IH]; intros H; cbn [fold_right]. { apply Qle_refl. }
  apply (Qle_trans _ (0 + 0)); [apply Qle_refl|]. apply Qplus_le_compat; [apply H; left; auto|]. apply IH. intros x Hx. apply H. right. auto.
Qed.
Lemma central_nonneg xs : (0 <= central 2 xs)%Q.
Proof.
  apply total_nonneg. intros x Hx. apply in_map_iff in Hx. destruct Hx as (y & <- & _). change (Z.of_nat 2) with 2%Z. destruct (y - average xs)%Q as [n d]. unfold Qle, Qpower, Qpower_positive. cbn. nia.
Qed.

(*P C18 Merging statistics equals statistics of the concatenation *)
(** the standard deviation is the square root of the variance *)
Lemma C18_standard_deviation : forall (h : st_history) (ddof : Z),
  (Z.of_nat (length (st_values h)) < 2 ^ 63)%Z -> (- 2 ^ 31 <= ddof < 2 ^ 31)%Z ->
  let s := st_run h in let xs := st_values h in
  ((0 <= ddof < Z.of_nat (length xs))%Z ->
     exists d, st_stddev s ddof = Some d /\ (0 <= d)%R /\ (d * d = Q2R (central 2 xs / (size xs - inject_Z ddof)))%R) /\
  (~ (0 <= ddof < Z.of_nat (length xs))%Z -> st_stddev s ddof = None).
Proof.
  intros h ddof Hl Hd s xs. destruct (Statistics.run_report h Hl) as (_ & _ & _ & V). destruct (V ddof Hd) as [V1 V2]. fold s in V1, V2. fold xs in V1, V2.
  rewrite stddev_variance. split.
  - intros Hr. destruct (V1 Hr) as (v & Ev & Hv). rewrite Ev. cbn [option_map]. eexists. split; [reflexivity|]. split; [apply sqrt_pos|].
    rewrite sqrt_sqrt; [apply Qeq_eqR; exact Hv|]. replace 0%R with (Q2R 0) by (unfold Q2R; cbn; lra). apply Qle_Rle. rewrite Hv.
    apply Qle_shift_div_l.
    + unfold size. assert (0 < inject_Z (Z.of_nat (length xs)) - inject_Z ddof)%Q; [|auto]. unfold Qlt, Qminus, Qplus, Qopp, inject_Z. cbn. lia.
    + rewrite Qmult_0_l. apply central_nonneg.
  - intros Hr. rewrite (V2 Hr). reflexivity.
Qed.
