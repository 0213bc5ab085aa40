(** Properties C14-C19: math_utils.py, set_similarity.py, two_way_dict.py,
    statistics.pyx, random_utils.py *)
From Coq Require Import Reals Qreals.
From Verif.Model Require Import Base MathUtils SetSimilarity TwoWayDict Statistics StandardDeviation RandomUtils.
From Verif.Spec Require Import Moments.
From Verif.Proofs Require MathUtils MathUtilsB SetSimilarity TwoWayDict Statistics StandardDeviation RandomUtils.
From Coq Require Import Znumtheory Sorted QArith Qminmax.
Open Scope nat_scope.

(** C14: up to 2^53 *)
Theorem C14_prime_factors :
  forall (n : Z) (fuel : nat), (1 <= n <= 2 ^ 53)%Z -> (n <= Z.of_nat fuel)%Z ->
    exists fs, prime_factors fuel n = Ok fs /\ Forall prime fs /\ StronglySorted Z.le fs /\
               fold_right Z.mul 1%Z fs = n.
Proof. exact MathUtils.prime_factors_ok. Qed.
Print Assumptions C14_prime_factors.
Example C14_example : prime_factors 360 360 = Ok [2;2;2;3;3;5]%Z.
Proof. vm_compute. reflexivity. Qed.
Theorem C14_zero_diverges : forall fuel, prime_factors fuel 0 = Err OutOfFuel.
Proof. exact MathUtils.prime_factors_zero. Qed.
Print Assumptions C14_zero_diverges.
(** it ends for every other number *)
Theorem C14_terminates : forall (n : Z) (fuel : nat), (n <> 0)%Z -> (Z.abs n <= Z.of_nat fuel)%Z ->
  exists fs, prime_factors fuel n = Ok fs.
Proof. exact MathUtilsB.C14_terminates. Qed.
Print Assumptions C14_terminates.
(** a negative number: one 2 for each time it can be halved, nothing else *)
Theorem C14_negative : forall (n : Z) (fuel : nat), (- 2 ^ 53 <= n < 0)%Z -> (Z.abs n <= Z.of_nat fuel)%Z ->
  exists k m, prime_factors fuel n = Ok (repeat 2%Z k) /\ (n = 2 ^ Z.of_nat k * m)%Z /\ Z.odd m = true.
Proof. exact MathUtilsB.C14_negative. Qed.
Print Assumptions C14_negative.
Example C14_example_negative : prime_factors 360 (-360) = Ok [2;2;2]%Z.
Proof. vm_compute. reflexivity. Qed.
(** above 2^53 the float quotient is rounded and the product can be wrong *)
Theorem C14_beyond_float_precision :
  exists (n : Z) (fuel : nat) fs, (2 ^ 53 < n)%Z /\
    prime_factors fuel n = Ok fs /\ fold_right Z.mul 1%Z fs <> n.
Proof. exact MathUtils.prime_factors_large. Qed.
Print Assumptions C14_beyond_float_precision.

(** C15; a set is a duplicate-free list *)
Theorem C15_dice :
  forall {A} `{Eq A} (a b : list A), NoDup a -> NoDup b ->
    exists r, sorensen_dice_coefficient a b = Ok r /\ (0 <= r <= 1)%Q /\
      ((r == 1)%Q <-> forall x, In x a <-> In x b) /\
      ((r == 0)%Q <-> (forall x, In x a -> ~ In x b) /\ ~ (a = [] /\ b = [])) /\
      sorensen_dice_coefficient b a = Ok r.
Proof. exact @SetSimilarity.dice_ok. Qed.
Print Assumptions C15_dice.
Theorem C15_jaccard :
  forall {A} `{Eq A} (a b : list A), NoDup a -> NoDup b ->
    exists r, jaccard_index a b = Ok r /\ (0 <= r <= 1)%Q /\
      ((r == 1)%Q <-> forall x, In x a <-> In x b) /\
      ((r == 0)%Q <-> (forall x, In x a -> ~ In x b) /\ ~ (a = [] /\ b = [])) /\
      jaccard_index b a = Ok r.
Proof. exact @SetSimilarity.jaccard_ok. Qed.
Print Assumptions C15_jaccard.
Theorem C15_overlap :
  forall {A} `{Eq A} (a b : list A), NoDup a -> NoDup b -> (a = [] <-> b = []) ->
    exists r, overlap_coefficient a b = Ok r /\ (0 <= r <= 1)%Q /\
      ((r == 1)%Q <-> (forall x, In x a -> In x b) \/ (forall x, In x b -> In x a)) /\
      ((r == 0)%Q <-> (forall x, In x a -> ~ In x b) /\ ~ (a = [] /\ b = [])) /\
      overlap_coefficient b a = Ok r.
Proof. exact @SetSimilarity.overlap_ok. Qed.
Print Assumptions C15_overlap.
Theorem C15_overlap_error :
  forall {A} `{Eq A} (a b : list A), ~ (a = [] <-> b = []) ->
    overlap_coefficient a b = Err ZeroDivisionError.
Proof. exact @SetSimilarity.overlap_err. Qed.
Print Assumptions C15_overlap_error.
(** the exact values *)
Theorem C15_values :
  forall {A} `{Eq A} (a b c : list A), NoDup a -> NoDup b -> NoDup c ->
    (forall x, In x c <-> In x a /\ In x b) -> a <> [] -> b <> [] ->
    let n (l : list A) := inject_Z (Z.of_nat (length l)) in
    (exists r, sorensen_dice_coefficient a b = Ok r /\ (r == 2 * n c / (n a + n b))%Q) /\
    (exists r, jaccard_index a b = Ok r /\ (r == n c / (n a + n b - n c))%Q) /\
    (exists r, overlap_coefficient a b = Ok r /\ (r == n c / Qmin (n a) (n b))%Q).
Proof. exact @SetSimilarity.values_ok. Qed.
Print Assumptions C15_values.
Example C15_example :
  jaccard_index [1;2;3] [2;3;4] = Ok (inject_Z 2 / inject_Z 4)%Q /\ NoDup [1;2;3] /\ NoDup [2;3;4].
Proof. split; [reflexivity|]. split; repeat constructor; cbn; intuition discriminate. Qed.

(** C16: histories of assignments [d[k] = v], oldest first *)
Theorem C16_getitem_last_assigned :
  forall {K V} `{Eq K} `{Eq V} (h : list (K * V)) (k : K),
    (exists v, twd_getitem (twd_run h) k = Ok v /\
       (exists h1 h2, h = h1 ++ (k, v) :: h2 /\ forall v', ~ In (k, v') h2) /\
       twd_contains (twd_run h) k = true) \/
    (twd_getitem (twd_run h) k = Err KeyError /\ (forall v, ~ In (k, v) h) /\
     twd_contains (twd_run h) k = false).
Proof. exact @TwoWayDict.getitem_ok. Qed.
Print Assumptions C16_getitem_last_assigned.
Theorem C16_inverse_all_ever_assigned :
  forall {K V} `{Eq K} `{Eq V} (h : list (K * V)) (v : V),
    (exists ks, twd_inverse_lookup (twd_run h) v = Ok ks /\ NoDup ks /\ ks <> [] /\
                forall k, In k ks <-> In (k, v) h) \/
    (twd_inverse_lookup (twd_run h) v = Err KeyError /\ forall k, ~ In (k, v) h).
Proof. exact @TwoWayDict.inverse_ok. Qed.
Print Assumptions C16_inverse_all_ever_assigned.
Theorem C16_inverse_exact_without_reassignment :
  forall {K V} `{Eq K} `{Eq V} (h : list (K * V)) (v : V),
    (forall k v1 v2, In (k, v1) h -> In (k, v2) h -> v1 = v2) ->
    forall ks, twd_inverse_lookup (twd_run h) v = Ok ks ->
    forall k, In k ks <-> twd_getitem (twd_run h) k = Ok v.
Proof. exact @TwoWayDict.inverse_exact. Qed.
Print Assumptions C16_inverse_exact_without_reassignment.
(** overwriting a key leaves a stale inverse entry *)
Example C16_example_stale :
  twd_inverse_lookup (twd_run [(1, 10); (2, 10); (1, 11)]) 10 = Ok [1; 2] /\
  twd_getitem (twd_run [(1, 10); (2, 10); (1, 11)]) 1 = Ok 11.
Proof. split; reflexivity. Qed.

(** C17 *)
Theorem C17_streaming_statistics :
  forall xs : list Q, (Z.of_nat (length xs) < 2 ^ 63)%Z ->
    st_len (st_of xs) = Z.of_nat (length xs) /\
    (xs = [] -> st_get_mean (st_of xs) == 0 /\
                st_minimum (st_of xs) = None /\ st_maximum (st_of xs) = None)%Q /\
    (xs <> [] -> (st_get_mean (st_of xs) == average xs)%Q /\
       (exists m, st_minimum (st_of xs) = Some m /\ is_minimum m xs) /\
       (exists m, st_maximum (st_of xs) = Some m /\ is_maximum m xs)) /\
    forall ddof, (- 2 ^ 31 <= ddof < 2 ^ 31)%Z ->
      ((0 <= ddof < Z.of_nat (length xs))%Z ->
         exists v, st_variance (st_of xs) ddof = Some v /\
                   (v == central 2 xs / (size xs - inject_Z ddof))%Q) /\
      (~ (0 <= ddof < Z.of_nat (length xs))%Z -> st_variance (st_of xs) ddof = None).
Proof. exact Statistics.push_report. Qed.
Print Assumptions C17_streaming_statistics.
(** the private sums of third and fourth powers *)
Theorem C17_third_and_fourth_moment :
  forall xs : list Q, xs <> [] -> (Z.of_nat (length xs) < 2 ^ 64)%Z ->
    (st_tau (st_of xs) == central 3 xs)%Q /\ (st_phi (st_of xs) == central 4 xs)%Q.
Proof. exact Statistics.push_third_fourth. Qed.
Print Assumptions C17_third_and_fourth_moment.
Example C17_example :
  exists v, st_variance (st_of [1;2;6]%Q) 1 = Some v /\ (v == 7)%Q /\ (st_get_mean (st_of [1;2;6]%Q) == 3)%Q.
Proof. eexists. split; [vm_compute; reflexivity|]. split; reflexivity. Qed.

(** C18: any tree of pushes and merges *)
Theorem C18_push_and_merge_histories :
  forall h : st_history, (Z.of_nat (length (st_values h)) < 2 ^ 63)%Z ->
    let s := st_run h in let xs := st_values h in
    st_len s = Z.of_nat (length xs) /\
    (xs = [] -> st_get_mean s == 0 /\ st_minimum s = None /\ st_maximum s = None)%Q /\
    (xs <> [] -> (st_get_mean s == average xs)%Q /\
       (exists m, st_minimum s = Some m /\ is_minimum m xs) /\
       (exists m, st_maximum s = Some m /\ is_maximum m xs)) /\
    forall ddof, (- 2 ^ 31 <= ddof < 2 ^ 31)%Z ->
      ((0 <= ddof < Z.of_nat (length xs))%Z ->
         exists v, st_variance s ddof = Some v /\ (v == central 2 xs / (size xs - inject_Z ddof))%Q) /\
      (~ (0 <= ddof < Z.of_nat (length xs))%Z -> st_variance s ddof = None).
Proof. exact Statistics.run_report. Qed.
Print Assumptions C18_push_and_merge_histories.
Example C18_example :
  let h := HMerge (HPush HEmpty 1%Q) (HPush (HPush HEmpty 2%Q) 6%Q) in
  st_values h = [1;2;6]%Q /\ (st_get_mean (st_run h) == 3)%Q.
Proof. split; reflexivity. Qed.
(** the standard deviation is the square root of the variance *)
Theorem C18_standard_deviation : forall (h : st_history) (ddof : Z),
  (Z.of_nat (length (st_values h)) < 2 ^ 63)%Z -> (- 2 ^ 31 <= ddof < 2 ^ 31)%Z ->
  let s := st_run h in let xs := st_values h in
  ((0 <= ddof < Z.of_nat (length xs))%Z ->
     exists d, st_stddev s ddof = Some d /\ (0 <= d)%R /\ (d * d)%R = Q2R (central 2 xs / (size xs - inject_Z ddof))) /\
  (~ (0 <= ddof < Z.of_nat (length xs))%Z -> st_stddev s ddof = None).
Proof. exact StandardDeviation.C18_standard_deviation. Qed.
Print Assumptions C18_standard_deviation.
Example C18_example_standard_deviation :
  exists d, st_stddev (st_run (HMerge (HPush HEmpty 1%Q) (HPush (HPush HEmpty 2%Q) 6%Q))) 1 = Some d /\ (d * d = 7)%R.
Proof.
  destruct (C18_standard_deviation (HMerge (HPush HEmpty 1%Q) (HPush (HPush HEmpty 2%Q) 6%Q)) 1) as [(d & E & _ & D) _]; [reflexivity|split; [discriminate|reflexivity]|split; [discriminate|reflexivity]|].
  exists d. split; [exact E|]. rewrite D. transitivity (Q2R (7 # 1)); [apply Qeq_eqR; reflexivity|]. unfold Q2R. cbn. rewrite Rinv_1. apply Rmult_1_r.
Qed.
(** the private third moment is wrong after merging a larger into a smaller
    one: the difference of the unsigned counts wraps around *)
Theorem C18_private_third_moment_wraps :
  exists xs ys, xs <> [] /\ ys <> [] /\
    ~ (st_tau (st_merge (st_of xs) (st_of ys)) == central 3 (xs ++ ys))%Q.
Proof. exact Statistics.merge_third_wraps. Qed.
Print Assumptions C18_private_third_moment_wraps.

(** C19: [draw k] is the k-th buffer the generator returns *)
Theorem C19_samples_replay_the_generator :
  forall {A} (size : nat) (choice : nat -> result (list A)) (draw : nat -> list A),
    1 <= size -> (forall k, choice k = Ok (draw k) /\ length (draw k) = size) ->
    forall n, exists xs b', bc_samples choice n (BC [] 0) = Ok (xs, b') /\ length xs = n /\
      (exists later, concat (map draw (seq 0 (bc_calls b'))) = xs ++ later) /\
      bc_calls b' * size < n + size.
Proof. exact @RandomUtils.bc_samples_ok. Qed.
Print Assumptions C19_samples_replay_the_generator.
Theorem C19_constructor :
  forall {A P} (options : list A) (probabilities : list P) size,
    (bc_create options probabilities size = Ok (BC [] 0) /\
       length options = length probabilities /\ (1 <= size)%Z) \/
    (bc_create options probabilities size = Err ValueError /\
       (length options <> length probabilities \/ (size < 1)%Z)).
Proof. exact @RandomUtils.bc_create_ok. Qed.
Print Assumptions C19_constructor.
Example C19_example :
  bc_samples (fun k => Ok [k; 10 + k]) 3 (BC [] 0) = Ok ([0; 10; 1], BC [11] 2).
Proof. reflexivity. Qed.
