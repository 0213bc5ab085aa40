(** Properties C91 to C94: code lengths *)
From Coq Require Import Reals ZArith Lra Lia List Arith.
From Verif.Model Require Import Base Mdl.
From Verif.Spec Require Import MdlSpec.
From Verif.Proofs Require MdlA MdlB MdlC MdlD MdlE.
Open Scope R_scope.
Open Scope list_scope.
(** functions like those of scipy exist *)
Example ex_gamma : is_lgamma MdlD.a_lgamma /\ is_betaln MdlD.a_lgamma MdlD.a_betaln.
Proof. exact (conj MdlD.a_lgamma_ok MdlD.a_betaln_ok). Qed.
(** and so does the table *)
Example ex_table : exists fuel0 table, precomputed_L_N fuel0 = Ok table.
Proof. exact MdlB.table_ex. Qed.

(** C91: Universal codes for integers *)
(** The table that is filled when the module is loaded exists, and with it
    the code length is log c + log n + log log n + ... for every positive
    integer; nothing else has a code length. *)
Theorem C91_values : exists fuel0 table, precomputed_L_N fuel0 = Ok table /\ length table = 100%nat /\
  forall n, ((n < 1)%Z -> forall fuel, L_N fuel table n = Err ValueError) /\
    ((1 <= n)%Z -> exists fuel1 L, universal_code (28565064 / 10000000) n L /\ forall fuel, (fuel1 <= fuel)%nat -> L_N fuel table n = Ok L).
Proof. exact @MdlD.C91_values. Qed.
Print Assumptions C91_values.
(** The table changes no code length. *)
Theorem C91_table_invisible : forall fuel0 table, precomputed_L_N fuel0 = Ok table -> forall fuel fuel' n L L',
  L_N fuel table n = Ok L -> L_N fuel' [] n = Ok L' -> L = L'.
Proof. exact @MdlD.C91_table_invisible. Qed.
Print Assumptions C91_table_invisible.
(** A larger integer has a longer code. *)
Theorem C91_increasing : forall fuel0 table, precomputed_L_N fuel0 = Ok table -> forall fuel fuel' n n' L L',
  (n < n')%Z -> L_N fuel table n = Ok L -> L_N fuel' table n' = Ok L' -> 0 < L < L'.
Proof. exact @MdlD.C91_increasing. Qed.
Print Assumptions C91_increasing.
(** The code lengths of the C ints satisfy Kraft's inequality: there is a
    prefix code with these lengths. *)
Theorem C91_kraft : forall fuel0 table, precomputed_L_N fuel0 = Ok table -> forall (code : Z -> R) N,
  (forall n, (1 <= n <= Z.of_nat N)%Z -> exists fuel, L_N fuel table n = Ok (code n)) -> (Z.of_nat N < 2 ^ 31)%Z ->
  total (fun n => Rpower 2 (- code n)) N <= 1.
Proof. exact @MdlD.C91_kraft. Qed.
Print Assumptions C91_kraft.
(** Over all integers the inequality fails, however the lengths of larger
    integers are defined: for some (very large) [N] the sum exceeds 1. *)
Theorem C91_kraft_fails_witness : forall fuel0 table, precomputed_L_N fuel0 = Ok table -> exists (code : Z -> R) N,
  (forall n, (1 <= n <= Z.of_nat N)%Z -> exists fuel, L_N fuel table n = Ok (code n)) /\
  1 < total (fun n => Rpower 2 (- code n)) N.
Proof. exact @MdlE.C91_kraft_fails_witness. Qed.
Print Assumptions C91_kraft_fails_witness.
(** log 16 + log log 16 + log log log 16, then the logarithm is 0 *)
Example C91_example : L_N 4 [] 16 = Ok (lg (28565064 / 10000000) + 4 + 2 + 1).
Proof.
  change (L_N_loop 4 (lg 16) (lg (28565064 / 10000000)) = Ok (lg (28565064 / 10000000) + 4 + 2 + 1)). rewrite MdlB.lg_16.
  do 3 (cbn [L_N_loop]; destruct (Rlt_dec 0 _); [|first [lra|reflexivity]]; match goal with |- context [log2 ?x] => change (log2 x) with (lg x) end;
    first [rewrite MdlB.lg_4|rewrite MdlA.lg_2|rewrite MdlA.lg_1]).
  cbn [L_N_loop]. destruct (Rlt_dec 0 0); [exfalso; lra|reflexivity].
Qed.

(** C92: Code lengths of binomials, compositions and multinomials *)
(** [log2binom n k] is the number of bits to select [k] of [n] things. *)
Theorem C92_binomial : forall lgamma betaln, is_lgamma lgamma -> is_betaln lgamma betaln -> forall n k, (0 <= k <= n)%Z ->
  exists c, exactly (selection (Z.to_nat n) (Z.to_nat k)) c /\ log2binom betaln n k = lg (INR c).
Proof. exact @MdlD.C92_binomial. Qed.
Print Assumptions C92_binomial.
(** [L_U m n] is the number of bits to choose [n] positive numbers that sum to [m]. *)
Theorem C92_compositions : forall lgamma betaln, is_lgamma lgamma -> is_betaln lgamma betaln -> forall m n,
  (1 <= n <= m)%Z \/ (m = 0 /\ n = 0)%Z ->
  exists c, exactly (composition (Z.to_nat m) (Z.to_nat n)) c /\ L_U betaln m n = lg (INR c).
Proof. exact @MdlD.C92_compositions. Qed.
Print Assumptions C92_compositions.
(** [log2multinom n ks] is the number of bits to arrange [n] symbols of which
    the [i]-th occurs [ks[i]] times; other sums are refused. *)
Theorem C92_multinomial : forall lgamma, is_lgamma lgamma -> forall n ks, Forall (fun k => (0 <= k)%Z) ks ->
  (n <> fold_right Z.add 0%Z ks -> log2multinom lgamma n ks = Err ValueError) /\
  (n = fold_right Z.add 0%Z ks -> exists c, exactly (arrangement (map Z.to_nat ks)) c /\ log2multinom lgamma n ks = Ok (lg (INR c))).
Proof. exact @MdlD.C92_multinomial. Qed.
Print Assumptions C92_multinomial.
(** 4 = 1 + 3 = 2 + 2 = 3 + 1, and the words 001, 010, 100 *)
Example C92_example : exactly (composition 4 2) 3 /\ exactly (arrangement [2; 1]%nat) 3 /\ exactly (selection 3 1) 3.
Proof.
  split; [|split].
  - exists (MdlC.compositions 4 2). split; [apply MdlC.compositions_NoDup|]. split; [intros; apply MdlC.compositions_spec|reflexivity].
  - exists (MdlC.arrangements 3 [2; 1]%nat). split; [apply MdlC.arrangements_NoDup|]. split; [intros; apply MdlC.arrangements_spec; reflexivity|reflexivity].
  - exists (MdlC.selections 3 1). split; [apply MdlC.selections_NoDup|]. split; [intros; apply MdlC.selections_spec|reflexivity].
Qed.

(** C93: Prequential codes *)
(** The code length depends on nothing but the counts: it is the number of
    bits to send any sequence with these counts symbol by symbol. *)
Theorem C93_sequential : forall (X : Type) (dec : forall x y : X, {x = y} + {x <> y}) lgamma epsilon (alphabet sequence : list X),
  is_lgamma lgamma -> 0 < epsilon -> NoDup alphabet -> incl sequence alphabet ->
  prequential_coding_length lgamma (map (fun x => Z.of_nat (count_occ dec sequence x)) alphabet) epsilon
  = sequential_bits dec epsilon (length alphabet) [] sequence.
Proof. exact @MdlD.C93_sequential. Qed.
Print Assumptions C93_sequential.
(** Nothing that is sent has a negative length. *)
Theorem C93_nonnegative : forall (X : Type) (dec : forall x y : X, {x = y} + {x <> y}) lgamma epsilon (alphabet sequence : list X),
  is_lgamma lgamma -> 0 < epsilon -> NoDup alphabet -> incl sequence alphabet ->
  0 <= prequential_coding_length lgamma (map (fun x => Z.of_nat (count_occ dec sequence x)) alphabet) epsilon.
Proof. exact @MdlD.C93_nonnegative. Qed.
Print Assumptions C93_nonnegative.
(** the word 0 1 over two symbols with epsilon 1/2: probabilities 1/2 and
    1/4, hence three bits *)
Example C93_example : sequential_bits Nat.eq_dec (1 / 2) 2 [] [0; 1]%nat = 3.
Proof.
  cbn. replace ((0 + 1 / 2) / (0 + 1 / 2 * (1 + 1))) with (/ 2) by lra. replace ((0 + 1 / 2) / (1 + 1 / 2 * (1 + 1))) with (/ (2 * 2)) by lra.
  unfold lg. rewrite !ln_Rinv by lra. rewrite ln_mult by lra. field. pose proof MdlA.ln2_pos. lra.
Qed.

(** C94: Cached and tabulated logarithms, codes for real numbers *)
(** Whatever has been asked before and whatever the cache has dropped:
    the cached function is the function. *)
Theorem C94_cached_lgamma : forall lgamma calls, (forall x forget, In (x, forget) calls -> forall cache, incl (forget cache) cache) ->
  cached_calls lgamma calls [] = map (fun call => lgamma (fst call)) calls.
Proof. exact @MdlD.C94_cached_lgamma. Qed.
Print Assumptions C94_cached_lgamma.
(** The tabulated function is log 1 + ... + log n. *)
Theorem C94_sum_of_logs : forall lgamma, is_lgamma lgamma -> exists table, precomputed_sums lgamma = Ok table /\ forall n,
  ((n < 1)%Z -> sum_log_i_from_1_to_n lgamma table n = Err ValueError) /\
  ((1 <= n)%Z -> sum_log_i_from_1_to_n lgamma table n = Ok (sum_R (map (fun i => lg (INR i)) (seq 1 (Z.to_nat n))))).
Proof. exact @MdlD.C94_sum_of_logs. Qed.
Print Assumptions C94_sum_of_logs.
(** The code of a real number: three signs for zero, negative and positive;
    otherwise the signs of the number and of the shift, the size of the shift
    and an integer, from which the number can be restored with a relative
    error below 10^-precision. It always exists. The integer is a C int for
    precisions up to 8 and numbers up to the largest C int. *)
Theorem C94_real_numbers : forall fuel0 table, precomputed_L_N fuel0 = Ok table -> forall x precision,
  exists fuel1 L, (forall fuel, (fuel1 <= fuel)%nat -> L_R fuel table x precision = Ok L /\ L_R fuel table (- x) precision = Ok L) /\
    (x = 0 -> L = lg 3) /\
    (x <> 0 -> exists shift k shift_bits k_bits,
      0 <= IZR k / powerRZ 10 (Z.max shift 0) - Rabs x < Rabs x * powerRZ 10 (- precision) /\
      (if (shift =? 0)%Z then shift_bits = 0 else universal_code (28565064 / 10000000) (Z.abs shift) shift_bits) /\
      universal_code (28565064 / 10000000) k k_bits /\
      L = 2 * lg 3 + shift_bits + k_bits /\
      ((precision <= 8)%Z -> Rabs x <= IZR (2 ^ 31 - 1) -> (k < 2 ^ 31)%Z)).
Proof. exact @MdlD.C94_real_numbers. Qed.
Print Assumptions C94_real_numbers.
(** a cache that keeps nothing but the last entry *)
Example C94_example : forall cache : list (R * R), incl (firstn 1 cache) cache.
Proof. intros cache x. destruct cache as [|y c]; cbn; intuition. Qed.
