(** The properties of code lengths *)
From Coq Require Import Reals ZArith Lra Lia List Arith.
From Verif.Model Require Import Base Mdl.
From Verif.Spec Require Import MdlSpec.
From Verif.Proofs Require Import MdlA MdlB MdlC.
Open Scope R_scope.
Open Scope list_scope.

(*P C91 Universal codes for integers *)
(** The table that is filled when the module is loaded exists, and with it
    the code length is log c + log n + log log n + ... for every positive
    integer; nothing else has a code length. *)
Lemma C91_values : exists fuel0 table, precomputed_L_N fuel0 = Ok table /\ length table = 100%nat /\
  forall n, ((n < 1)%Z -> forall fuel, L_N fuel table n = Err ValueError) /\
    ((1 <= n)%Z -> exists fuel1 L, universal_code (28565064 / 10000000) n L /\ forall fuel, (fuel1 <= fuel)%nat -> L_N fuel table n = Ok L).
Proof.
  destruct table_ex as (f0 & t & E). exists f0, t. split; [auto|]. split.
  - unfold precomputed_L_N in E. assert (G : forall l t', mapM (L_N f0 []) l = Ok t' -> length t' = length l).
    { induction l as [|z l IH]; intros t' Et; cbn [mapM] in Et; [injection Et as <-; auto|].
      destruct (L_N f0 [] z); [|discriminate]. cbn [bind] in Et. destruct (mapM (L_N f0 []) l); [|discriminate]. injection Et as <-. cbn. f_equal. auto. }
    rewrite (G _ _ E). unfold hundred. rewrite map_length, seq_length. auto.
  - intros n. split.
    + intros Hn fuel. unfold L_N. destruct (Z.ltb_spec n 1); [auto|lia].
    + intros Hn. destruct (table_some f0 t E n Hn) as (f1 & L & F). exists f1, L. split; [|auto]. apply (table_code f0 t E f1 n L). apply F. auto.
Qed.
(** The table changes no code length. *)
Lemma C91_table_invisible : forall fuel0 table, precomputed_L_N fuel0 = Ok table -> forall fuel fuel' n L L',
  L_N fuel table n = Ok L -> L_N fuel' [] n = Ok L' -> L = L'.
Proof.
  intros f0 t E f f' n L L' H H'. apply (table_code f0 t E) in H. apply L_N_code in H'. eapply code_fun; [apply H|apply H'].
Qed.
(** A larger integer has a longer code. *)
Lemma C91_increasing : forall fuel0 table, precomputed_L_N fuel0 = Ok table -> forall fuel fuel' n n' L L',
  (n < n')%Z -> L_N fuel table n = Ok L -> L_N fuel' table n' = Ok L' -> 0 < L < L'.
Proof.
  intros f0 t E f f' n n' L L' Hn H H'. apply (table_code f0 t E) in H, H'. destruct H as [H1 H2], H' as [H3 H4]. split.
  - destruct H2 as (k & P1 & _ & ->). assert (0 < lg c0) by (apply lg_pos; unfold c0; lra).
    assert (0 <= sum_R (map (fun j => lgs j (IZR n)) (seq 1 k))) by (apply sum_nonneg; intros i Hi; apply in_seq in Hi; left; apply P1; lia). lra.
  - apply (code_mono c0 n n'); auto.
Qed.
(** The code lengths of the C ints satisfy Kraft's inequality: there is a
    prefix code with these lengths. *)
Lemma C91_kraft : forall fuel0 table, precomputed_L_N fuel0 = Ok table -> forall (code : Z -> R) N,
  (forall n, (1 <= n <= Z.of_nat N)%Z -> exists fuel, L_N fuel table n = Ok (code n)) -> (Z.of_nat N < 2 ^ 31)%Z ->
  total (fun n => Rpower 2 (- code n)) N <= 1.
Proof.
  intros f0 t E code N H HN. apply kraft with (top := (Z.of_nat N + 1)%Z); [| |lia].
  - intros n Hn. destruct (H n ltac:(lia)) as [f Hf]. apply (table_code f0 t E f n _ Hf).
  - change (2 ^ 31)%Z with 2147483648%Z in HN. lia.
Qed.

(*P C92 Code lengths of binomials, compositions and multinomials *)
(** [log2binom n k] is the number of bits to select [k] of [n] things. *)
Lemma C92_binomial : forall lgamma betaln, is_lgamma lgamma -> is_betaln lgamma betaln -> forall n k, (0 <= k <= n)%Z ->
  exists c, exactly (selection (Z.to_nat n) (Z.to_nat k)) c /\ log2binom betaln n k = lg (INR c).
Proof.
  intros g b Hg Hb n k Hk. exists (length (selections (Z.to_nat n) (Z.to_nat k))). split.
  - exists (selections (Z.to_nat n) (Z.to_nat k)). split; [apply selections_NoDup|]. split; [|auto]. intros w. apply selections_spec.
  - apply (log2binom_ok g); auto.
Qed.
(** [L_U m n] is the number of bits to choose [n] positive numbers that sum to [m]. *)
Lemma C92_compositions : forall lgamma betaln, is_lgamma lgamma -> is_betaln lgamma betaln -> forall m n,
  (1 <= n <= m)%Z \/ (m = 0 /\ n = 0)%Z ->
  exists c, exactly (composition (Z.to_nat m) (Z.to_nat n)) c /\ L_U betaln m n = lg (INR c).
Proof.
  intros g b Hg Hb m n Hk. exists (length (compositions (Z.to_nat m) (Z.to_nat n))). split.
  - exists (compositions (Z.to_nat m) (Z.to_nat n)). split; [apply compositions_NoDup|]. split; [|auto]. intros w. apply compositions_spec.
  - destruct Hk as [Hk|[-> ->]]; [|cbn; rewrite lg_1; auto]. unfold L_U. destruct (Z.eqb_spec m 0); [lia|]. cbn [andb].
    rewrite (log2binom_ok g) by (auto; lia). rewrite <- compositions_length. replace (S (Z.to_nat (m - 1))) with (Z.to_nat m) by lia. replace (S (Z.to_nat (n - 1))) with (Z.to_nat n) by lia. auto.
Qed.
(** [log2multinom n ks] is the number of bits to arrange [n] symbols of which
    the [i]-th occurs [ks[i]] times; other sums are refused. *)
Lemma C92_multinomial : forall lgamma, is_lgamma lgamma -> forall n ks, Forall (fun k => (0 <= k)%Z) ks ->
  (n <> fold_right Z.add 0%Z ks -> log2multinom lgamma n ks = Err ValueError) /\
  (n = fold_right Z.add 0%Z ks -> exists c, exactly (arrangement (map Z.to_nat ks)) c /\ log2multinom lgamma n ks = Ok (lg (INR c))).
Proof.
  intros g Hg n ks Hks. assert (Es : fold_left Z.add ks 0%Z = fold_right Z.add 0%Z ks) by (apply fold_symmetric; intros; lia).
  unfold log2multinom. rewrite Es. split; intros Hn.
  - destruct (Z.eqb_spec n (fold_right Z.add 0%Z ks)); [contradiction|]. auto.
  - set (l := map Z.to_nat ks). exists (length (arrangements (sum_nat l) l)). split.
    + exists (arrangements (sum_nat l) l). split; [apply arrangements_NoDup|]. split; [|auto]. intros w. apply arrangements_spec. auto.
    + rewrite Hn, Z.eqb_refl. cbn [negb]. f_equal. rewrite (lg_quot _ _ _ (arrangements_length (sum_nat l) l eq_refl) (fact_ge1 _)).
      rewrite multinom_fold by auto. fold l. f_equal. f_equal. rewrite <- Es, (fold_add_sum ks Hks). fold l.
      rewrite lgamma_factZ by (auto; lia). rewrite Nat2Z.id. auto.
Qed.

(*P C93 Prequential codes *)
(** The code length depends on nothing but the counts: it is the number of
    bits to send any sequence with these counts symbol by symbol. *)
Lemma C93_sequential : forall (X : Type) (dec : forall x y : X, {x = y} + {x <> y}) lgamma epsilon (alphabet sequence : list X),
  is_lgamma lgamma -> 0 < epsilon -> NoDup alphabet -> incl sequence alphabet ->
  prequential_coding_length lgamma (map (fun x => Z.of_nat (count_occ dec sequence x)) alphabet) epsilon
  = sequential_bits dec epsilon (length alphabet) [] sequence.
Proof. intros. apply prequential_ok; auto. Qed.
(** Nothing that is sent has a negative length. *)
Lemma C93_nonnegative : forall (X : Type) (dec : forall x y : X, {x = y} + {x <> y}) lgamma epsilon (alphabet sequence : list X),
  is_lgamma lgamma -> 0 < epsilon -> NoDup alphabet -> incl sequence alphabet ->
  0 <= prequential_coding_length lgamma (map (fun x => Z.of_nat (count_occ dec sequence x)) alphabet) epsilon.
Proof.
  intros X dec g eps syms w Hg He Hs Hi. rewrite prequential_ok by auto.
  assert (G : forall rest seen, incl rest syms -> 0 <= sequential_bits dec eps (length syms) seen rest).
  { induction rest as [|x rest IH]; intros seen Hr; cbn [sequential_bits]; [lra|].
    assert (0 <= sequential_bits dec eps (length syms) (x :: seen) rest) by (apply IH; intros y Hy; apply Hr; right; auto).
    assert (Hx : In x syms) by (apply Hr; left; auto). assert (Hm : 1 <= INR (length syms)) by (apply (le_INR 1); destruct syms; [destruct Hx|cbn; lia]).
    assert (Hc : INR (count_occ dec seen x) <= INR (length seen)) by (apply le_INR, count_occ_bound). assert (Hp := pos_INR (count_occ dec seen x)).
    assert (Hem : eps <= eps * INR (length syms)) by (rewrite <- (Rmult_1_r eps) at 1; apply Rmult_le_compat_l; lra).
    set (a := INR (count_occ dec seen x) + eps) in *. set (b := INR (length seen) + eps * INR (length syms)) in *.
    assert (0 < a <= b) by (unfold a, b; lra).
    assert (lg (a / b) <= 0); [|lra]. rewrite <- lg_1. apply lg_le; [apply Rdiv_lt_0_compat; lra|]. apply Rmult_le_reg_r with b; [lra|].
    unfold Rdiv. rewrite Rmult_assoc, Rinv_l by lra. lra. }
  apply G. auto.
Qed.

(*P C94 Cached and tabulated logarithms, codes for real numbers *)
(** Whatever has been asked before and whatever the cache has dropped:
    the cached function is the function. *)
Lemma C94_cached_lgamma : forall lgamma calls, (forall x forget, In (x, forget) calls -> forall cache, incl (forget cache) cache) ->
  cached_calls lgamma calls [] = map (fun call => lgamma (fst call)) calls.
Proof.
  intros g calls. assert (G : forall calls cache, (forall k v, In (k, v) cache -> v = g k) ->
    (forall x forget, In (x, forget) calls -> forall cache, incl (forget cache) cache) -> cached_calls g calls cache = map (fun call => g (fst call)) calls).
  { induction calls0 as [|[x f] r IH]; intros cache Hc Hf; [auto|]. cbn [cached_calls map fst]. unfold cached_lgamma.
    destruct (find (fun '(k, _) => if Req_EM_T k x then true else false) cache) as [[k v]|] eqn:E.
    - apply find_some in E. destruct E as [E1 E2]. destruct (Req_EM_T k x) as [->|]; [|discriminate]. rewrite (Hc _ _ E1). f_equal. apply IH; auto.
      intros y fo Hy. apply (Hf y fo). right. auto.
    - f_equal. apply IH; [|intros y fo Hy; apply (Hf y fo); right; auto]. intros k v Hin. apply (Hf x f (or_introl eq_refl)) in Hin. destruct Hin as [Ek|Hin]; [congruence|auto]. }
  intros Hf. apply G; auto. intros k v [].
Qed.
(** The tabulated function is log 1 + ... + log n. *)
Lemma C94_sum_of_logs : forall lgamma, is_lgamma lgamma -> exists table, precomputed_sums lgamma = Ok table /\ forall n,
  ((n < 1)%Z -> sum_log_i_from_1_to_n lgamma table n = Err ValueError) /\
  ((1 <= n)%Z -> sum_log_i_from_1_to_n lgamma table n = Ok (sum_R (map (fun i => lg (INR i)) (seq 1 (Z.to_nat n))))).
Proof.
  intros g Hg. set (v := fun n => sum_R (map (fun i => lg (INR i)) (seq 1 (Z.to_nat n)))).
  assert (V : forall n, (1 <= n)%Z -> g (IZR n + 1) / ln 2 = v n).
  { intros n Hn. rewrite lgamma_factZ by (auto; lia). unfold v. generalize (Z.to_nat n). clear. induction n as [|n IH].
    - cbn. rewrite ln_1. unfold Rdiv. ring.
    - rewrite seq_S, map_app, sum_R_app, <- IH. cbn [map sum_R fold_right plus]. change (fact (S n)) with (S n * fact n)%nat.
      rewrite mult_INR, ln_mult by (apply INR_fact_pos || apply lt_0_INR; lia). unfold lg. unfold Rdiv. ring. }
  assert (E : precomputed_sums g = Ok (map v hundred)).
  { unfold precomputed_sums. assert (Hh : Forall (fun n => (1 <= n)%Z) hundred).
    { unfold hundred. apply Forall_forall. intros z Hz. apply in_map_iff in Hz. destruct Hz as (i & <- & Hi). apply in_seq in Hi. lia. }
    induction Hh as [|z l Hz Hl IH]; [auto|]. cbn [mapM map]. unfold sum_log_i_from_1_to_n at 1. destruct (Z.ltb_spec z 1); [lia|].
    replace (nth_error [] (Z.to_nat (z - 1))) with (@None R) by (destruct (Z.to_nat (z - 1)); auto). cbn [bind]. rewrite IH, V by auto. reflexivity. }
  exists (map v hundred). split; [auto|]. intros n. unfold sum_log_i_from_1_to_n. destruct (Z.ltb_spec n 1) as [Hn|Hn]; (split; intros Hn'; [auto; lia|]); [lia|].
  destruct (nth_error (map v hundred) (Z.to_nat (n - 1))) as [x|] eqn:En; [|rewrite V by auto; auto]. f_equal.
  rewrite nth_error_map in En. destruct (nth_error hundred (Z.to_nat (n - 1))) as [z|] eqn:Ez; [|discriminate]. injection En as <-.
  assert (z = n); [|subst; auto]. unfold hundred in Ez. rewrite nth_error_map in Ez. destruct (nth_error (seq 1 100) (Z.to_nat (n - 1))) as [j|] eqn:Ej; [|discriminate].
  injection Ez as <-. assert (Hi : (Z.to_nat (n - 1) < 100)%nat). { rewrite <- (seq_length 100 1). apply nth_error_Some. congruence. }
  apply (nth_error_nth _ _ 0%nat) in Ej. rewrite seq_nth in Ej by auto. lia.
Qed.

Lemma ceil_spec x : IZR (ceil x) - 1 < x <= IZR (ceil x).
Proof.
  unfold ceil. rewrite opp_IZR. destruct (base_Int_part (- x)) as [H1 H2]. lra.
Qed.
Lemma ceil_pos x : 0 < x -> (1 <= ceil x)%Z.
Proof. intros H. destruct (ceil_spec x) as [_ H1]. assert (0 < IZR (ceil x)) by lra. apply (lt_IZR 0) in H0. lia. Qed.
Lemma ln10_pos : 0 < ln 10.
Proof. rewrite <- ln_1. apply ln_increasing; lra. Qed.
Lemma ten_pow s : powerRZ 10 s = exp (IZR s * ln 10).
Proof. rewrite powerRZ_Rpower by lra. reflexivity. Qed.
Lemma shift_ok x p : 0 < x -> powerRZ 10 p <= x * powerRZ 10 (ceil (IZR p - log10 x)).
Proof.
  intros Hx. destruct (ceil_spec (IZR p - log10 x)) as [_ H]. set (s := ceil (IZR p - log10 x)) in *. rewrite !ten_pow.
  rewrite <- (exp_ln x) at 1 by auto. rewrite <- exp_plus. assert (Hl := ln10_pos).
  assert (E : log10 x * ln 10 = ln x) by (unfold log10; field; lra).
  assert (IZR p * ln 10 <= ln x + IZR s * ln 10).
  { rewrite <- E, <- Rmult_plus_distr_r. apply Rmult_le_compat_r; lra. }
  destruct H0 as [H0| ->]; [left; apply exp_increasing; auto|right; auto].
Qed.
Lemma shift_top x p : 0 < x -> x * powerRZ 10 (ceil (IZR p - log10 x)) < powerRZ 10 (p + 1).
Proof.
  intros Hx. destruct (ceil_spec (IZR p - log10 x)) as [H _]. set (s := ceil (IZR p - log10 x)) in *. rewrite !ten_pow.
  rewrite <- (exp_ln x) at 1 by auto. rewrite <- exp_plus. assert (Hl := ln10_pos). apply exp_increasing.
  assert (E : log10 x * ln 10 = ln x) by (unfold log10; field; lra).
  rewrite <- E, <- Rmult_plus_distr_r, plus_IZR. apply Rmult_lt_compat_r; lra.
Qed.
Lemma ten_le a b : (a <= b)%Z -> powerRZ 10 a <= powerRZ 10 b.
Proof.
  intros H. rewrite !ten_pow. destruct (Z.eq_dec a b) as [->|]; [lra|]. left. apply exp_increasing. apply Rmult_lt_compat_r; [apply ln10_pos|].
  apply IZR_lt. lia.
Qed.
Lemma code_int y p : 0 < y -> (p <= 8)%Z -> y <= IZR (2 ^ 31 - 1) ->
  (ceil (y * powerRZ 10 (Z.max (ceil (IZR p - log10 y)) 0)) < 2 ^ 31)%Z.
Proof.
  intros Hy Hp Hb. assert (Ht := shift_top y p Hy). set (s := ceil (IZR p - log10 y)) in *.
  set (z := y * powerRZ 10 (Z.max s 0)). destruct (ceil_spec z) as [H _].
  assert (B : z <= IZR (2 ^ 31 - 1)).
  { unfold z. destruct (Z.max_spec s 0) as [[_ ->]|[_ ->]].
    - cbn [powerRZ]. lra.
    - assert (L := ten_le (p + 1) 9 ltac:(lia)). apply Rle_trans with (powerRZ 10 9); [lra|]. change (powerRZ 10 9) with (IZR 10 ^ Pos.to_nat 9)%R. rewrite pow_IZR. apply IZR_le. vm_compute. discriminate. }
  apply lt_IZR. rewrite minus_IZR in B. lra.
Qed.
(** The code of a real number: three signs for zero, negative and positive;
    otherwise the signs of the number and of the shift, the size of the shift
    and an integer, from which the number can be restored with a relative
    error below 10^-precision. It always exists. The integer is a C int for
    precisions up to 8 and numbers up to the largest C int. *)
Lemma C94_real_numbers : forall fuel0 table, precomputed_L_N fuel0 = Ok table -> forall x precision,
  exists fuel1 L, (forall fuel, (fuel1 <= fuel)%nat -> L_R fuel table x precision = Ok L /\ L_R fuel table (- x) precision = Ok L) /\
    (x = 0 -> L = lg 3) /\
    (x <> 0 -> exists shift k shift_bits k_bits,
      0 <= IZR k / powerRZ 10 (Z.max shift 0) - Rabs x < Rabs x * powerRZ 10 (- precision) /\
      (if (shift =? 0)%Z then shift_bits = 0 else universal_code (28565064 / 10000000) (Z.abs shift) shift_bits) /\
      universal_code (28565064 / 10000000) k k_bits /\
      L = 2 * lg 3 + shift_bits + k_bits /\
      ((precision <= 8)%Z -> Rabs x <= IZR (2 ^ 31 - 1) -> (k < 2 ^ 31)%Z)).
Proof.
  intros f0 t E x p. destruct (Req_EM_T x 0) as [->|Hx].
  - exists 0%nat, (lg 3). split; [|split; [auto|contradiction]]. intros f _. unfold L_R. rewrite Ropp_0. destruct (Req_EM_T 0 0); [auto|contradiction].
  - set (y := Rabs x). assert (Hy : 0 < y) by (apply Rabs_pos_lt; auto).
    assert (Ey : (if Rlt_dec x 0 then - x else x) = y) by (unfold y, Rabs; destruct (Rcase_abs x), (Rlt_dec x 0); lra).
    assert (Ey' : (if Rlt_dec (- x) 0 then - - x else - x) = y) by (unfold y, Rabs; destruct (Rcase_abs x), (Rlt_dec (- x) 0); lra).
    set (s := ceil (IZR p - log10 y)). assert (Sh := shift_ok y p Hy). fold s in Sh.
    assert (T : forall z, 0 < powerRZ 10 z) by (intros z; apply powerRZ_lt; lra).
    set (k := ceil (y * powerRZ 10 (Z.max s 0))).
    assert (Hk : (1 <= k)%Z) by (apply ceil_pos; apply Rmult_lt_0_compat; auto).
    destruct (table_some f0 t E k Hk) as (fk & Lk & Fk). assert (Uk := proj2 (table_code f0 t E fk k Lk (Fk fk (le_n _)))).
    assert (R : forall f v (u : R), v <> 0 -> (if Rlt_dec v 0 then - v else v) = y ->
      (if (s =? 0)%Z then u = 0 else L_N f t (Z.abs s) = Ok u) -> L_N f t k = Ok Lk -> L_R f t v p = Ok (2 * lg 3 + u + Lk)).
    { intros f v u Hv Ev Hu HL. unfold L_R. destruct (Req_EM_T v 0); [contradiction|]. rewrite Ev. fold s. change (log2 3) with (lg 3).
      destruct (Z.ltb_spec 0 s) as [H|H].
      - destruct (Z.eqb_spec s 0); [lia|]. rewrite Z.abs_eq in Hu by lia. rewrite Hu. cbn [bind].
        unfold k in HL. rewrite Z.max_l in HL by lia. rewrite Z.max_l by (unfold k in Hk; rewrite Z.max_l in Hk by lia; lia). rewrite HL. cbn [bind]. f_equal. lra.
      - assert (Ek : k = ceil y) by (unfold k; rewrite Z.max_r by lia; cbn [powerRZ]; rewrite Rmult_1_r; auto). rewrite Ek in *.
        destruct (Z.ltb_spec s 0) as [H'|H'].
        + destruct (Z.eqb_spec s 0); [lia|]. rewrite Z.abs_neq in Hu by lia. rewrite Hu. cbn [bind]. rewrite Z.max_r by lia. rewrite HL. cbn [bind]. f_equal. lra.
        + destruct (Z.eqb_spec s 0); [|lia]. subst u. rewrite HL. cbn [bind]. f_equal. lra. }
    assert (B : 0 <= IZR k / powerRZ 10 (Z.max s 0) - y < y * powerRZ 10 (- p)).
    { destruct (ceil_spec (y * powerRZ 10 (Z.max s 0))) as [C1 C2]. fold k in C1, C2. set (q := powerRZ 10 (Z.max s 0)) in *. assert (Hq : 0 < q) by apply T.
      assert (D : 1 <= y * powerRZ 10 (- p) * q).
      { assert (Q : powerRZ 10 p <= y * q).
        { unfold q. destruct (Z.max_spec s 0) as [[H ->]|[H ->]]; [|auto]. eapply Rle_trans; [exact Sh|]. apply Rmult_le_compat_l; [lra|].
          rewrite !ten_pow. destruct (Z.eq_dec s 0) as [->|]; [lra|]. left. apply exp_increasing. rewrite !Rmult_0_l.
          assert (IZR s < 0) by (apply (IZR_lt _ 0); lia). pose proof ln10_pos.
          replace 0 with (0 * ln 10) by ring. apply Rmult_lt_compat_r; auto. }
        replace (y * powerRZ 10 (- p) * q) with (powerRZ 10 (- p) * (y * q)) by ring.
        apply Rle_trans with (powerRZ 10 (- p) * powerRZ 10 p); [|apply Rmult_le_compat_l; [left; apply T|auto]].
        rewrite <- powerRZ_add by lra. rewrite Z.add_opp_diag_l. cbn. lra. }
      split.
      - assert (y <= IZR k / q); [|lra]. apply Rmult_le_reg_r with q; [auto|]. unfold Rdiv. rewrite Rmult_assoc, Rinv_l by lra. lra.
      - apply Rmult_lt_reg_r with q; [auto|]. unfold Rdiv, Rminus. rewrite Rmult_plus_distr_r, Rmult_assoc, Rinv_l by lra. lra. }
    destruct (Z.eqb_spec s 0) as [Hs|Hs].
    + exists fk, (2 * lg 3 + 0 + Lk). split; [|split; [contradiction|]].
      * intros f Hf. split; apply R; auto; lra.
      * intros _. exists s, k, 0, Lk. split; [exact B|]. destruct (Z.eqb_spec s 0); [|contradiction]. pose proof (code_int y p Hy). auto.
    + destruct (table_some f0 t E (Z.abs s) ltac:(lia)) as (fs & Ls & Fs). assert (Us := proj2 (table_code f0 t E fs _ Ls (Fs fs (le_n _)))).
      exists (fk + fs)%nat, (2 * lg 3 + Ls + Lk). split; [|split; [contradiction|]].
      * intros f Hf. split; apply R; auto; try lra; try (apply Fs; lia); apply Fk; lia.
      * intros _. exists s, k, Ls, Lk. split; [exact B|]. destruct (Z.eqb_spec s 0); [contradiction|]. pose proof (code_int y p Hy). auto.
Qed.

(** ** There are functions as the theorems ask for *)
Lemma ceil_unique x z : IZR z - 1 < x <= IZR z -> ceil x = z.
Proof.
  intros H. destruct (ceil_spec x) as [H1 H2]. assert (IZR z < IZR (ceil x + 1)) by (rewrite plus_IZR; lra).
  assert (IZR (ceil x) < IZR (z + 1)) by (rewrite plus_IZR; lra). apply lt_IZR in H0, H3. lia.
Qed.
Definition a_lgamma (x : R) : R := sum_R (map (fun i => ln (x - INR i)) (seq 1 (Z.to_nat (ceil x - 1)))).
Definition a_betaln (a b : R) : R := a_lgamma a + a_lgamma b - a_lgamma (a + b).
Lemma a_lgamma_ok : is_lgamma a_lgamma.
Proof.
  split.
  - unfold a_lgamma. rewrite (ceil_unique 1 1) by lra. reflexivity.
  - intros x Hx. unfold a_lgamma. assert (E : ceil (x + 1) = (ceil x + 1)%Z) by (apply ceil_unique; rewrite plus_IZR; pose proof (ceil_spec x); lra).
    assert (Hc := ceil_pos x Hx). rewrite E. replace (Z.to_nat (ceil x + 1 - 1)) with (S (Z.to_nat (ceil x - 1))) by lia.
    cbn [seq map sum_R fold_right]. rewrite <- seq_shift, map_map. replace (x + 1 - INR 1) with x by (cbn; lra).
    rewrite Rplus_comm. f_equal. unfold sum_R. f_equal. apply map_ext. intros i. rewrite S_INR. f_equal. lra.
Qed.
Lemma a_betaln_ok : is_betaln a_lgamma a_betaln.
Proof. intros a b _ _. reflexivity. Qed.
