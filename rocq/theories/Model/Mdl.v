(** Code lengths of the minimum description length principle: mdl_utils.pyx.
    Doubles are real numbers; C ints are integers without overflow. [lgamma]
    and [betaln] of scipy are function arguments. *)
From Coq Require Import Reals ZArith.
From Verif.Model Require Import Base.
Open Scope R_scope.
Open Scope list_scope.

(** libc's [log2] and [log10] *)
Definition log2 (x : R) : R := ln x / ln 2.
Definition log10 (x : R) : R := ln x / ln 10.
(** libc's [ceil] *)
Definition ceil (x : R) : Z := (- Int_part (- x))%Z.

(** 53-57, the loop of [L_N]; [Rlt_dec] decides the comparison of doubles *)
Fixpoint L_N_loop (fuel : nat) (summand code_length : R) : result R :=
  match fuel with
  | O => Err OutOfFuel
  | S f => if Rlt_dec 0 summand then L_N_loop f (log2 summand) (code_length + summand) else Ok code_length
  end.
(** 35-57; [table] is [_PRECOMPUTED_LN] *)
Definition L_N (fuel : nat) (table : list R) (n : Z) : result R :=
  if (n <? 1)%Z then Err ValueError
  else match nth_error table (Z.to_nat (n - 1)) with
       | Some v => Ok v
       | None => L_N_loop fuel (log2 (IZR n)) (log2 (28565064 / 10000000))
       end.
(** [range(1, 101)] *)
Definition hundred : list Z := map Z.of_nat (seq 1 100).
(** 31, 176: the list is empty while it is filled *)
Definition precomputed_L_N (fuel : nat) : result (list R) := mapM (L_N fuel []) hundred.

Section Gamma.
  Variables (lgamma : R -> R) (betaln : R -> R -> R).
  (** 59-70 *)
  Definition log2binom (n k : Z) : R :=
    if (k =? 0)%Z then 0
    else if (k =? 1)%Z then log2 (IZR n)
    else (- betaln (1 + IZR n - IZR k) (1 + IZR k) - ln (IZR n + 1)) / ln 2.
  (** 72-79 *)
  Definition log2multinom (n : Z) (ks : list Z) : result R :=
    if negb (n =? fold_left Z.add ks 0)%Z then Err ValueError
    else Ok (fold_left (fun r k => r - lgamma (IZR k + 1)) ks (lgamma (IZR n + 1)) / ln 2).
  (** 81-88 *)
  Definition L_U (m n : Z) : R :=
    if (m =? 0)%Z && (n =? 0)%Z then 0 else log2binom (m - 1) (n - 1).
  (** 90-121; the values of the dictionary in order. [cached_lgamma] is
      [lgamma], see [C94] *)
  Definition prequential_coding_length (counts : list Z) (epsilon : R) : R :=
    let m := INR (length counts) in
    let len := fold_left Z.add counts 0%Z in
    if (length counts <=? 1)%nat || (len =? 0)%Z then 0
    else
      fold_left (fun r u => r - (lgamma (epsilon + IZR u) - lgamma epsilon)) counts
        (lgamma (epsilon * m + IZR len) - lgamma (epsilon * m)) / ln 2.
  (** 134-153; [table] is [_PRECOMPUTED_SUM_LOG_I_FROM_1_TO_N] *)
  Definition sum_log_i_from_1_to_n (table : list R) (n : Z) : result R :=
    if (n <? 1)%Z then Err ValueError
    else match nth_error table (Z.to_nat (n - 1)) with
         | Some v => Ok v
         | None => Ok (lgamma (IZR n + 1) / ln 2)
         end.
  (** 32, 177-179 *)
  Definition precomputed_sums : result (list R) := mapM (sum_log_i_from_1_to_n []) hundred.
  (** 123-132; [forget] is what the LRU cache drops when [x] is entered *)
  Definition cached_lgamma (forget : list (R * R) -> list (R * R)) (x : R) (cache : list (R * R)) : R * list (R * R) :=
    match find (fun '(k, _) => if Req_EM_T k x then true else false) cache with
    | Some (_, v) => (v, cache)
    | None => (lgamma x, forget ((x, lgamma x) :: cache))
    end.
  (** 90-132, any sequence of calls of [cached_lgamma] (from inside
      [prequential_coding_length] or outside), each with what is dropped *)
  Fixpoint cached_calls (calls : list (R * (list (R * R) -> list (R * R)))) (cache : list (R * R)) : list R :=
    match calls with
    | [] => []
    | (x, forget) :: r => let (v, cache') := cached_lgamma forget x cache in v :: cached_calls r cache'
    end.
End Gamma.
(** 155-174; [powerRZ 10 shift] is [10**shift], which in C may overflow;
    [C94_real_numbers] says when the integers made by [<int>] are in range *)
Definition L_R (fuel : nat) (table : list R) (real_number : R) (precision : Z) : result R :=
  let encoded_length := log2 3 in
  if Req_EM_T real_number 0 then Ok encoded_length
  else
    let x := if Rlt_dec real_number 0 then - real_number else real_number in
    let shift := ceil (IZR precision - log10 x) in
    let encoded_length := encoded_length * 2 in
    if (0 <? shift)%Z then
      do a <- L_N fuel table shift ;
      do b <- L_N fuel table (Z.max (ceil (x * powerRZ 10 shift)) 1) ;
      Ok (encoded_length + (a + b))
    else if (shift <? 0)%Z then
      do a <- L_N fuel table (- shift) ;
      do b <- L_N fuel table (Z.max 1 (ceil x)) ;
      Ok (encoded_length + (a + b))
    else
      do a <- L_N fuel table (ceil x) ;
      Ok (encoded_length + a).
