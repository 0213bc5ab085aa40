(** Properties C07-C13: tuple_utils.pyx, longest_common_subsequence.pyx,
    levenshtein.pyx *)
From Verif.Model Require Import Base TupleUtils Lcs Levenshtein.
From Verif.Spec Require Import Lists Subsets Edit EditOps.
From Verif.Proofs Require TupleUtils Lcs Levenshtein Levenshtein2 Levenshtein3.
From Coq Require Import Sorted.

(** C07: one split per k-element index set, in lexicographic order *)
Theorem C07_all_splits :
  forall {A} (t : list A) (k : Z), (1 <= k)%Z ->
    exists Is, all_splits_of_size_k t k = Ok (map (fun I => (chosen I t, others I t)) Is) /\
      StronglySorted lex Is /\ forall I, In I Is <-> index_set (Z.to_nat k) (length t) I.
Proof. exact @TupleUtils.all_splits_ok. Qed.
Print Assumptions C07_all_splits.
Theorem C07_all_splits_error :
  forall {A} (t : list A) (k : Z), (k < 1)%Z -> all_splits_of_size_k t k = Err ValueError.
Proof. exact @TupleUtils.all_splits_err. Qed.
Print Assumptions C07_all_splits_error.
Example C07_example :
  all_splits_of_size_k [7;8;9] 2 = Ok [([7;8],[9]); ([7;9],[8]); ([8;9],[7])].
Proof. reflexivity. Qed.
Example C07_example_too_many : all_splits_of_size_k [7;8] 3 = Ok [].
Proof. reflexivity. Qed.

(** C08 *)
Theorem C08_length_of_common_subsequence_maximal :
  forall {A} `{Eq A} (x y : list A),
    exists m, length_of_common_subsequence x y = Ok m /\
      (exists w, subseq w x /\ subseq w y /\ length w = m) /\
      (forall w, subseq w x -> subseq w y -> length w <= m).
Proof. exact @Lcs.length_of_common_subsequence_ok. Qed.
Print Assumptions C08_length_of_common_subsequence_maximal.
Example C08_example : length_of_common_subsequence [1;2;3;4;1] [3;4;1;2;1;3] = Ok 3.
Proof. reflexivity. Qed.

(** C09 *)
Theorem C09_lcs_with_backtrace :
  forall {A} `{Eq A} (x y : list A),
    exists m pairs, lcs_with_backtrace x y = Ok (m, pairs) /\
      (exists w, subseq w x /\ subseq w y /\ length w = m) /\
      (forall w, subseq w x -> subseq w y -> length w <= m) /\
      length pairs = m /\
      StronglySorted (fun p q => fst p < fst q /\ snd p < snd q) pairs /\
      (forall i j, In (i, j) pairs -> exists a, nth_error x i = Some a /\ nth_error y j = Some a).
Proof. exact @Lcs.lcs_with_backtrace_ok. Qed.
Print Assumptions C09_lcs_with_backtrace.
Example C09_example : lcs_with_backtrace [1;2;3;4] [2;5;4;1] = Ok (2, [(1,0);(3,2)]).
Proof. reflexivity. Qed.

(** C10: whenever a result is returned, its cost is the edit distance *)
Theorem C10_levenshtein_distance :
  forall {A} `{Eq A} (s1 s2 : list A) fuel ops c,
    levenshtein_with_backtrace fuel s1 s2 1 1 1 = Ok (c, ops) -> cheapest 1 1 1 s1 s2 c.
Proof. exact @Levenshtein2.levenshtein_cost_ok. Qed.
Print Assumptions C10_levenshtein_distance.

(** C11: up to length 100000 the loop ends within len(s1)+len(s2) rounds, and
    the operations are a cheapest edit of s1 into s2 *)
Theorem C11_levenshtein_operations :
  forall {A} `{Eq A} (s1 s2 : list A) fuel,
    (Z.of_nat (length s1) <= 100000)%Z -> (Z.of_nat (length s2) <= 100000)%Z ->
    length s1 + length s2 <= fuel ->
    exists c ops, levenshtein_with_backtrace fuel s1 s2 1 1 1 = Ok (c, ops) /\
      cheapest 1 1 1 s1 s2 c /\ Z.of_nat (length ops) = c /\ apply_ops ops s1 s2 = s2.
Proof. exact @Levenshtein2.levenshtein_unit_ok. Qed.
Print Assumptions C11_levenshtein_operations.
Example C11_example :
  levenshtein_with_backtrace 20 [1;2;3;4] [1;3;4;5;5] 1 1 1 =
  Ok (3%Z, [EditOperation 4 3 INSERT; EditOperation 4 4 INSERT; EditOperation 1 1 DELETE]) /\
  apply_ops [EditOperation 4 3 INSERT; EditOperation 4 4 INSERT; EditOperation 1 1 DELETE]
            [1;2;3;4] [1;3;4;5;5] = [1;3;4;5;5].
Proof. split; reflexivity. Qed.
(** and beyond that length the loop may never end *)
Theorem C11_diverges_on_long_input :
  forall {A} `{Eq A} (t : list A) sub,
    (100002 <= Z.of_nat (length t))%Z ->
    forall fuel, levenshtein_with_backtrace fuel [] t 1 1 sub = Err OutOfFuel.
Proof. exact @Levenshtein2.backtrace_diverges. Qed.
Print Assumptions C11_diverges_on_long_input.

(** C12: the operations rise to a peak and then fall, for all costs; of any two
    one stands before the other *)
Theorem C12_operations_order :
  forall {A} `{Eq A} (s1 s2 : list A) fuel ins del sub c ops,
    levenshtein_with_backtrace fuel s1 s2 ins del sub = Ok (c, ops) ->
    exists up down, ops = up ++ down /\
      StronglySorted before up /\ StronglySorted (fun o p => before p o) down /\
      ForallOrdPairs (fun o p => before o p \/ before p o) ops.
Proof. exact @Levenshtein3.operations_order. Qed.
Print Assumptions C12_operations_order.
(** so they need not be in sequence order, in either direction *)
Theorem C12_not_monotone_witness :
  exists (s1 s2 : list nat) fuel c ops,
    levenshtein_with_backtrace fuel s1 s2 1 1 1 = Ok (c, ops) /\
    ~ StronglySorted (fun o p => op_i o <= op_i p) ops /\
    ~ StronglySorted (fun o p => op_i o >= op_i p) ops.
Proof. exact Levenshtein2.operations_unordered. Qed.
Print Assumptions C12_not_monotone_witness.
Example C12_example :
  levenshtein_with_backtrace 20 [1;2;3;4] [5;6;7] 1 1 1 =
    Ok (4%Z, [EditOperation 0 0 DELETE; EditOperation 2 1 SUBSTITUTE;
              EditOperation 3 2 SUBSTITUTE; EditOperation 1 0 SUBSTITUTE]).
Proof. vm_compute. reflexivity. Qed.

(** C13: any integer costs; the matrix borders count 1 per step *)
Theorem C13_cost :
  forall {A} `{Eq A} (s1 s2 : list A) fuel ins del sub c ops,
    levenshtein_with_backtrace fuel s1 s2 ins del sub = Ok (c, ops) ->
    priced_alignment ins del sub s1 s2 c /\
    forall c', priced_alignment ins del sub s1 s2 c' -> (c <= c')%Z.
Proof. exact @Levenshtein3.weighted_cost. Qed.
Print Assumptions C13_cost.
Theorem C13_returns :
  forall {A} `{Eq A} (s1 s2 : list A) fuel ins del sub M,
    (0 <= ins <= M)%Z -> (0 <= del <= M)%Z -> (0 <= sub <= M)%Z -> (1 <= M)%Z ->
    (Z.of_nat (length s1 + length s2) * M <= 100000)%Z -> length s1 + length s2 <= fuel ->
    exists c ops, levenshtein_with_backtrace fuel s1 s2 ins del sub = Ok (c, ops).
Proof. exact @Levenshtein3.weighted_ends. Qed.
Print Assumptions C13_returns.
(** insertion and deletion at price 1, any substitution price: the true minimum *)
Theorem C13_unit_insertions :
  forall {A} `{Eq A} (s1 s2 : list A) fuel ops sub c,
    (0 <= sub)%Z ->
    levenshtein_with_backtrace fuel s1 s2 1 1 sub = Ok (c, ops) -> cheapest 1 1 sub s1 s2 c.
Proof. exact @Levenshtein2.levenshtein_cost_sub. Qed.
Print Assumptions C13_unit_insertions.
(** other prices: not the cost of a cheapest script *)
Theorem C13_not_cheapest_witness :
  exists (s1 s2 : list nat) fuel ins del sub c ops,
    (0 <= ins)%Z /\ (0 <= del)%Z /\ (0 <= sub)%Z /\
    levenshtein_with_backtrace fuel s1 s2 ins del sub = Ok (c, ops) /\
    ~ cheapest ins del sub s1 s2 c.
Proof. exact Levenshtein2.weighted_cost_wrong. Qed.
Print Assumptions C13_not_cheapest_witness.
(** and the operations fit neither the cost nor the sequences *)
Theorem C13_operations_witness :
  levenshtein_with_backtrace 2 [1] [2] 1 1 0 = Ok (0%Z, []) /\ apply_ops [] [1] [2] <> [2] /\
  levenshtein_with_backtrace 2 [1] [2] 1 1 3 = Ok (2%Z, [EditOperation 0 0 SUBSTITUTE]).
Proof. exact Levenshtein3.weighted_operations_witness. Qed.
Print Assumptions C13_operations_witness.
Example C13_priced_example : priced_alignment 7 7 7 [1;2] [2;3] 8.
Proof.
  apply (pa_insert 7 7 7 [1;2] [2] 1 3). apply (pa_keep 7 7 7 [1] [] 1 2).
  apply (pa_delete 7 7 7 [] [] 0 1). apply pa_nil.
Qed.
Example C13_example :
  exists ops, levenshtein_with_backtrace 20 [1;2] [3;2] 1 1 5 = Ok (2%Z, ops).
Proof. eexists. reflexivity. Qed.
