(** Property C144: the 32 bit integers of the compiled code *)
From Coq Require Import String ZArith.
From Verif.Model Require Import Base Lcs Levenshtein CInts EventLog Dfg.
From Verif.Model Require ListUtils.
From Verif.Proofs Require CIntsA.
Open Scope string_scope.
Open Scope list_scope.
Open Scope nat_scope.

(** C144: Integers of the compiled code *)
(** Edit costs: while the product of the total length plus one and the largest cost
    is a C int, none of the additions overflows and the result is that of exact
    integers. *)
Theorem C144_levenshtein : forall (A : Type) (EA : Eq A) (s1 s2 : list A) fuel ins del sub M,
  (Z.abs ins <= M)%Z -> (Z.abs del <= M)%Z -> (Z.abs sub <= M)%Z -> (1 <= M)%Z ->
  (Z.of_nat (length s1 + length s2 + 1) * M < 2 ^ 31)%Z ->
  levenshtein_int fuel s1 s2 ins del sub = Some (levenshtein_with_backtrace fuel s1 s2 ins del sub).
Proof. exact @CIntsA.C144_levenshtein. Qed.
Print Assumptions C144_levenshtein.
(** Whatever the costs: if nothing overflowed, the result is that of exact integers. *)
Theorem C144_levenshtein_defined : forall (A : Type) (EA : Eq A) (s1 s2 : list A) fuel ins del sub r,
  levenshtein_int fuel s1 s2 ins del sub = Some r -> r = levenshtein_with_backtrace fuel s1 s2 ins del sub.
Proof. exact @CIntsA.C144_levenshtein_defined. Qed.
Print Assumptions C144_levenshtein_defined.
(** The largest C int as insertion cost overflows for all non-empty sequences. *)
Theorem C144_levenshtein_overflow_witness : forall (A : Type) (EA : Eq A) (s1 s2 : list A) fuel del sub, s1 <> [] -> s2 <> [] ->
  levenshtein_int fuel s1 s2 (2 ^ 31 - 1) del sub = None.
Proof. exact @CIntsA.C144_levenshtein_overflow_witness. Qed.
Print Assumptions C144_levenshtein_overflow_witness.
(** Common subsequences: no overflow for fewer than 2^31-1 elements in total. *)
Theorem C144_common_subsequence : forall (A : Type) (EA : Eq A) (x y : list A), (Z.of_nat (length x + length y + 1) < 2 ^ 31)%Z ->
  lcs_length_int x y = Some (length_of_common_subsequence x y) /\ lcs_backtrace_int x y = Some (lcs_with_backtrace x y).
Proof. exact @CIntsA.C144_common_subsequence. Qed.
Print Assumptions C144_common_subsequence.
(** Common blocks: the same. *)
Theorem C144_common_sublists : forall (A : Type) (EA : Eq A) (a b : list A), (Z.of_nat (length a + 1) < 2 ^ 31)%Z -> (Z.of_nat (length b + 1) < 2 ^ 31)%Z ->
  longest_common_sublists_int a b = Some (ListUtils.longest_common_sublists a b).
Proof. exact @CIntsA.C144_common_sublists. Qed.
Print Assumptions C144_common_sublists.
(** Counts: those of a log are at most its number of events. *)
Theorem C144_directly_follows_counts : forall {V I} (l : log string V I), (Z.of_nat (list_sum (map (fun t => length (events t)) l)) < 2 ^ 31)%Z ->
  exists g, create_from_event_log l = Ok g /\ forall a b, (0 <= get_count a b g < 2 ^ 31)%Z.
Proof. exact @CIntsA.C144_directly_follows_counts. Qed.
Print Assumptions C144_directly_follows_counts.
Example C144_example_hypotheses :
  (Z.abs 1 <= 1000)%Z /\ (Z.abs 7 <= 1000)%Z /\ (Z.abs (-1000) <= 1000)%Z /\ (1 <= 1000)%Z /\
  (Z.of_nat (List.length [1;2;3] + List.length [2;3;4;5] + 1) * 1000 < 2 ^ 31)%Z.
Proof. vm_compute. repeat split; discriminate. Qed.
Example C144_example_levenshtein : levenshtein_int 100 [1;2;3] [2;3;4;5] 1 1 1 =
  Some (Ok (3, [EditOperation 0 0 DELETE; EditOperation 3 3 INSERT; EditOperation 3 2 INSERT]))%Z.
Proof. vm_compute. reflexivity. Qed.
Example C144_example_overflow : levenshtein_int 100 [1;2] [2;3] (2 ^ 31 - 1) 1 1 = None /\
  levenshtein_int 100 [1;2] [2;3] (2 ^ 31 - 3) 1 1 <> None.
Proof. vm_compute. split; [reflexivity|discriminate]. Qed.
Example C144_example_common : lcs_backtrace_int [1;2;3;4] [2;9;4] = Some (Ok (2, [(1,0);(3,2)])) /\
  longest_common_sublists_int [1;2;3;4] [2;3;9;3;4] = Some (2, [(1,0);(2,3)]).
Proof. vm_compute. split; reflexivity. Qed.
