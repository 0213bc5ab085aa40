(** Properties C01-C06: prolothar_common/collections/list_utils.pyx *)
From Verif.Model Require Import Base ListUtils.
From Verif.Spec Require Import Lists Nested.
From Verif.Proofs Require ListUtils ListUtils2.
From Coq Require Import Permutation.

(** C01: the search terminates without error; it returns the first occurrence, or -1. *)
Theorem C01_search_sublist_bm_first_occurrence :
  forall {A} `{Eq A} (l sub : list A),
    (search_sublist_bm l sub = Ok (-1)%Z /\ forall k, ~ occurs_at sub l k) \/
    (exists k, search_sublist_bm l sub = Ok (Z.of_nat k) /\ occurs_at sub l k /\
               forall k', occurs_at sub l k' -> k <= k').
Proof. exact @ListUtils.search_sublist_bm_ok. Qed.
Print Assumptions C01_search_sublist_bm_first_occurrence.
Example C01_example_found : search_sublist_bm [2;1;2;1;2;1;1;3] [1;2;1;1] = Ok 3%Z.
Proof. reflexivity. Qed.
Example C01_example_absent : search_sublist_bm [2;1;2;1;2;1;1;3] [1;1;1] = Ok (-1)%Z.
Proof. reflexivity. Qed.

Theorem C01_is_sublist_bm_iff :
  forall {A} `{Eq A} (l sub : list A),
    exists b, is_sublist_bm l sub = Ok b /\ (b = true <-> exists k, occurs_at sub l k).
Proof. exact @ListUtils.is_sublist_bm_ok. Qed.
Print Assumptions C01_is_sublist_bm_iff.

(** C02 *)
Theorem C02_all_occurrences :
  forall {A} `{Eq A} (l sub : list A),
    exists r, search_all l sub = Ok r /\ ascending r /\ forall k, In k r <-> occurs_at sub l k.
Proof. exact @ListUtils.search_all_ok. Qed.
Print Assumptions C02_all_occurrences.
Example C02_example : search_all [1;1;1;2;1;1] [1;1] = Ok [0;1;4].
Proof. reflexivity. Qed.

(** C03 *)
Theorem C03_partitions :
  forall {A} (l : list A) (n : Z), l <> [] -> (1 <= n)%Z ->
    exists ps q r r', view_of_n_partitions l n = Ok ps /\ concat ps = l /\
      length ps = Nat.min (Z.to_nat n) (length l) /\ 1 <= q /\
      map (@length A) ps = repeat (q + 1) r ++ repeat q r'.
Proof. exact @ListUtils2.view_of_n_partitions_ok. Qed.
Print Assumptions C03_partitions.
Example C03_example : view_of_n_partitions [1;2;3;4;5;6;7] 3 = Ok [[1;2;3];[4;5];[6;7]].
Proof. reflexivity. Qed.

Theorem C03_partitions_error :
  forall {A} (l : list A) (n : Z), l = [] \/ (n <= 0)%Z ->
    view_of_n_partitions l n = Err ZeroDivisionError.
Proof. exact @ListUtils2.view_of_n_partitions_err. Qed.
Print Assumptions C03_partitions_error.

(** C04 *)
Theorem C04_longest_common_sublists :
  forall {A} `{Eq A} (a b : list A),
    let '(m, pairs) := longest_common_sublists a b in
    (forall i j m', common_block a b i j m' -> m' <= m) /\
    (m = 0 -> pairs = []) /\
    (0 < m -> pairs <> [] /\ NoDup pairs /\
              forall i j, In (i, j) pairs <-> common_block a b i j m).
Proof. exact @ListUtils2.longest_common_sublists_ok. Qed.
Print Assumptions C04_longest_common_sublists.
Example C04_example : longest_common_sublists [1;2;3;1;2] [9;1;2;8;2;3] = (2, [(0,1);(1,4);(3,1)]).
Proof. reflexivity. Qed.

(** C05 *)
Theorem C05_deep_flatten : forall {A} (v : pyval A), leaves v (deep_flatten v).
Proof. exact @ListUtils2.deep_flatten_ok. Qed.
Print Assumptions C05_deep_flatten.
Example C05_example :
  deep_flatten (PyList [PyList [Leaf 1; PyList [Leaf 2]]; PyList []; Leaf 3]) = [1;2;3].
Proof. reflexivity. Qed.

Theorem C05_enumerate_reversed :
  forall {A} (l : list A),
    length (enumerate_reversed l) = length l /\
    forall k, k < length l ->
      exists x, nth_error l (length l - 1 - k) = Some x /\
                nth_error (enumerate_reversed l) k = Some (length l - 1 - k, x).
Proof.
  exact (fun A l => conj (ListUtils2.enumerate_reversed_length l) (ListUtils2.enumerate_reversed_nth l)).
Qed.
Print Assumptions C05_enumerate_reversed.

(** [d] is a default that is never used: all indices are in range *)
Theorem C05_iterate_self_product :
  forall {A} (l : list A) (skip : bool) (d : A),
    iterate_self_product l skip =
    map (fun '(i, j) => (nth i l d, nth j l d))
        (filter (fun '(i, j) => negb (skip && (i =? j)))
                (list_prod (seq 0 (length l)) (seq 0 (length l)))).
Proof. exact @ListUtils2.iterate_self_product_ok. Qed.
Print Assumptions C05_iterate_self_product.
Example C05_example_product :
  iterate_self_product [1;2;2] true = [(1,2);(1,2);(2,1);(2,2);(2,1);(2,2)].
Proof. reflexivity. Qed.

(** C06: [n] is the length of the shortest list; one common permutation [sigma] of
    the row numbers is applied to every list. *)
Theorem C06_shuffle_together :
  forall {A} (shuffle : list (list A) -> list (list A)) (ls : list (list A)) (n : nat),
    (forall rows, Permutation (shuffle rows) rows) ->
    1 <= n -> (forall l, In l ls -> n <= length l) -> (exists l, In l ls /\ length l = n) ->
    exists sigma, Permutation sigma (seq 0 n) /\
      length (shuffle_together shuffle ls) = length ls /\
      forall q l, nth_error ls q = Some l ->
        exists l', nth_error (shuffle_together shuffle ls) q = Some l' /\
                   Forall2 (fun k x => nth_error l k = Some x) sigma l'.
Proof. exact @ListUtils2.shuffle_together_ok. Qed.
Print Assumptions C06_shuffle_together.
Example C06_example : shuffle_together (@rev (list nat)) [[1;2;3];[4;5;6]] = [[3;2;1];[6;5;4]].
Proof. reflexivity. Qed.
Example C06_hypotheses : forall rows : list (list nat), Permutation (rev rows) rows.
Proof. exact (fun rows => Permutation_sym (Permutation_rev rows)). Qed.
