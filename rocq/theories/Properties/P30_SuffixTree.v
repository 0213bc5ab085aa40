(** Property C130: suffix trees.  [dollar] is the terminator '$'. *)
From Coq Require Import Permutation.
From Verif.Model Require Import Base SuffixTree SuffixObjects.
From Verif.Spec Require Import Lists Words.
From Verif.Proofs Require SuffixTreeB SuffixObjectsD.
Open Scope nat_scope.

(** C130: Suffix trees *)
(** a node is given by its number, its word and the number of its descendants;
    the leaves are the suffixes, the others are the words that are followed by
    different symbols, and the nodes are numbered *)
Theorem C130_nodes : forall (A : Type) (EA : Eq A) (dollar : A) (s : list A), s <> [] -> ~ In dollar s ->
  exists t, suffix_tree dollar s = Ok (s ++ [dollar], t) /\
    let all := nodes dollar (s ++ [dollar]) [] t in
    let leaf := filter (fun x => snd x =? 0) all in
    let inner := filter (fun x => negb (snd x =? 0)) all in
    Permutation (map (fun x => fst (fst x)) all) (seq 1 (length all)) /\ length all <= 2 * length s /\
    Permutation (map (fun x => snd (fst x)) leaf) (map (fun j => skipn j s) (seq 0 (length s + 1))) /\
    NoDup (map (fun x => snd (fst x)) inner) /\ (forall u, In u (map (fun x => snd (fst x)) inner) <-> u <> [] /\ right_branching s u).
Proof. exact @SuffixTreeB.C130_nodes. Qed.
Print Assumptions C130_nodes.
(** the descendants of an inner node are the places at which its word stands and
    the longer words followed by different symbols *)
Theorem C130_descendants : forall (A : Type) (EA : Eq A) (dollar : A) (s : list A) w t k u d, s <> [] -> ~ In dollar s ->
  suffix_tree dollar s = Ok (w, t) -> In (k, u, d) (nodes dollar w [] t) -> 0 < d ->
  exists places words, NoDup places /\ (forall j, In j places <-> occurs_at u s j) /\
    NoDup words /\ (forall v, In v words <-> right_branching s v /\ exists x, x <> [] /\ v = u ++ x) /\
    d = length places + length words.
Proof. exact @SuffixTreeB.C130_descendants. Qed.
Print Assumptions C130_descendants.
(** one edge for each node, with at least one symbol *)
Theorem C130_edges : forall (A : Type) (EA : Eq A) (dollar : A) (s : list A) w t, s <> [] -> ~ In dollar s ->
  suffix_tree dollar s = Ok (w, t) -> length (print_edges w t) = length (nodes dollar w [] t) /\ forall e, In e (print_edges w t) -> e <> [] /\ exists j, occurs_at e w j.
Proof. exact @SuffixTreeB.C130_edges. Qed.
Print Assumptions C130_edges.
(** a terminator at the end is not added again; there is no tree of the empty word *)
Theorem C130_terminator : forall (A : Type) (EA : Eq A) (dollar : A) (s : list A), s <> [] -> ~ In dollar s ->
  suffix_tree dollar (s ++ [dollar]) = suffix_tree dollar s /\ suffix_tree dollar [] = Err IndexError.
Proof. exact @SuffixTreeB.C130_terminator. Qed.
Print Assumptions C130_terminator.
(** the nodes of [suffix_tree] are what can be asked of the node objects that the
    code makes and changes, whatever has been asked before *)
Theorem C130_objects : forall (A : Type) (EA : Eq A) (dollar : A) (s : list A),
  match suffix_tree dollar s with
  | Ok (w, t) => exists h, suffix_objects dollar s = Ok (w, h) /\
      Permutation (map (fun x => fst (fst x)) (nodes dollar w [] t)) (seq 1 (length (objs h) - 1)) /\
      Permutation (print_edges_of w h) (print_edges w t) /\
      forall asked, (forall x, In x asked -> x < length (objs h)) ->
        exists known, foldM (fun known x => do r <- descendants_of (length (objs h)) h known x ; Ok (snd r)) asked [] = Ok known /\
          forall k u d, In (k, u, d) (nodes dollar w [] t) ->
            node_word dollar w h k = Ok u /\ exists known', descendants_of (length (objs h)) h known k = Ok (d, known')
  | Err e => suffix_objects dollar s = Err e
  end.
Proof. exact @SuffixObjectsD.C130_objects. Qed.
Print Assumptions C130_objects.
(** number, word and number of descendants of each node of the tree of 1 2 1 2 1, and its edges *)
Example C130_example : (do r <- suffix_tree 0 [1; 2; 1; 2; 1] ; Ok (nodes 0 (fst r) [] (snd r), print_edges (fst r) (snd r))) =
  Ok ([(5, [2; 1], 2); (2, [2; 1; 2; 1], 0); (6, [2; 1], 0); (7, [1], 4); (3, [1; 2; 1], 2); (1, [1; 2; 1; 2; 1], 0); (4, [1; 2; 1], 0); (8, [1], 0); (9, [], 0)],
      [[2; 1]; [2; 1; 0]; [0]; [1]; [2; 1]; [2; 1; 0]; [0]; [0]; [0]]).
Proof. vm_compute. reflexivity. Qed.
Example C130_example_objects : match suffix_objects 0 [1; 2; 1; 2; 1] with
  | Ok (w, h) => length (objs h) = 10 /\ children (nth 7 (objs h) (Object None 0 [])) = [3; 8] /\ parent (nth 3 (objs h) (Object None 0 [])) = Some 7 /\
      node_word 0 w h 3 = Ok [1; 2; 1] /\ (do r <- descendants_of 10 h [] 7 ; Ok (fst r, keys (snd r))) = Ok (4, [1; 4; 3; 8; 7])
  | Err _ => False
  end.
Proof. vm_compute. repeat split. Qed.
