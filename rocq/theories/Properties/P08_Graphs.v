(** Properties C46 - C49: integer graphs, prefix trees, transition systems *)
From Coq Require Import String Sorting.Sorted.
From Verif.Model Require Import Base IntGraph PrefixTree Lts.
From Verif.Spec Require Import Lists Logs Graphs IntGraphSpec TreeSpec.
From Verif.Proofs Require IntGraphB IntGraphC PrefixTree Lts.
Open Scope string_scope.
Open Scope list_scope.
Open Scope nat_scope.

(** two graphs, the second a copy that is changed afterwards *)
Definition history : list op :=
  [New 5; Add 0 0 1; Add 0 1 2; Add 0 2 0; Add 0 2 3; Add 0 3 3; Copy 0; Remove 1 2 0; Add 1 4 0].
Example history_legal : legal (rev history) /\ size_after (rev history) 0 = Some 5 /\ size_after (rev history) 1 = Some 5.
Proof. cbn. split; [|auto]. repeat split; eauto; (exists 5; split; [reflexivity|lia]) || lia. Qed.

(** C46: Strongly connected components *)
Theorem C46_strongly_connected_components : forall l i n, legal (rev l) -> size_after (rev l) i = Some n ->
  let E := edge_after (rev l) i in
  exists s cs, run l = Ok s /\ find_strongly_connected_components s i = Ok cs /\
    NoDup (concat cs) /\ (forall x, In x (concat cs) <-> x < n) /\
    forall c, In c cs -> c <> [] /\
      forall x y, In x c -> In y c <-> connected0 E x y /\ connected0 E y x.
Proof. exact @IntGraphB.C46_strongly_connected_components. Qed.
Print Assumptions C46_strongly_connected_components.
(** no path leads from a later component to an earlier one *)
Theorem C46_components_in_topological_order : forall l i n, legal (rev l) -> size_after (rev l) i = Some n ->
  exists s cs, run l = Ok s /\ find_strongly_connected_components s i = Ok cs /\
    forall j k c d x y, j < k -> nth_error cs j = Some c -> nth_error cs k = Some d ->
      In x c -> In y d -> ~ connected0 (edge_after (rev l) i) y x.
Proof. exact @IntGraphB.C46_components_in_topological_order. Qed.
Print Assumptions C46_components_in_topological_order.
Example C46_example :
  match run history with Ok s => (find_strongly_connected_components s 0, find_strongly_connected_components s 1) | Err e => (Err e, Err e) end
  = (Ok [[4]; [0; 2; 1]; [3]], Ok [[4]; [0]; [1]; [2]; [3]]).
Proof. vm_compute. reflexivity. Qed.

(** C47: Integer graph edge operations *)
Theorem C47_edges_after_history : forall l i n a b, legal (rev l) -> size_after (rev l) i = Some n -> a < n ->
  exists s r, run l = Ok s /\ contains s i a b = Ok r /\ (r = true <-> edge_after (rev l) i a b).
Proof. exact @IntGraphB.C47_edges_after_history. Qed.
Print Assumptions C47_edges_after_history.
(** get_ancestors lists the nodes that the edges of a node lead to *)
Theorem C47_adjacent_nodes : forall l i n a, legal (rev l) -> size_after (rev l) i = Some n -> a < n ->
  exists s r, run l = Ok s /\ ancestors s i a = Ok r /\ forall b, In b r <-> edge_after (rev l) i a b.
Proof. exact @IntGraphB.C47_adjacent_nodes. Qed.
Print Assumptions C47_adjacent_nodes.
(** in the order of the additions, an edge added several times as often *)
Theorem C47_adjacent_list : forall l i n a, legal (rev l) -> size_after (rev l) i = Some n -> a < n ->
  exists s, run l = Ok s /\ ancestors s i a = Ok (ends_after (rev l) i a).
Proof. exact @IntGraphC.C47_adjacent_list. Qed.
Print Assumptions C47_adjacent_list.
Example C47_example :
  match run history with Ok s => (contains s 0 2 0, contains s 1 2 0, ancestors s 0 2) | Err e => (Err e, Err e, Err e) end
  = (Ok true, Ok false, Ok [0; 3]).
Proof. vm_compute. reflexivity. Qed.

(** C48: Prefix trees *)
Theorem C48_nodes_are_the_prefixes : forall (A : Type) `(Eq A) (ltb : A -> A -> bool) (ss : list (list A)), strict_total ltb ->
  exists t, append_all ltb ss = Ok t /\
    (forall w, (exists u, node_at t w u) <-> w = [] \/ exists s v, In s ss /\ s = w ++ v) /\
    forall w u u', node_at t w u -> node_at t w u' -> u = u'.
Proof. exact @PrefixTree.C48_nodes_are_the_prefixes. Qed.
Print Assumptions C48_nodes_are_the_prefixes.
(** the count of a node is the number of appended sequences that start with its path *)
Theorem C48_counts : forall (A : Type) `(Eq A) (ltb : A -> A -> bool) (ss : list (list A)) t w u, strict_total ltb ->
  append_all ltb ss = Ok t -> node_at t w u ->
  has_size (fun k => exists s v, nth_error ss k = Some s /\ s = w ++ v) (get_nr_of_sequences u).
Proof. exact @PrefixTree.C48_counts. Qed.
Print Assumptions C48_counts.
(** node ids are unique *)
Theorem C48_node_ids : forall (A : Type) `(Eq A) (ltb : A -> A -> bool) (ss : list (list A)) t w u w' u', strict_total ltb ->
  append_all ltb ss = Ok t -> node_at t w u -> node_at t w' u' -> get_node_id u = get_node_id u' -> w = w'.
Proof. exact @PrefixTree.C48_node_ids. Qed.
Print Assumptions C48_node_ids.
(** children appear with strictly descending symbols *)
Theorem C48_children_sorted : forall (A : Type) `(Eq A) (ltb : A -> A -> bool) (ss : list (list A)) t w u, strict_total ltb ->
  append_all ltb ss = Ok t -> node_at t w u -> StronglySorted (fun x y => ltb y x = true) (map fst (get_children u)).
Proof. exact @PrefixTree.C48_children_sorted. Qed.
Print Assumptions C48_children_sorted.
(** the level-order traversal lists every node but the root exactly once,
    shorter paths first *)
Theorem C48_level_order : forall (A : Type) `(Eq A) (ltb : A -> A -> bool) (ss : list (list A)) t, strict_total ltb ->
  append_all ltb ss = Ok t -> exists ws l, traverse_level_order t = Ok l /\
    Forall2 (fun w '(x, u) => node_at t w u /\ exists p, w = p ++ [x]) ws l /\
    NoDup ws /\ StronglySorted le (map (@length A) ws) /\
    forall w, In w ws <-> w <> [] /\ exists u, node_at t w u.
Proof. exact @PrefixTree.C48_level_order. Qed.
Print Assumptions C48_level_order.
(** a leaf is a sequence that no other one extends *)
Theorem C48_leaves : forall (A : Type) `(Eq A) (ltb : A -> A -> bool) (ss : list (list A)) t w u, strict_total ltb ->
  append_all ltb ss = Ok t -> node_at t w u ->
  (is_leaf u = true <-> ~ exists s x v, In s ss /\ s = w ++ x :: v).
Proof. exact @PrefixTree.C48_leaves. Qed.
Print Assumptions C48_leaves.
Example C48_ltb : strict_total Nat.ltb.
Proof.
  split; [apply Nat.ltb_irrefl|]. split.
  - intros x y z. rewrite !Nat.ltb_lt. lia.
  - intros x y. rewrite !Nat.ltb_lt. lia.
Qed.
Example C48_example :
  match append_all Nat.ltb [[1; 2]; [1]; [3; 2]; [1; 2; 5]; [2]] with
  | Ok t => match traverse_level_order t with
            | Ok l => map (fun '(x, u) => (x, get_nr_of_sequences u, get_node_id u)) l
            | Err _ => []
            end
  | Err _ => []
  end = [(3, 1, [1]); (2, 1, [2]); (1, 3, [0]); (2, 1, [1; 0]); (2, 2, [0; 0]); (5, 1, [0; 0; 0])].
Proof. vm_compute. reflexivity. Qed.

(** C49: Transition systems *)
Theorem C49_states : forall (A S : Type) `(Eq A) `(Eq S) (f : list A -> S) (ls : list (list A)),
  let m := add_all f ls in
  (forall q, In q (states m) <-> exists l p r, In l ls /\ l = p ++ r /\ q = f p) /\
  (forall q, In q (start_states m) <-> ls <> [] /\ q = f []) /\
  (forall q, In q (end_states m) <-> exists l, In l ls /\ q = f l) /\
  NoDup (states m) /\ get_nr_of_states m = length (states m).
Proof. exact @Lts.C49_states. Qed.
Print Assumptions C49_states.
(** whatever the representation function: the transition kept for a state and
    an event is the one seen last *)
Theorem C49_last_step_wins : forall (A S : Type) `(Eq A) `(Eq S) (f : list A -> S) (ls : list (list A)) q x,
  (forall q', get_next_state (add_all f ls) q x = Ok q' <-> last_step f ls q x q') /\
  (get_next_state (add_all f ls) q x = Err KeyError <->
     forall j l k q', nth_error ls j = Some l -> ~ step_at f l k q x q').
Proof. exact @Lts.C49_last_step_wins. Qed.
Print Assumptions C49_last_step_wins.
(** without overwriting: exactly the steps of the added sequences *)
Theorem C49_transitions : forall (A S : Type) `(Eq A) `(Eq S) (f : list A -> S) (ls : list (list A)), stepwise f ->
  let m := add_all f ls in
  (forall q x q', In (q, x, q') (transition_list m) <->
    exists l p r, In l ls /\ l = p ++ x :: r /\ q = f p /\ q' = f (p ++ [x])) /\
  (forall q p x q', In (p, x, q') (outgoing_transitions m q) <-> p = q /\ In (q, x, q') (transition_list m)) /\
  NoDup (transition_list m) /\ get_nr_of_transitions m = length (transition_list m).
Proof. exact @Lts.C49_transitions. Qed.
Print Assumptions C49_transitions.
(** every added sequence can be replayed from the start state to an end state *)
Theorem C49_replay : forall (A S : Type) `(Eq A) `(Eq S) (f : list A -> S) (ls : list (list A)) l, stepwise f -> In l ls ->
  let m := add_all f ls in
  In (f []) (start_states m) /\ foldM (get_next_state m) l (f []) = Ok (f l) /\ In (f l) (end_states m).
Proof. exact @Lts.C49_replay. Qed.
Print Assumptions C49_replay.
(** the four representation functions qualify *)
Theorem C49_representations : stepwise set_abstraction /\
  forall A, stepwise (@list_abstraction A) /\ stepwise (@last_abstraction A) /\ forall n, stepwise (@last_n_abstraction A n).
Proof. exact @Lts.C49_representations. Qed.
Print Assumptions C49_representations.
Example C49_example :
  let m := add_all (@last_abstraction nat) [[1; 2]; [1; 3; 2]; [2; 2]] in
  get_nr_of_states m = 4 /\ get_nr_of_transitions m = 6 /\ end_states m = [Some 2] /\
  foldM (get_next_state m) [1; 3; 2; 2] None = Ok (Some 2) /\ get_next_state m (Some 3) 1 = Err KeyError.
Proof. vm_compute. auto. Qed.
(** a representation that forgets too much: the first sequence is not replayed
    to its own state *)
Example C49_overwritten :
  let f (p : list nat) := match p with [1; x] => Some x | [2; x] => Some (x + 10) | _ => None end in
  ~ stepwise f /\ foldM (get_next_state (add_all f [[1; 3]; [2; 3]])) [1; 3] None = Ok (Some 13).
Proof. split; [|vm_compute; reflexivity]. intros Hs. specialize (Hs [1] [2] 3 eq_refl). discriminate. Qed.
