(** Property C135: looking up nodes and edges of nested graphs *)
From Coq Require Import Permutation.
From Verif.Model Require Import Base NestedGraph.
From Verif.Spec Require Import NestedSpec NestedHistory.
From Verif.Proofs Require NestedHistoryA.
Open Scope list_scope.
Open Scope nat_scope.

(** C135: Looking up nodes and edges of nested graphs *)
(** The graph holds exactly the nodes that were added last under their id and
    exactly the edges that were added and not removed since; of equal edges
    the first stays. *)
Theorem C135_contents : forall (V : Type) (HV : Eq V) (h : list (call V)),
  (forall c, In c h -> proper_call c) ->
  (forall n, has_node (after h) n <-> last_added h n) /\
  (forall e, has_edge (after h) e <-> still_there h e) /\
  NoDup (values (nodes (after h))) /\ NoDup (edges (after h)).
Proof. exact @NestedHistoryA.C135_contents. Qed.
Print Assumptions C135_contents.
(** An id gives the node added last under it, KeyError if there was none. *)
Theorem C135_by_id : forall (V : Type) (HV : Eq V) (h : list (call V)) i,
  (forall c, In c h -> proper_call c) ->
  (forall n, get_node_by_id i (after h) = Ok n <-> last_added h n /\ id n = i) /\
  ((forall n, get_node_by_id i (after h) <> Ok n) -> get_node_by_id i (after h) = Err KeyError) /\
  (get_node_by_id i (after h) = Err KeyError <-> forall n, In (AddNode n) h -> id n <> i).
Proof. exact @NestedHistoryA.C135_by_id. Qed.
Print Assumptions C135_by_id.
(** A label gives exactly the nodes with this label, each once, in the order
    in which their ids came into the graph. *)
Theorem C135_by_label : forall (V : Type) (HV : Eq V) (h : list (call V)) l,
  (forall c, In c h -> proper_call c) ->
  NoDup (get_nodes_by_label l (after h)) /\
  (forall n, In n (get_nodes_by_label l (after h)) <-> last_added h n /\ label n = l) /\
  (forall m n, In m (get_nodes_by_label l (after h)) -> In n (get_nodes_by_label l (after h)) -> earlier h (id m) (id n) ->
    exists l1 l2 l3, get_nodes_by_label l (after h) = l1 ++ m :: l2 ++ n :: l3).
Proof. exact @NestedHistoryA.C135_by_label. Qed.
Print Assumptions C135_by_label.
(** Source and target give an edge between them, for each order in which the
    set of edges is iterated; ValueError iff there is none. *)
Theorem C135_by_ends : forall (V : Type) (HV : Eq V) (h : list (call V)) (order : list (edge V)) s t,
  (forall c, In c h -> proper_call c) -> Permutation order (edges (after h)) ->
  (exists e, get_edge_by_source_and_target s t (Graph (nodes (after h)) order) = Ok e /\ still_there h e /\ source e = s /\ target e = t) \/
  (get_edge_by_source_and_target s t (Graph (nodes (after h)) order) = Err ValueError /\
   forall e, still_there h e -> source e = s -> target e <> t).
Proof. exact @NestedHistoryA.C135_by_ends. Qed.
Print Assumptions C135_by_ends.
(** With several edges between the two nodes each of them is returned for
    some order. *)
Theorem C135_parallel_edges : forall (V : Type) (HV : Eq V) (h : list (call V)) e,
  (forall c, In c h -> proper_call c) -> still_there h e ->
  exists order, Permutation order (edges (after h)) /\
    get_edge_by_source_and_target (source e) (target e) (Graph (nodes (after h)) order) = Ok e.
Proof. exact @NestedHistoryA.C135_parallel_edges. Qed.
Print Assumptions C135_parallel_edges.
(** Removing raises KeyError iff no equal edge is there. *)
Theorem C135_remove : forall (V : Type) (HV : Eq V) (h : list (call V)) r,
  (forall c, In c h -> proper_call c) -> NoDup (keys (e_attributes r)) ->
  ((exists e, still_there h e /\ same_edge e r) -> exists g, remove_edge r (after h) = Ok g) /\
  ((forall e, still_there h e -> ~ same_edge e r) -> remove_edge r (after h) = Err KeyError).
Proof. exact @NestedHistoryA.C135_remove. Qed.
Print Assumptions C135_remove.
(** Children, edges of a node, and the nodes without edges in or out. *)
Theorem C135_neighbours : forall (V : Type) (HV : Eq V) (h : list (call V)),
  (forall c, In c h -> proper_call c) ->
  (forall i, has_children i (after h) = true <-> exists n, last_added h n /\ parent n = Some i) /\
  (forall i n, In n (get_children i (after h)) <-> last_added h n /\ parent n = Some i) /\
  (forall i e, In e (get_outgoing_edges i (after h)) <-> still_there h e /\ source e = i) /\
  (forall i e, In e (get_ingoing_edges i (after h)) <-> still_there h e /\ target e = i) /\
  (forall n, In n (get_source_nodes (after h)) <-> last_added h n /\ forall e, still_there h e -> target e <> id n) /\
  (forall n, In n (get_sink_nodes (after h)) <-> last_added h n /\ forall e, still_there h e -> source e <> id n).
Proof. exact @NestedHistoryA.C135_neighbours. Qed.
Print Assumptions C135_neighbours.
(** nodes 1 and 2, node 1 once more with another label, node 3 inside node 1;
    the edge from 1 to 2 twice, another edge between the two, and an edge from
    2 to 3 that is removed *)
Definition ex_h : list (call nat) :=
  [AddNode (Node 1 10 None []); AddNode (Node 2 10 None []); AddNode (Node 1 11 None []); AddNode (Node 3 10 (Some 1) []);
   AddEdge (Edge 20 1 2 []); AddEdge (Edge 20 1 2 []); AddEdge (Edge 21 1 2 []); AddEdge (Edge 22 2 3 []);
   RemoveEdge (Edge 22 2 3 []); RemoveEdge (Edge 22 2 3 [])].
Example C135_example_proper : forall c, In c ex_h -> proper_call c.
Proof. intros c Hc. cbn in Hc. intuition subst; cbn; constructor. Qed.
Example C135_example : get_node_by_id 1 (after ex_h) = Ok (Node 1 11 None []) /\ get_node_by_id 4 (after ex_h) = Err KeyError /\
  get_nodes_by_label 10 (after ex_h) = [Node 2 10 None []; Node 3 10 (Some 1) []] /\
  edges (after ex_h) = [Edge 20 1 2 []; Edge 21 1 2 []] /\
  get_edge_by_source_and_target 1 2 (after ex_h) = Ok (Edge 20 1 2 []) /\
  get_edge_by_source_and_target 2 3 (after ex_h) = Err ValueError /\
  remove_edge (Edge 22 2 3 []) (after ex_h) = Err KeyError /\ has_children 1 (after ex_h) = true /\
  get_sink_nodes (after ex_h) = [Node 2 10 None []; Node 3 10 (Some 1) []].
Proof. vm_compute. intuition. Qed.
(** an edge that was removed and added again is there *)
Example C135_example_again : let h := ex_h ++ [AddEdge (Edge 22 2 3 [])] in
  edges (after h) = [Edge 20 1 2 []; Edge 21 1 2 []; Edge 22 2 3 []].
Proof. vm_compute. auto. Qed.
