(** Model of prolothar_common/models/nested_graph.py.

    [V] are the values used as ids, labels, parents and attribute values;
    nodes and edges are taken as immutable once added.  The set of edges is a
    list in the order in which Python iterates over it. *)
From Coq Require Import String.
From Verif.Model Require Import Base.
Open Scope string_scope.
Open Scope list_scope.
Open Scope nat_scope.

Section N.
  Context {V : Type} `{Eq V}.
  (** 22-28 *)
  Record node := Node { id : V; label : V; parent : option V; n_attributes : dict string V }.
  (** 47-53 *)
  Record edge := Edge { e_id : V; source : V; target : V; e_attributes : dict string V }.
  (** 68-70 *)
  Record graph := Graph { nodes : dict V node; edges : list edge }.

  (** [==] of dictionaries: the same keys with the same values *)
  Definition dict_eqb {W} (eq : W -> W -> bool) {K} `{Eq K} (d e : dict K W) : bool :=
    (length d =? length e) &&
    forallb (fun '(k, v) => match dict_get k e with Some w => eq v w | None => false end) d.
  (** 30-34: the label is not compared *)
  Definition node_eqb (m n : node) : bool :=
    eqb (id m) (id n) && eqb (parent m) (parent n) && dict_eqb eqb (n_attributes m) (n_attributes n).
  (** 55-60 *)
  Definition edge_eqb (e f : edge) : bool :=
    eqb (e_id e) (e_id f) && eqb (source e) (source f) && eqb (target e) (target f) &&
    dict_eqb eqb (e_attributes e) (e_attributes f).
  (** [set.add] on a set of edges: an equal edge that is already there stays *)
  Definition edge_set_add (e : edge) (s : list edge) : list edge :=
    if existsb (edge_eqb e) s then s else s ++ [e].

  Definition empty : graph := Graph [] [].
  (** 72-73 *)
  Definition add_node (n : node) (g : graph) : graph := Graph (dict_set (id n) n (nodes g)) (edges g).
  (** 75-76 *)
  Definition add_edge (e : edge) (g : graph) : graph := Graph (nodes g) (edge_set_add e (edges g)).
  (** 78-79: KeyError if there is no such edge *)
  Definition remove_edge (e : edge) (g : graph) : result graph :=
    if existsb (edge_eqb e) (edges g) then Ok (Graph (nodes g) (filter (fun f => negb (edge_eqb e f)) (edges g)))
    else Err KeyError.
  (** 87-88 *)
  Definition get_node_by_id (i : V) (g : graph) : result node := of_option KeyError (dict_get i (nodes g)).
  (** 90-91 *)
  Definition get_nodes_by_label (l : V) (g : graph) : list node := filter (fun n => eqb (label n) l) (values (nodes g)).
  (** 93-98: the first edge in the order of the set *)
  Definition get_edge_by_source_and_target (s t : V) (g : graph) : result edge :=
    of_option ValueError (find (fun e => eqb (source e) s && eqb (target e) t) (edges g)).
  (** 100-104 *)
  Definition has_children (i : V) (g : graph) : bool := existsb (fun n => eqb (parent n) (Some i)) (values (nodes g)).
  (** 138-142 *)
  Definition get_outgoing_edges (i : V) (g : graph) : list edge := filter (fun e => eqb (source e) i) (edges g).
  Definition get_ingoing_edges (i : V) (g : graph) : list edge := filter (fun e => eqb (target e) i) (edges g).
  (** 144-149 *)
  Definition get_children (i : V) (g : graph) : list node := filter (fun n => eqb (parent n) (Some i)) (values (nodes g)).
  (** 151-156 *)
  Definition get_source_nodes (g : graph) : list node :=
    filter (fun n => length (get_ingoing_edges (id n) g) =? 0) (values (nodes g)).
  (** 158-163 *)
  Definition get_sink_nodes (g : graph) : list node :=
    filter (fun n => length (get_outgoing_edges (id n) g) =? 0) (values (nodes g)).
  (** 130-136 *)
  Definition get_subgraph (i : V) (g : graph) : graph :=
    fold_left (fun sub n => fold_left (fun sub e => add_edge e sub) (get_outgoing_edges (id n) g) (add_node n sub))
      (get_children i g) empty.
  (** 106-128: the two functions only differ in [pick] (get_sink_nodes or
      get_source_nodes); [fuel] is the depth of the recursion *)
  Fixpoint low_level (pick : graph -> list node) (fuel : nat) (i : V) (g : graph) : result (list node) :=
    match fuel with
    | 0 => Err OutOfFuel
    | S fuel' =>
      if negb (has_children i g) then do n <- get_node_by_id i g ; Ok [n]
      else foldM (fun acc n =>
             if negb (has_children (id n) g) then Ok (acc ++ [n])
             else do more <- low_level pick fuel' (id n) g ; Ok (acc ++ more))
           (pick (get_subgraph i g)) []
    end.
  Definition get_low_level_sink_nodes := low_level get_sink_nodes.
  Definition get_low_level_source_nodes := low_level get_source_nodes.

  (** 215-225; [arrow a b] is the text '%s->%s' of the two ids *)
  Definition add_low_level_edges (arrow : V -> V -> V) (fuel : nat) (s t : node) (g : graph) (to_add : list edge) : result (list edge) :=
    do starts <- get_low_level_sink_nodes fuel (id s) g ;
    do ends <- get_low_level_source_nodes fuel (id t) g ;
    Ok (fold_left (fun acc a => fold_left (fun acc b =>
          edge_set_add (Edge (arrow (id a) (id b)) (id a) (id b) []) acc) ends acc) starts to_add).
  (** 165-183; an exception in the first loop leaves the graph as it was *)
  Definition replace_high_level_edges (arrow : V -> V -> V) (fuel : nat) (g : graph) : result graph :=
    do (to_remove, to_add) <- foldM (fun '(to_remove, to_add) e =>
        do s <- get_node_by_id (source e) g ;
        do t <- get_node_by_id (target e) g ;
        if has_children (id s) g || has_children (id t) g then
          do to_add' <- add_low_level_edges arrow fuel s t g to_add ;
          Ok (edge_set_add e to_remove, to_add')
        else Ok (to_remove, to_add)) (edges g) ([], []) ;
    do g' <- foldM (fun g e => remove_edge e g) to_remove g ;
    Ok (fold_left (fun g e => add_edge e g) to_add g').

  (** 194-202 *)
  Definition node_to_dict (n : node) : dict string V :=
    let d := dict_set "label" (label n) (dict_set "id" (id n) []) in
    let d := match parent n with Some p => dict_set "parent" p d | None => d end in
    fold_left (fun d '(k, v) => dict_set k v d) (n_attributes n) d.
  (** 204-211 *)
  Definition edge_to_dict (e : edge) : dict string V :=
    let d := dict_set "target" (target e) (dict_set "source" (source e) (dict_set "id" (e_id e) [])) in
    fold_left (fun d '(k, v) => dict_set k v d) (e_attributes e) d.
  (** 185-213: the lists under 'nodes' and 'edges' *)
  Definition to_dict (g : graph) : list (dict string V) * list (dict string V) :=
    (map node_to_dict (values (nodes g)), map edge_to_dict (edges g)).
  (** 250-251 and 256-257 *)
  Definition without (names : list string) (d : dict string V) : dict string V :=
    filter (fun '(k, _) => negb (mem k names)) d.
  (** 246-259 *)
  Definition from_dict (d : list (dict string V) * list (dict string V)) : result graph :=
    do g <- foldM (fun g n =>
        do i <- of_option KeyError (dict_get "id" n) ;
        do l <- of_option KeyError (dict_get "label" n) ;
        Ok (add_node (Node i l (dict_get "parent" n) (without ["id"; "label"; "parent"] n)) g)) (fst d) empty ;
    foldM (fun g e =>
        do i <- of_option KeyError (dict_get "id" e) ;
        do s <- of_option KeyError (dict_get "source" e) ;
        do t <- of_option KeyError (dict_get "target" e) ;
        Ok (add_edge (Edge i s t (without ["id"; "source"; "target"] e)) g)) (snd d) g.

  (** 227-230 *)
  Definition graph_eqb (g h : graph) : bool :=
    dict_eqb node_eqb (nodes g) (nodes h) &&
    ((length (edges g) =? length (edges h)) && forallb (fun e => existsb (edge_eqb e) (edges h)) (edges g)).
End N.
Arguments node : clear implicits.
Arguments edge : clear implicits.
Arguments graph : clear implicits.
