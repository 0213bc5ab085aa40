(** Model of the [plot] methods: what they hand over to the library graphviz.
    With [view=False] and without a file the result of [plot] is the text of the
    drawing (gviz_utils.py 36-45). *)
From Coq Require Import String ZArith QArith Qround.
From Verif.Model Require Import Base Sort Dot Statistics.
From Verif.Model Require Dfg Lts PrefixTree PetriNet.
Open Scope string_scope.
Open Scope list_scope.
Open Scope nat_scope.

(** directly_follows_graph.pyx 204-207; nodes have the colors they are made with (dfg/node.pyx 21) *)
Definition dfg_node (a : string) : statement :=
  NodeStatement a None [("fillcolor", "white"); ("fontcolor", "black"); ("shape", "rectangle"); ("style", "filled")].
(** 242-254; [show] prints a float.  Division is exact. *)
Definition edge_weight (show : Q -> string) (counts_as_edge_weight : bool) (min_weight max_weight : Q) (count min_count max_count : Z) : string :=
  if counts_as_edge_weight then
    if negb (max_count =? min_count)%Z
    then show (inject_Z (count - min_count) / inject_Z (max_count - min_count) * (max_weight - min_weight) + min_weight)%Q
    else "1.0"
  else "1.0".
(** 226-240 *)
Definition minimum_count (l : list Z) : Z := match l with [] => 0%Z | c :: r => fold_left Z.min r c end.
Definition maximum_count (l : list Z) : Z := match l with [] => 0%Z | c :: r => fold_left Z.max r c end.
Definition dfg_edges (show : Q -> string) (show_counts counts_as_edge_weight : bool) (min_weight max_weight : Q) (g : Dfg.graph) : list statement :=
  let counts := map snd (Dfg.edge_list g) in
  map (fun '(a, b, c) => EdgeStatement a b (Some (if show_counts then str c else ""))
         [("penwidth", edge_weight show counts_as_edge_weight min_weight max_weight c (minimum_count counts) (maximum_count counts))])
      (stable_sort Dfg.edge_leb (Dfg.edge_list g)).
(** 112-141, 143-156 without random walks and topological order *)
Definition dfg_plot (show : Q -> string) (show_counts counts_as_edge_weight : bool) (min_weight max_weight : Q) (g : Dfg.graph) : list statement :=
  map dfg_node (stable_sort String.leb (Dfg.activities g)) ++ dfg_edges show show_counts counts_as_edge_weight min_weight max_weight g.
(** 109-110; the default arguments *)
Definition dfg_repr (show : Q -> string) (g : Dfg.graph) : string := source (dfg_plot show true false 1 10 g).
(** 105-107 *)
Definition dfg_eq (show : Q -> string) (g h : Dfg.graph) : bool := String.eqb (dfg_repr show g) (dfg_repr show h).

(** 185-202: the nodes in rows from the sources on; [ord] as in [Dfg.remove_node] *)
Definition strip_source (ord : list (string * string) -> list (string * string)) (g : Dfg.graph) (a : string) : result Dfg.graph :=
  do n <- Dfg.node_id g a ;
  do g1 <- foldM (fun g e => let t := Dfg.e_end (Dfg.eh g e) in Dfg.remove_edges (map (Dfg.edge_key g) (Dfg.n_in (Dfg.nh g t))) g) (Dfg.n_out (Dfg.nh g n)) g ;
  Dfg.remove_node ord a false g1.
Fixpoint groups (fuel : nat) (ord : list (string * string) -> list (string * string)) (g : Dfg.graph) : result (list (list string)) :=
  match Dfg.get_source_activities g with
  | [] => Ok []
  | sources =>
    match fuel with
    | 0 => Err OutOfFuel
    | S fuel' => do g' <- foldM (strip_source ord) sources g ; do r <- groups fuel' ord g' ; Ok (sources :: r)
    end
  end.
Definition topological_groups (ord : list (string * string) -> list (string * string)) (g : Dfg.graph) : result (list (list string)) :=
  do c <- Dfg.copy g ; groups (length (Dfg.nodes c)) ord c.

(** labeled_transition_system.py 126-168.  [sorted] are the states in the order of
    [sorted(...)] (None first); [show_state] makes labels of states if they are asked
    for; sets of states and labels of events are printed by arguments *)
Definition lts_plot {A S} `{Eq A} `{Eq S} (sorted : list S) (show_state : option (S -> string)) (show_event : A -> string) (m : Lts.lts A S) : result (list statement) :=
  let numbered := combine (seq 0 (length sorted)) sorted in
  let node_id (i : nat) := ("s" ++ str (Z.of_nat i))%string in
  let ids := fold_left (fun d '(i, s) => dict_set s (node_id i) d) numbered [] in
  let nodes := map (fun '(i, s) =>
    let '(shape, label) := match show_state with Some f => ("rectangle", f s) | None => ("circle", node_id i) end in
    NodeStatement (node_id i) (Some label) [("peripheries", if mem s (Lts.end_states m) then "2" else "1"); ("shape", shape)]) numbered in
  do edges <- mapM (fun '(s, e, s') =>
    do a <- of_option KeyError (dict_get s ids) ; do b <- of_option KeyError (dict_get s' ids) ;
    Ok (EdgeStatement a b (Some (show_event e)) [])) (Lts.transition_list m) ;
  Ok (nodes ++ edges).

(** prefix_tree.py 66: the text of a node id *)
Definition dotted (id : list nat) : string := String.concat "" (map (fun k => "." ++ str (Z.of_nat k))%string id).
(** prefix_tree.py 105-126; the head of the list is its right end; [show] is [%s] of a symbol *)
Definition tree_node {A} (show : A -> string) (x : A) (t : PrefixTree.ptree A) : list statement :=
  let id := dotted (PrefixTree.get_node_id t) in
  NodeStatement id (Some (show x ++ " | " ++ str (Z.of_nat (PrefixTree.get_nr_of_sequences t)))%string) [("shape", "rectangle")]
  :: map (fun '(_, c) => EdgeStatement id (dotted (PrefixTree.get_node_id c)) (Some (str (Z.of_nat (PrefixTree.get_nr_of_sequences c)))) [])
       (PrefixTree.get_children t).
Fixpoint tree_nodes {A} (fuel : nat) (show : A -> string) (remaining : list (A * PrefixTree.ptree A)) : result (list statement) :=
  match remaining with
  | [] => Ok []
  | (x, t) :: remaining' =>
    match fuel with
    | 0 => Err OutOfFuel
    | S fuel' => do l <- tree_nodes fuel' show (rev (PrefixTree.get_children t) ++ remaining') ; Ok (tree_node show x t ++ l)
    end
  end.
Definition tree_plot {A} (show : A -> string) (t : PrefixTree.ptree A) : result (list statement) :=
  tree_nodes (PrefixTree.size t) show (rev (PrefixTree.get_children t)).

(** data_petri_net.py 392-411; attributes that are None are left out *)
Definition net_plot (ord : list string -> list string) (show_labels_of_invisible_transitions : bool) (n : PetriNet.net) : list statement :=
  map (fun '(id, p) => NodeStatement ("place_" ++ id)%string (Some (if (PetriNet.p_tokens p =? 0)%Z then "" else str (PetriNet.p_tokens p)))
                         [("shape", "circle"); ("xlabel", PetriNet.p_label p)]) (PetriNet.places n)
  ++ flat_map (fun '(id, t) =>
       NodeStatement ("transition_" ++ id)%string (Some (PetriNet.t_label t))
         ((if negb (PetriNet.t_visible t) && negb show_labels_of_invisible_transitions then [("fillcolor", "black")] else [])
          ++ [("shape", "rectangle")] ++ (if PetriNet.t_visible t then [] else [("style", "filled")]))
       :: map (fun p => EdgeStatement ("place_" ++ p)%string ("transition_" ++ id)%string None []) (ord (PetriNet.t_start t))
       ++ map (fun p => EdgeStatement ("transition_" ++ id)%string ("place_" ++ p)%string None []) (ord (PetriNet.t_end t)))
     (PetriNet.transitions n).

(** directly_follows_graph.pyx 209-224: the positions recorded by one walk.  [choose n] is the index that
    [random.choice] takes of [n] elements at this step *)
Fixpoint walk (fuel : nat) (choose : nat -> nat -> nat) (g : Dfg.graph) (end_activity : string) (current : nat) (visited : list string) (i : nat)
    (st : dict string statistics) : result (dict string statistics) :=
  if eqb (Dfg.n_act (Dfg.nh g current)) end_activity then Ok st else
  let choices := filter (fun e => negb (mem (Dfg.end_act g e) visited)) (Dfg.n_out (Dfg.nh g current)) in
  match choices with
  | [] => Ok st
  | _ =>
    match fuel with
    | 0 => Err OutOfFuel
    | S fuel' =>
      do e <- of_option IndexError (nth_error choices (choose i (length choices))) ;
      let next := Dfg.e_end (Dfg.eh g e) in
      let a := Dfg.n_act (Dfg.nh g next) in
      do s <- of_option KeyError (dict_get a st) ;
      walk fuel' choose g end_activity next (set_add a visited) (i + 1) (dict_set a (st_push s (inject_Z (Z.of_nat i))) st)
    end
  end.
(** [round] of a float: to the nearest integer, halves to the even one *)
Definition py_round (q : Q) : Z :=
  let f := Qfloor q in
  match Qcompare (q - inject_Z f) (1 # 2) with
  | Lt => f
  | Gt => (f + 1)%Z
  | Datatypes.Eq => if Z.even f then f else (f + 1)%Z
  end.
(** 168-184; [choose w] are the choices of walk number [w].  The sorting of the nodes by their
    means has no effect.  The groups come as they are drawn, sorted by their numbers (160-161) *)
Definition walk_groups (choose : nat -> nat -> nat -> nat) (start_activity end_activity : string) (walks : nat) (g : Dfg.graph) : result (list (Z * list string)) :=
  do st <- foldM (fun st w =>
      do n <- Dfg.node_id g start_activity ;
      walk (length (Dfg.nodes g)) (choose w) g end_activity n (set_add (Dfg.n_act (Dfg.nh g n)) []) 1 st)
    (seq 0 walks) (map (fun a => (a, st_empty)) (keys (Dfg.nodes g))) ;
  let rows := map (fun '(a, s) => (a, py_round (st_get_mean s))) st in
  do groups <- foldM (fun d a =>
      do k <- of_option KeyError (dict_get a rows) ;
      do r <- of_option KeyError (dict_get k d) ; Ok (dict_set k (r ++ [a]) d))
    (Dfg.activities g) (fold_left (fun d k => dict_set k [] d) (values rows) []) ;
  Ok (stable_sort (fun a b => (fst a <=? fst b)%Z) groups).

(** what [plot] hands over with its options: an attribute of the whole drawing, a
    row of nodes of the same rank (a subgraph), or a single node or edge *)
Inductive item :=
| GraphAttribute (name value : string)
| SameRank (nodes : list statement)
| Single (s : statement).
(** 158-165 and 204-207: each group is a subgraph with its nodes sorted by their activities *)
Definition add_node_groups (groups : list (list string)) : list item :=
  map (fun r => SameRank (map dfg_node (stable_sort String.leb r))) groups.
(** 143-156; [walks] is [random_walk_alignment] with the choices made in the walks *)
Definition plot_nodes (walks : option ((nat -> nat -> nat -> nat) * string * string * nat)) (use_topological_order : bool)
    (ord : list (string * string) -> list (string * string)) (g : Dfg.graph) : result (list item) :=
  match walks, use_topological_order with
  | Some _, true => Err NotImplementedError
  | Some (choose, start_activity, end_activity, n), false =>
    do groups <- walk_groups choose start_activity end_activity n g ; Ok (add_node_groups (map snd groups))
  | None, true => do groups <- topological_groups ord g ; Ok (add_node_groups groups)
  | None, false => Ok (map (fun a => Single (dfg_node a)) (stable_sort String.leb (Dfg.activities g)))
  end.
(** 112-141 with all options except for the layout and the file *)
Definition dfg_draw (show : Q -> string) (show_counts counts_as_edge_weight : bool) (min_weight max_weight : Q) (concentrate_edges : bool)
    (walks : option ((nat -> nat -> nat -> nat) * string * string * nat)) (use_topological_order : bool)
    (ord : list (string * string) -> list (string * string)) (g : Dfg.graph) : result (list item) :=
  do nodes <- plot_nodes walks use_topological_order ord g ;
  Ok ((if concentrate_edges then [GraphAttribute "concentrate" "true"] else [])
      ++ nodes ++ map Single (dfg_edges show show_counts counts_as_edge_weight min_weight max_weight g)).
