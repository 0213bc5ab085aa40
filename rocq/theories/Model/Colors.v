(** Model of the colors of the nodes of directly-follows graphs, which
    prolothar_common/models/dfg/node.pyx (lines 21-26, node.pxd 22-23) lets a
    program assign to and which directly_follows_graph.pyx draws.  The colors of
    all node objects of a graph are kept beside the graph of [Model/Dfg.v]. *)
From Coq Require Import String QArith.
From Verif.Model Require Import Base Sort Dot Drawings Dfg.
Open Scope string_scope.
Open Scope list_scope.
Open Scope nat_scope.

(** color and fontcolor of each node object *)
Definition colors := nat -> string * string.
(** node.pyx 21: the colors of a node that was just made *)
Definition new_colors : colors := fun _ => ("white", "black").
(** [dfg.nodes[a].color = x] and [dfg.nodes[a].fontcolor = x] *)
Definition set_color (a x : string) (g : graph) (c : colors) : result colors :=
  do n <- node_id g a ; Ok (upd c n (x, snd (c n))).
Definition set_fontcolor (a x : string) (g : graph) (c : colors) : result colors :=
  do n <- node_id g a ; Ok (upd c n (fst (c n), x)).
(** directly_follows_graph.pyx 204-207 *)
Definition colored_node (g : graph) (c : colors) (n : nat) : statement :=
  NodeStatement (n_act (nh g n)) None [("fillcolor", fst (c n)); ("fontcolor", snd (c n)); ("shape", "rectangle"); ("style", "filled")].
(** 112-141, 143-156 without random walks and topological order *)
Definition colored_plot (show : Q -> string) (show_counts counts_as_edge_weight : bool) (min_weight max_weight : Q) (g : graph) (c : colors) : list statement :=
  map (colored_node g c) (stable_sort (fun m n => String.leb (n_act (nh g m)) (n_act (nh g n))) (values (nodes g)))
  ++ dfg_edges show show_counts counts_as_edge_weight min_weight max_weight g.
(** 109-110; the default arguments *)
Definition colored_repr (show : Q -> string) (g : graph) (c : colors) : string := source (colored_plot show true false 1 10 g c).
(** 105-107 *)
Definition colored_eq (show : Q -> string) (g : graph) (c : colors) (h : graph) (d : colors) : bool :=
  String.eqb (colored_repr show g c) (colored_repr show h d).
