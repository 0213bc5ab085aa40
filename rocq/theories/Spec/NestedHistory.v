(** Vocabulary for nested graphs after a history of changes *)
From Verif.Model Require Import Base NestedGraph.
From Verif.Spec Require Import NestedSpec.

Section H.
  Context {V : Type} `{Eq V}.
  (** the calls that change a graph *)
  Inductive call := AddNode (n : node V) | AddEdge (e : edge V) | RemoveEdge (e : edge V).
  (** attributes are dictionaries: no name twice *)
  Definition proper_call (c : call) : Prop :=
    match c with
    | AddNode n => NoDup (keys (n_attributes n))
    | AddEdge e | RemoveEdge e => NoDup (keys (e_attributes e))
    end.
  (** the graph after the calls, made one after the other on an empty graph;
      a call that raises changes nothing and the program goes on *)
  Definition do_call (g : graph V) (c : call) : graph V :=
    match c with
    | AddNode n => add_node n g
    | AddEdge e => add_edge e g
    | RemoveEdge e => match remove_edge e g with Ok g' => g' | Err _ => g end
    end.
  Definition after (h : list call) : graph V := fold_left do_call h empty.

  (** [n] is the node that was added last under its id *)
  Definition last_added (h : list call) (n : node V) : Prop :=
    exists before later, h = before ++ AddNode n :: later /\ forall m, In (AddNode m) later -> id m <> id n.
  (** the id [i] came into the graph before [j] did *)
  Definition earlier (h : list call) (i j : V) : Prop :=
    exists before n later, h = before ++ AddNode n :: later /\ id n = i /\
      (forall m, In (AddNode m) before -> id m <> j) /\ i <> j.
  (** [e] was added when all edges equal to it had been removed, and no edge
      equal to it was removed since *)
  Definition still_there (h : list call) (e : edge V) : Prop :=
    exists before later, h = before ++ AddEdge e :: later /\
      (forall f, In (RemoveEdge f) later -> ~ same_edge e f) /\
      forall h1 f h2, before = h1 ++ AddEdge f :: h2 -> same_edge e f ->
        exists r, In (RemoveEdge r) h2 /\ same_edge e r.
End H.
Arguments call : clear implicits.
