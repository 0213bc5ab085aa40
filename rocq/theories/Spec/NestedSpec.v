(** Vocabulary for nested graphs *)
From Coq Require Import String.
From Verif.Model Require Import Base NestedGraph.
Open Scope string_scope.
Open Scope list_scope.
Open Scope nat_scope.
Notation length := List.length.

Section S.
  Context {V : Type} `{Eq V}.
  (** nodes and edges of a graph *)
  Definition has_node (g : graph V) (n : node V) : Prop := In n (values (nodes g)).
  Definition has_edge (g : graph V) (e : edge V) : Prop := In e (edges g).
  Definition child (g : graph V) (c p : V) : Prop := exists n, has_node g n /\ id n = c /\ parent n = Some p.
  Definition leaf (g : graph V) (i : V) : Prop := (exists n, has_node g n /\ id n = i) /\ forall c, ~ child g c i.

  (** [y] is a node at the lowest level below [x] that is reached by only
      descending to children without outgoing edges *)
  Inductive exit_of (g : graph V) : V -> V -> Prop :=
  | exit_leaf x : leaf g x -> exit_of g x x
  | exit_child x c y : child g c x -> (forall e, has_edge g e -> source e <> c) -> exit_of g c y -> exit_of g x y.
  (** ... by only descending to children without edges from their siblings *)
  Inductive entry_of (g : graph V) : V -> V -> Prop :=
  | entry_leaf x : leaf g x -> entry_of g x x
  | entry_child x c y : child g c x -> (forall e, has_edge g e -> child g (source e) x -> target e <> c) ->
      entry_of g c y -> entry_of g x y.

  (** no node is nested in itself: some rank decreases from parents to children *)
  Definition nested_by (rank : V -> nat) (g : graph V) : Prop :=
    forall c p, child g c p -> rank c < rank p.
  (** all ends of edges are nodes *)
  Definition closed (g : graph V) : Prop :=
    forall e, has_edge g e -> (exists n, has_node g n /\ id n = source e) /\ (exists n, has_node g n /\ id n = target e).

  (** what all graphs built with the API satisfy (given that the dictionaries
      of attributes are dictionaries) *)
  Definition proper (g : graph V) : Prop :=
    NoDup (keys (nodes g)) /\ (forall k n, In (k, n) (nodes g) -> id n = k) /\
    (forall n, has_node g n -> NoDup (keys (n_attributes n))) /\
    (forall e, has_edge g e -> NoDup (keys (e_attributes e))) /\
    (forall i j e f, nth_error (edges g) i = Some e -> nth_error (edges g) j = Some f -> edge_eqb e f = true -> i = j).
  (** the names that [to_dict] uses itself are not used as attributes *)
  Definition plain (g : graph V) : Prop :=
    (forall n k, has_node g n -> In k ["id"; "label"; "parent"] -> ~ In k (keys (n_attributes n))) /\
    (forall e k, has_edge g e -> In k ["id"; "source"; "target"] -> ~ In k (keys (e_attributes e))).
End S.

(** the two nodes are equal for Python: the labels may differ *)
Definition same_node {V} (m n : node V) : Prop :=
  id m = id n /\ parent m = parent n /\ forall k, dict_get k (n_attributes m) = dict_get k (n_attributes n).
Definition same_edge {V} (e f : edge V) : Prop :=
  e_id e = e_id f /\ source e = source f /\ target e = target f /\
  forall k, dict_get k (e_attributes e) = dict_get k (e_attributes f).
