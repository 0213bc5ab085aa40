(** Specification of the integer graphs *)
From Coq Require Import List Arith Bool.
From Verif.Model Require Import IntGraph.
From Verif.Spec Require Import Graphs.
Import ListNotations.

(** number of graph objects created in a history (latest call first) *)
Fixpoint created (h : list op) : nat :=
  match h with
  | [] => 0
  | New _ :: h' | Copy _ :: h' => S (created h')
  | _ :: h' => created h'
  end.
(** does graph [i] have the edge from [a] to [b] after the history [h] (latest
    call first)?  Graphs are numbered in order of creation. *)
Fixpoint edge_after (h : list op) (i a b : nat) : Prop :=
  match h with
  | [] => False
  | New _ :: h' => i <> created h' /\ edge_after h' i a b
  | Copy j :: h' => (i = created h' /\ edge_after h' j a b) \/ (i <> created h' /\ edge_after h' i a b)
  | Add j c d :: h' => (i, a, b) = (j, c, d) \/ edge_after h' i a b
  | Remove j c d :: h' => (i, a, b) <> (j, c, d) /\ edge_after h' i a b
  end.
(** the ends of the edges of node [a] in graph [i] in the order of their
    additions, one entry per addition since the edge was last removed *)
Fixpoint ends_after (h : list op) (i a : nat) : list nat :=
  match h with
  | [] => []
  | New _ :: h' => if i =? created h' then [] else ends_after h' i a
  | Copy j :: h' => ends_after h' (if i =? created h' then j else i) a
  | Add j c d :: h' => ends_after h' i a ++ (if (i =? j) && (a =? c) then [d] else [])
  | Remove j c d :: h' =>
      if (i =? j) && (a =? c) then filter (fun b => negb (b =? d)) (ends_after h' i a) else ends_after h' i a
  end.
(** number of nodes of graph [i] *)
Fixpoint size_after (h : list op) (i : nat) : option nat :=
  match h with
  | [] => None
  | New n :: h' => if i =? created h' then Some n else size_after h' i
  | Copy j :: h' => if i =? created h' then size_after h' j else size_after h' i
  | _ :: h' => size_after h' i
  end.
(** the calls of a history name existing graphs and nodes only *)
Fixpoint legal (h : list op) : Prop :=
  match h with
  | [] => True
  | New _ :: h' => legal h'
  | Copy j :: h' => j < created h' /\ legal h'
  | Add j a b :: h' | Remove j a b :: h' =>
      (exists n, size_after h' j = Some n /\ a < n /\ b < n) /\ legal h'
  end.

(** a graph given by its adjacency lists: all nodes named are below the number
    of nodes *)
Definition in_range (g : adjs) : Prop := Forall (Forall (fun w => w < length g)) g.
(** [w] is in the adjacency list of [v] *)
Definition arc (g : adjs) (v w : nat) : Prop := exists l, nth_error g v = Some l /\ In w l.
(** each of the two can be reached from the other *)
Definition mutually (g : adjs) (v w : nat) : Prop := connected0 (arc g) v w /\ connected0 (arc g) w v.
