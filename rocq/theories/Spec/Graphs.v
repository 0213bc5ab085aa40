(** Specification vocabulary for directed graphs; independent of the model. *)
From Coq Require Import List Arith ZArith QArith.
From Verif.Spec Require Import Lists Logs.
Import ListNotations.
Open Scope nat_scope.

Section G.
  Context {X : Type}.
  Variable E : X -> X -> Prop.
  (** [l] is a path from [a] to [b]: the visited vertices, [a] and [b] included *)
  Definition path (a b : X) (l : list X) : Prop := is_first a l /\ is_last b l /\ chained E l.
  (** [b] can be reached from [a] in one or more steps *)
  Definition connected (a b : X) : Prop := exists l, path a b l /\ 2 <= length l.
  (** ... in zero or more steps *)
  Definition connected0 (a b : X) : Prop := exists l, path a b l.
  (** a path of fewest steps *)
  Definition shortest (a b : X) (l : list X) : Prop :=
    path a b l /\ forall l', path a b l' -> length l <= length l'.
End G.

(** edge counts of a graph: [C a b = Some c] iff there is an edge from [a] to
    [b], with count [c] *)
Section C.
  Context {X : Type}.
  Variable C : X -> X -> option Z.
  Definition edge_of (a b : X) : Prop := C a b <> None.
  (** sum of the counts of the edges leaving [a] *)
  Definition out_total (a : X) (n : Z) : Prop :=
    exists l, NoDup l /\ (forall b, In b l <-> edge_of a b) /\
      n = fold_right Z.add 0%Z (map (fun b => match C a b with Some c => c | None => 0%Z end) l).
End C.
