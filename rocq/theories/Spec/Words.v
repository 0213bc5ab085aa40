(** Powers of words and primitive words; independent of the model. *)
From Coq Require Import List Arith.
Import ListNotations.
From Verif.Spec Require Import Lists.

(** [w] repeated [k] times *)
Definition power {A} (w : list A) (k : nat) : list A := concat (repeat w k).

(** not a proper power *)
Definition primitive {A} (w : list A) : Prop :=
  w <> [] /\ forall u k, 2 <= k -> w <> power u k.

(** [w] repeated [k] >= 1 times from index [i], neither preceded nor followed
    by another copy *)
Definition maximal_run {A} (w l : list A) (i k : nat) : Prop :=
  1 <= k /\ occurs_at (power w k) l i /\
  ~ occurs_at w l (i + k * length w) /\
  forall h, h + length w = i -> ~ occurs_at w l h.

Definition sublist {A} (s l : list A) : Prop := exists k, occurs_at s l k.

(** [u] stands at two positions of [s] and is followed by different symbols
    there, the end of [s] counting as a symbol of its own *)
Definition right_branching {A} (s u : list A) : Prop :=
  exists p q, occurs_at u s p /\ occurs_at u s q /\ nth_error s (p + length u) <> nth_error s (q + length u).
(** symbol in front of position [p] *)
Definition symbol_before {A} (s : list A) (p : nat) : option A :=
  match p with 0 => None | S p' => nth_error s p' end.
Definition left_branching {A} (s u : list A) : Prop :=
  exists p q, occurs_at u s p /\ occurs_at u s q /\ symbol_before s p <> symbol_before s q.
(** [u] is the common word of a pair that can be extended on neither side *)
Definition maximal_pair_word {A} (s u : list A) : Prop :=
  exists p q, p <> q /\ occurs_at u s p /\ occurs_at u s q /\
    symbol_before s p <> symbol_before s q /\ nth_error s (p + length u) <> nth_error s (q + length u).
(** not a contiguous part of another word of the family *)
Definition inclusion_maximal {A} (family : list A -> Prop) (u : list A) : Prop :=
  family u /\ forall v, family v -> v <> u -> ~ sublist u v.
(** blocks of length [a] and [b] at [p] and [q] share a position *)
Definition overlap (p a q b : nat) : Prop := exists i, p <= i < p + a /\ q <= i < q + b.

(** [u] is one of the pieces of [w] between separators *)
Definition segment {A} (sep : A) (w u : list A) : Prop :=
  ~ In sep u /\ exists a b, w = a ++ u ++ b /\ (a = [] \/ exists a', a = a' ++ [sep]) /\
                            (b = [] \/ exists b', b = sep :: b').
(** the words of the list joined with a separator *)
Fixpoint join_with {A} (sep : A) (ws : list (list A)) : list A :=
  match ws with
  | [] => []
  | [w] => w
  | w :: rest => w ++ sep :: join_with sep rest
  end.
