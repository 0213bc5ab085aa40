(** Vocabulary for the properties of dataset transformers *)
From Coq Require Import Permutation QArith Qcanon.
From Verif.Model Require Import Base Dataset.
From Verif.Spec Require Import DatasetSpec.

Section S.
  Context {I T : Type}.
  Notation heap := (heap I Qc T).
  Notation dataset := (dataset Qc).
  (** [m] is the least value of attribute [n] in the dataset *)
  Definition least (h : heap) (d : dataset) n m :=
    (exists a, In a (insts d) /\ value h a n = Some m) /\
    forall a v, In a (insts d) -> value h a n = Some v -> (m <= v)%Qc.
  (** [m] is the greatest value of attribute [n] in the dataset *)
  Definition greatest (h : heap) (d : dataset) n m :=
    (exists a, In a (insts d) /\ value h a n = Some m) /\
    forall a v, In a (insts d) -> value h a n = Some v -> (v <= m)%Qc.
End S.

(** [t] is [s] with at most one element of [alphabet] inserted before the
    first, after the last and between any two elements *)
Inductive sprinkled {A} (alphabet : list A) : list A -> list A -> Prop :=
| spr_nil : sprinkled alphabet [] []
| spr_last x : In x alphabet -> sprinkled alphabet [] [x]
| spr_cons e s t : sprinkled alphabet s t -> sprinkled alphabet (e :: s) (e :: t)
| spr_noise x e s t : In x alphabet -> sprinkled alphabet s t -> sprinkled alphabet (e :: s) (x :: e :: t).

(** [t] is a rearrangement of [s]: the element at position [k] of [s] went to
    position [f k] of [t] *)
Definition moved_by {A} (f : nat -> nat) (s t : list A) : Prop :=
  length t = length s /\
  (forall k, k < length s -> nth_error t (f k) = nth_error s k) /\
  (forall k k', k < length s -> k' < length s -> f k = f k' -> k = k').

(** Noise with given random outcomes, [i] being the number of calls of the
    generator before and [i'] after.  [s] becomes [t] when in every gap of [s]
    one number is drawn and, if it is below [p], the element chosen by the next
    call is inserted there. *)
Inductive gap_noise {A} (alphabet : list A) (p : Q) (rand : nat -> Q) (pick : nat -> nat) : nat -> list A -> nat -> Prop :=
| gap_hit i x : (rand i < p)%Q -> nth_error alphabet (pick (S i) mod length alphabet) = Some x ->
    gap_noise alphabet p rand pick i [x] (S (S i))
| gap_miss i : (p <= rand i)%Q -> gap_noise alphabet p rand pick i [] (S i).
Inductive add_outcome {A} (alphabet : list A) (p : Q) (rand : nat -> Q) (pick : nat -> nat) : nat -> list A -> nat -> list A -> Prop :=
| add_last i g i' : gap_noise alphabet p rand pick i g i' -> add_outcome alphabet p rand pick i [] i' g
| add_event i g j e s i' t : gap_noise alphabet p rand pick i g j -> add_outcome alphabet p rand pick j s i' t ->
    add_outcome alphabet p rand pick i (e :: s) i' (g ++ e :: t).
(** [s] becomes [t] when from the front on one number is drawn for every two
    neighbours; if it is below [p] they change places, and then the first of
    them is next again (with [multiple] swaps) or neither of them *)
Inductive swap_outcome {A} (multiple : bool) (p : Q) (rand : nat -> Q) : nat -> list A -> nat -> list A -> Prop :=
| swap_empty i : swap_outcome multiple p rand i [] i []
| swap_one i a : swap_outcome multiple p rand i [a] i [a]
| swap_miss i a b s i' t : (p <= rand i)%Q -> swap_outcome multiple p rand (S i) (b :: s) i' t ->
    swap_outcome multiple p rand i (a :: b :: s) i' (a :: t)
| swap_again i a b s i' t : multiple = true -> (rand i < p)%Q -> swap_outcome multiple p rand (S i) (a :: s) i' t ->
    swap_outcome multiple p rand i (a :: b :: s) i' (b :: t)
| swap_pair i a b s i' t : multiple = false -> (rand i < p)%Q -> swap_outcome multiple p rand (S i) s i' t ->
    swap_outcome multiple p rand i (a :: b :: s) i' (b :: a :: t).

(** [pv] is the list of the integers 0, 1, ..., as values, the first of which
    is not a bool *)
Definition numbered {V} (ofnat : nat -> V) (isbool : V -> bool) (pv : list V) : Prop :=
  (exists v, nth_error pv 0 = Some v /\ isbool v = false) /\ forall k v, nth_error pv k = Some v -> v = ofnat k.
(** [v] is at position [k] of [l] and at no later one *)
Definition last_position {V} (l : list V) (v : V) (k : nat) : Prop :=
  nth_error l k = Some v /\ forall j, k < j -> nth_error l j <> Some v.
(** The sequences are changed by [f] one after the other, each with the state
    of the generator in which the one before has left it. *)
Inductive in_turn {A} (f : nat -> list A -> result (nat * list A)) : nat -> list (list A) -> nat -> list (list A) -> Prop :=
| turn_end i : in_turn f i [] i []
| turn_next i s j t ss i' ts : f i s = Ok (j, t) -> in_turn f j ss i' ts -> in_turn f i (s :: ss) i' (t :: ts).
