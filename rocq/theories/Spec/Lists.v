(** Specification vocabulary for lists; independent of the model. *)
From Coq Require Import List Arith.
Import ListNotations.

(** [s] stands in [l] as a contiguous block starting at index [k] *)
Definition occurs_at {A} (s l : list A) (k : nat) : Prop :=
  exists pre post, l = pre ++ s ++ post /\ length pre = k.

(** [sub] is obtained from [l] by deleting elements, order kept *)
Inductive subseq {A} : list A -> list A -> Prop :=
| subseq_nil : subseq [] []
| subseq_skip x s l : subseq s l -> subseq s (x :: l)
| subseq_take x s l : subseq s l -> subseq (x :: s) (x :: l).

(** strictly ascending list of numbers *)
Inductive ascending : list nat -> Prop :=
| asc_nil : ascending []
| asc_one x : ascending [x]
| asc_cons x y l : x < y -> ascending (y :: l) -> ascending (x :: y :: l).

(** [a] and [b] have a common contiguous block of length [m] starting at [i] / [j] *)
Definition common_block {A} (a b : list A) (i j m : nat) : Prop :=
  exists w, length w = m /\ occurs_at w a i /\ occurs_at w b j.
