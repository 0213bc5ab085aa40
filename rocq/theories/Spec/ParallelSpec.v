(** Specification vocabulary for the parallel lists *)
From Verif.Model Require Import Base.

(** the results before the first StopIteration *)
Fixpoint before_stop_iteration {E R} (f : E -> result R) (l : list E) : list R :=
  match l with
  | [] => []
  | x :: l' => match f x with Ok r => r :: before_stop_iteration f l' | Err _ => [] end
  end.
(** mapping [x] yields the exception [e]: raised, or returned as a value *)
Definition yields {E R} (exc : R -> option error) (f : E -> result R) (x : E) (e : error) : Prop :=
  f x = Err e \/ exists r, f x = Ok r /\ exc r = Some e.
Definition assoc_comm {R} (op : R -> R -> R) : Prop :=
  (forall a b c, op a (op b c) = op (op a b) c) /\ forall a b, op a b = op b a.
