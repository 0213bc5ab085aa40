(** How a user reads the list of edit operations returned by
    [levenshtein_with_backtrace]: as a set of positioned operations.  Only the
    result type of the model is used. *)
From Verif.Model Require Import Base Levenshtein.
From Verif.Spec Require Import Edit.

Definition is_op (k : op_type) (o : edit_op) : bool :=
  match k, op_t o with
  | DELETE, DELETE | INSERT, INSERT | SUBSTITUTE, SUBSTITUTE => true
  | _, _ => false
  end.
(** reading a list of operations as a set of positioned operations *)
Definition has_op (ops : list edit_op) (k : op_type) (i j : nat) : bool :=
  existsb (fun o => is_op k o && (op_i o =? i) && (op_j o =? j)) ops.
Definition has_op_at (ops : list edit_op) (k : op_type) (i : nat) : bool :=
  existsb (fun o => is_op k o && (op_i o =? i)) ops.
Definition apply_ops {A} (ops : list edit_op) (s t : list A) : list A :=
  edited (has_op ops INSERT) (has_op_at ops DELETE) (has_op ops SUBSTITUTE) s t.


(** the operation [o] stands before [p]: at no later position in either
    sequence, and not at the same one *)
Definition before (o p : edit_op) : Prop :=
  op_i o <= op_i p /\ op_j o <= op_j p /\ op_i o + op_j o < op_i p + op_j p.
