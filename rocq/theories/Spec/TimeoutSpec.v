(** Specification vocabulary for timeouts *)
From Verif.Model Require Import Base Timeout.
Open Scope list_scope.

Section T.
  Context {S V : Type}.
  Variable f : function S V.
  (** the function called without a timeout, from state [s], ends with [o] after [n] steps *)
  Fixpoint ends_after (n : nat) (s : S) (o : outcome V) : Prop :=
    match n with
    | O => False
    | Datatypes.S n' => match go f s with inl s' => ends_after n' s' o | inr o' => o' = o end
    end.
  Definition own_outcome (o : outcome V) : Prop := exists n, ends_after n (start f) o.
  (** the function never ends by itself *)
  Definition endless : Prop := forall s, exists s', go f s = inl s'.
  (** the function has no handler for KeyboardInterrupt *)
  Definition catches_nothing : Prop := forall s, catch f s = inr Interrupted.
End T.
(** the call is over *)
Definition over {S V} (x : state S V) (o : outcome V) : Prop := at_ x = Caller o.
(** steps of the main thread *)
Definition steps_of_main (es : list event) : nat := length (filter (fun e => match e with Main => true | _ => false end) es).
