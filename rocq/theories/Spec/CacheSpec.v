(** Vocabulary for the properties of the result cache *)
From Verif.Model Require Import Base ResultCache.

(** what is assumed of pickle: an object that can be pickled is loaded back,
    and an incomplete file cannot be loaded *)
Definition faithful {R B} (p : pickle R B) : Prop :=
  (forall r bytes, dump p r = (bytes, None) -> load p bytes = Ok r) /\
  (forall r bytes e n, dump p r = (bytes, e) -> e <> None \/ n < length bytes ->
     exists e', load p (firstn n bytes) = Err e').

(** the call evaluates the function *)
Definition evaluates {A R B} (p : pickle R B) (c : call A R) (k : kill) (w : world B) : Prop :=
  evaluations (fst (wrapper p c k w)) = S (evaluations w).
