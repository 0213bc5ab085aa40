(** Vocabulary for what failing transformations leave behind *)
From Verif.Model Require Import Base Dataset FailingTransformers.

(** Calling [f] on a copy leaves the given dataset and all objects that existed
    before as they were, whatever happens, and a returned dataset has no
    instance that existed before. *)
Definition spares_original {I V T : Type} `{Base.Eq I} `{Base.Eq V} (f : heap I V T -> dataset V -> outcome I V T) : Prop :=
  forall h d it h' d' r, transforming false f h d it = (h', d', r) ->
    d' = d /\ (forall a x, nth_error h a = Some x -> nth_error h' a = Some x) /\
    (forall c, r = Ok c -> forall a, In a (insts c) -> length h <= a).
