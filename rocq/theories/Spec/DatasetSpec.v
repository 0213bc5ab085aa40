(** Vocabulary for the properties of datasets *)
From Coq Require Import Permutation.
From Verif.Model Require Import Base Dataset.

Section S.
  Context {I V T : Type} `{Eq I} `{Eq V}.
  Notation heap := (heap I V T).
  Notation inst := (inst I V T).
  Notation dataset := (dataset V).

  (** instance [x] at address [a] is in the dataset *)
  Definition member (h : heap) (d : dataset) (a : nat) (x : inst) : Prop :=
    In a (insts d) /\ nth_error h a = Some x.
  (** the value instance [a] has for attribute [n] *)
  Definition value (h : heap) (a : nat) (n : string) : option V :=
    match nth_error h a with Some x => dict_get n (feats x) | None => None end.
  (** the kind of attribute [n], if the dataset has it *)
  Definition kind_of (d : dataset) (n : string) : option kind := option_map akind (dict_get n (attrs d)).
  (** what get_unique_values of attribute [n] returns *)
  Definition uniques (d : dataset) (n : string) : option (list V) := option_map auniq (dict_get n (attrs d)).
  Definition has_attribute (d : dataset) (n : string) : Prop := kind_of d n <> None.

  (** feature dictionaries do not have a key twice *)
  Definition proper (h : heap) : Prop := forall a x, nth_error h a = Some x -> NoDup (keys (feats x)).
  (** [h'] has the same members of [d] with the same ids and features as [h];
      anything else may have changed *)
  Definition untouched (d : dataset) (h h' : heap) : Prop :=
    forall a x, member h d a x -> exists x', nth_error h' a = Some x' /\ iid x' = iid x /\ feats x' = feats x.

  (** the states that can be reached from a new dataset by the methods of
      Dataset, in any order, with the arguments and iteration orders of the
      caller's choice, while the rest of the program does anything that does
      not write into the features of its members. [fresh]: the names given to
      the constructor and to add_..._attribute are new names. *)
  Inductive history (fresh : bool) : heap -> dataset -> Prop :=
  | hist_new h cs ns : proper h -> (fresh = true -> NoDup (cs ++ ns)) -> history fresh h (new cs ns)
  | hist_other h h' d : history fresh h d -> proper h' -> untouched d h h' -> history fresh h' d
  | hist_add h d a d' : history fresh h d -> add_instance h d a = Ok d' -> history fresh h d'
  | hist_remove h d it n h' d' e :
      history fresh h d -> Permutation it (insts d) ->
      remove_attribute h d it n = (h', d', e) -> history fresh h' d'
  | hist_attribute h d it k n vs h' d' e :
      history fresh h d -> Permutation it (insts d) -> (fresh = true -> ~ has_attribute d n) ->
      add_attribute k h d it n vs = (h', d', e) -> history fresh h' d'.

  (** the features of [x] and [y] are the same dictionary content *)
  Definition same_features (x y : inst) : Prop := forall n, dict_get n (feats x) = dict_get n (feats y).

  (** [c] has the attributes of [d], with the same kinds *)
  Definition same_attributes (d c : dataset) : Prop := forall n, kind_of c n = kind_of d n.

  (** [s] is a dataset whose members are the instances [l], in this order of
      insertion, with the attributes of [d]; it is a state that a history of
      its own leads to, so all the guarantees about histories hold for it *)
  Record part (h : heap) (d s : dataset) (l : list nat) : Prop := {
    p_insts : insts s = l;
    p_cats : cats s = cats d;
    p_nums : nums s = nums d;
    p_attrs : same_attributes d s;
    p_hist : history true h s
  }.

  (** going from [h] to [h'] no object disappeared, changed its id or its
      target, and only members of [d] changed at all *)
  Definition only_features (d : dataset) (h h' : heap) : Prop :=
    length h' = length h /\
    forall a x, nth_error h a = Some x ->
      exists x', nth_error h' a = Some x' /\ iid x' = iid x /\ target x' = target x /\
        (~ In a (insts d) -> x' = x).

  (** the values an encoder uses for attribute [n]: the ones the caller
      predefined, if any, otherwise the ones in the dataset *)
  Definition range_of (possible : option (dict string (list V))) (d : dataset) (n : string) (s : list V) : Prop :=
    match possible with
    | Some m => dict_get n m = Some s
    | None => uniques d n = Some s
    end.
End S.
