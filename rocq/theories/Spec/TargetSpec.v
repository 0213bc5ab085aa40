(** Vocabulary for the properties of datasets with a target *)
From Coq Require Import Permutation.
From Verif.Model Require Import Base Dataset TargetDatasets.
From Verif.Spec Require Import DatasetSpec.

Section S.
  Context {I V T : Type} `{Eq I} `{Eq V}.
  Notation heap := (heap I V T).
  (** the number of instances among [l] which satisfy [p] *)
  Definition tally (h : heap) (l : list nat) (p : inst I V T -> bool) : nat :=
    length (filter (fun a => match nth_error h a with Some x => p x | None => false end) l).
  (** what other parts of the program do does not write into the members *)
  Definition members_kept (d : dataset V) (h h' : heap) : Prop :=
    forall a, In a (insts d) -> nth_error h' a = nth_error h a.

  (** histories of a dataset whose class only overrides add_instance *)
  Inductive sub_history {X} (x0 : X) (upd : T -> X -> X) : heap -> dataset V * X -> Prop :=
  | sub_new h cs ns : proper h -> NoDup (cs ++ ns) -> sub_history x0 upd h (new cs ns, x0)
  | sub_other h h' D : sub_history x0 upd h D -> proper h' -> members_kept (fst D) h h' -> sub_history x0 upd h' D
  | sub_added h D a D' : sub_history x0 upd h D -> sub_add upd h D a = Ok D' -> sub_history x0 upd h D'
  | sub_removed h d x it n h' d' e :
      sub_history x0 upd h (d, x) -> Permutation it (insts d) ->
      remove_attribute h d it n = (h', d', e) -> sub_history x0 upd h' (d', x)
  | sub_attribute h d x it k n vs h' d' e :
      sub_history x0 upd h (d, x) -> Permutation it (insts d) -> ~ has_attribute d n ->
      add_attribute k h d it n vs = (h', d', e) -> sub_history x0 upd h' (d', x).
End S.

Section C.
  Context {I V L : Type} `{Eq I} `{Eq V} `{Eq L}.
  Notation heap := (heap I V L).
  (** the number of members at the time categorical attribute [n] was added;
      0 for the attributes given to the constructor *)
  Definition joined (since : dict string nat) (n : string) : nat :=
    match dict_get n since with Some k => k | None => 0 end.
  (** histories of a ClassificationDataset. [since]: see [joined]; [asked]: the
      labels get_class_count was called with so far. *)
  Inductive class_history : heap -> dataset V * counters V L -> dict string nat -> list L -> Prop :=
  | cl_new h cs ns : proper h -> NoDup (cs ++ ns) -> class_history h (class_new cs ns) [] []
  | cl_other h h' D since asked :
      class_history h D since asked -> proper h' -> members_kept (fst D) h h' -> class_history h' D since asked
  | cl_add h D a D' since asked :
      class_history h D since asked -> class_add h D a = Ok D' -> class_history h D' since asked
  | cl_remove h D it n h' D' e since asked :
      class_history h D since asked -> Permutation it (insts (fst D)) ->
      class_remove_attribute h D it n = (h', D', e) -> class_history h' D' since asked
  | cl_attribute h d c it k n vs h' d' since asked :
      class_history h (d, c) since asked -> Permutation it (insts d) -> ~ has_attribute d n ->
      add_attribute k h d it n vs = (h', d', None) ->
      class_history h' (d', c) (match k with Categorical => dict_set n (length (insts d)) since | Numerical => since end) asked
  | cl_category h d c n v since asked :
      class_history h (d, c) since asked ->
      class_history h (d, snd (get_count_for_category c n v)) since asked
  | cl_category_and_class h d c n v l since asked :
      class_history h (d, c) since asked ->
      class_history h (d, snd (get_count_for_category_and_class c n v l)) since asked
  | cl_class h d c l since asked :
      class_history h (d, c) since asked -> class_history h (d, snd (get_class_count c l)) since (l :: asked).

  (** how often the sequence [s] is the target of one of [l], and how often
      the event [e] stands in the targets of [l] *)
  Definition frequency (h : Dataset.heap I V (list L)) (l : list nat) (s : list L) : nat :=
    tally h l (fun x => eqb (target x) s).
  Definition occurrences (h : Dataset.heap I V (list L)) (l : list nat) (e : L) : nat :=
    list_sum (map (fun a => match nth_error h a with
                            | Some x => length (filter (eqb e) (target x))
                            | None => 0 end) l).
  (** the sum of the frequencies of the events of a sequence *)
  Definition weight (h : Dataset.heap I V (list L)) (l : list nat) (s : list L) : nat :=
    list_sum (map (occurrences h l) s).
End C.
