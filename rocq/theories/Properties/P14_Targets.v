(** Properties C84 - C86: datasets with a target *)
From Coq Require Import String ZArith Permutation Sorted.
From Verif.Model Require Import Base Sort Dataset TargetDatasets.
From Verif.Spec Require Import DatasetSpec TargetSpec.
From Verif.Proofs Require TargetDatasetsB TargetDatasetsC.
Open Scope string_scope.
Open Scope list_scope.
Open Scope nat_scope.

(** C84: ClassificationDataset counts *)
(** get_class_count is the number of instances with this class label. *)
Theorem C84_class_count : forall (I V L : Type) (EI : Eq I) (EV : Eq V) (EL : Eq L) (h : heap I V L) d c since asked l,
  class_history h (d, c) since asked ->
  fst (get_class_count c l) = tally h (insts d) (fun x => eqb (target x) l).
Proof. exact @TargetDatasetsB.C84_class_count. Qed.
Print Assumptions C84_class_count.
(** get_count_for_category is the number of instances with this value among
    those that were added after the attribute: all instances for the
    attributes given to the constructor, and no instance for a name that is
    not a categorical attribute. *)
Theorem C84_category_count : forall (I V L : Type) (EI : Eq I) (EV : Eq V) (EL : Eq L) (h : heap I V L) d c since asked n v,
  class_history h (d, c) since asked ->
  fst (get_count_for_category c n v) =
    if mem n (cats d)
    then tally h (skipn (joined since n) (insts d)) (fun x => eqb (dict_get n (feats x)) (Some v))
    else 0.
Proof. exact @TargetDatasetsB.C84_category_count. Qed.
Print Assumptions C84_category_count.
Theorem C84_category_and_class_count : forall (I V L : Type) (EI : Eq I) (EV : Eq V) (EL : Eq L) (h : heap I V L) d c since asked n v l,
  class_history h (d, c) since asked ->
  fst (get_count_for_category_and_class c n v l) =
    if mem n (cats d)
    then tally h (skipn (joined since n) (insts d)) (fun x => eqb (dict_get n (feats x)) (Some v) && eqb (target x) l)
    else 0.
Proof. exact @TargetDatasetsB.C84_category_and_class_count. Qed.
Print Assumptions C84_category_and_class_count.
(** get_set_of_classes lists, each once, the classes of the instances and
    every label that get_class_count was ever asked for. *)
Theorem C84_set_of_classes : forall (I V L : Type) (EI : Eq I) (EV : Eq V) (EL : Eq L) (h : heap I V L) d c since asked,
  class_history h (d, c) since asked ->
  NoDup (get_set_of_classes c) /\
  forall l, In l (get_set_of_classes c) <-> In l asked \/ exists a x, member h d a x /\ target x = l.
Proof. exact @TargetDatasetsB.C84_set_of_classes. Qed.
Print Assumptions C84_set_of_classes.
(** A sub-dataset (also the two parts of split, a random subset and the
    groups of group_by, which are built the same way) is a
    ClassificationDataset whose counts cover all its instances. *)
Theorem C84_subdataset : forall (I V L : Type) (EI : Eq I) (EV : Eq V) (EL : Eq L) (h : heap I V L) D since asked l,
  class_history h D since asked -> NoDup l -> incl l (insts (fst D)) ->
  exists s c, class_subdataset h D l = Ok (s, c) /\ get_subdataset h (fst D) l = Ok s /\ class_history h (s, c) [] [].
Proof. exact @TargetDatasetsB.C84_subdataset. Qed.
Print Assumptions C84_subdataset.
(** two instances, then the attribute "size", then a third instance; one
    question about a label nobody has *)
Definition c84_i (n : nat) (fs : dict string string) (l : string) := {| iid := n; feats := fs; target := l |}.
Definition c84_h0 : heap nat string string :=
  [c84_i 0 [("colour", "red")] "yes"; c84_i 1 [("colour", "blue")] "no"; c84_i 2 [("colour", "red"); ("size", "S")] "yes"].
Definition c84_get {A B C} (r : A * B * C) : B := snd (fst r).
Definition c84_D0 : dataset string * counters string string := class_new ["colour"] [].
Definition c84_D1 := match foldM (class_add c84_h0) [0; 1] c84_D0 with Ok D => D | Err _ => c84_D0 end.
Definition c84_step := add_attribute Categorical c84_h0 (fst c84_D1) [1; 0] "size" ["L"; "S"].
Definition c84_h1 := fst (fst c84_step).
Definition c84_D2 := (c84_get c84_step, snd c84_D1).
Definition c84_D3 := match class_add c84_h1 c84_D2 2 with Ok D => D | Err _ => c84_D0 end.
Definition c84_D4 := (fst c84_D3, snd (get_class_count (snd c84_D3) "maybe")).
Example C84_history : class_history c84_h1 c84_D4 [("size", 2)] ["maybe"].
Proof.
  assert (Hp : proper c84_h0).
  { intros a x E. destruct a as [|[|[|[|a]]]]; try discriminate; injection E as <-; cbn; repeat constructor; cbn; intuition discriminate. }
  assert (H1 : class_history c84_h0 c84_D1 [] []).
  { eapply cl_add with (a := 1); [eapply cl_add with (a := 0); [apply (cl_new c84_h0 ["colour"] []); [exact Hp|cbn; repeat constructor; cbn; tauto]|]|]; reflexivity. }
  assert (H2 : class_history c84_h1 c84_D2 [("size", 2)] []).
  { refine (cl_attribute c84_h0 (fst c84_D1) (snd c84_D1) [1; 0] Categorical "size" ["L"; "S"] c84_h1 (fst c84_D2) [] [] H1 _ _ _).
    - apply perm_swap.
    - intros Hn. apply Hn. reflexivity.
    - reflexivity. }
  exact (cl_class c84_h1 (fst c84_D3) (snd c84_D3) "maybe" [("size", 2)] [] (cl_add c84_h1 c84_D2 2 c84_D3 [("size", 2)] [] H2 eq_refl)).
Qed.
Example C84_example :
  let c := snd c84_D4 in
  (insts (fst c84_D4), fst (get_class_count c "yes"), fst (get_count_for_category c "colour" "red"),
   fst (get_count_for_category c "size" "S"), fst (get_count_for_category_and_class c "colour" "red" "no"),
   get_set_of_classes c) = ([0; 1; 2], 2, 2, 1, 0, ["yes"; "no"; "maybe"]).
Proof. reflexivity. Qed.
(** the member at address 0 has size "S" too, but it was added before the
    attribute *)
Example C84_example_late_attribute :
  value c84_h1 0 "size" = Some "S" /\ value c84_h1 2 "size" = Some "S" /\
  tally c84_h1 (insts (fst c84_D4)) (fun x => eqb (dict_get "size" (feats x)) (Some "S")) = 2.
Proof. repeat split. Qed.

(** C85: Label sets of MultiLabelDataset, MultisetDataset and TargetSequenceDataset *)
(** The labels of a MultiLabelDataset are exactly the labels of its instances. *)
Theorem C85_labels : forall (I V L : Type) (EI : Eq I) (EV : Eq V) (EL : Eq L) (h : heap I V (list L)) d labels,
  sub_history [] collect h (d, labels) ->
  NoDup labels /\ forall l, In l labels <-> exists a x, member h d a x /\ In l (target x).
Proof. exact @TargetDatasetsC.C85_labels. Qed.
Print Assumptions C85_labels.
(** The symbols of a TargetSequenceDataset are exactly the symbols of the
    target sequences, as long as no sequence is replaced. *)
Theorem C85_sequence_symbols : forall (I V L : Type) (EI : Eq I) (EV : Eq V) (EL : Eq L) (h : heap I V (list L)) d symbols,
  sub_history [] collect h (d, symbols) ->
  NoDup symbols /\ forall s, In s symbols <-> exists a x, member h d a x /\ In s (target x).
Proof. exact @TargetDatasetsC.C85_sequence_symbols. Qed.
Print Assumptions C85_sequence_symbols.
(** The classes of a MultisetDataset are the elements listed in the multisets
    of its instances, also those listed with count 0. *)
Theorem C85_multiset_classes : forall (I V L : Type) (EI : Eq I) (EV : Eq V) (EL : Eq L) (h : heap I V (dict L nat)) d counts,
  sub_history no_multisets count_multiset h (d, counts) ->
  NoDup (multiset_classes counts) /\
  forall l, In l (multiset_classes counts) <-> exists a x, member h d a x /\ In l (keys (target x)).
Proof. exact @TargetDatasetsC.C85_multiset_classes. Qed.
Print Assumptions C85_multiset_classes.
(** Sub-datasets are of the same class and have the labels of their own
    instances only. *)
Theorem C85_subdataset : forall (I V T X : Type) (EI : Eq I) (EV : Eq V) (x0 : X) (upd : T -> X -> X) (h : heap I V T) D l,
  sub_history x0 upd h D -> NoDup l -> incl l (insts (fst D)) ->
  exists s x, sub_subdataset x0 upd h D l = Ok (s, x) /\ get_subdataset h (fst D) l = Ok s /\ sub_history x0 upd h (s, x).
Proof. exact @TargetDatasetsC.C85_subdataset. Qed.
Print Assumptions C85_subdataset.
(** Replacing a target sequence (set_target_sequence, as the noise
    transformers do) leaves the set of symbols as it was. *)
Theorem C85_replaced_sequence_witness :
  exists (h h' : heap nat nat (list nat)) d symbols,
    sub_history [] collect h (d, symbols) /\ insts d = [0] /\
    (exists x x', h = [x] /\ h' = [x'] /\ iid x' = iid x /\ feats x' = feats x /\ target x = [1] /\ target x' = [2]) /\
    symbols = [1] /\
    ~ (forall s, In s symbols <-> exists a x, member h' d a x /\ In s (target x)).
Proof. exact @TargetDatasetsC.C85_replaced_sequence_witness. Qed.
Print Assumptions C85_replaced_sequence_witness.
Definition c85_h : heap nat nat (list string) :=
  [ {| iid := 0; feats := [("x", 4)]; target := ["a"; "b"] |}; {| iid := 1; feats := [("x", 7)]; target := ["b"; "c"] |};
    {| iid := 2; feats := [("x", 7)]; target := ["d"] |} ].
Definition c85_D := match sub_subdataset [] collect c85_h (new [] ["x"], []) [1; 0] with Ok D => D | Err _ => (new [] [], []) end.
Example C85_history : sub_history [] collect c85_h c85_D.
Proof.
  eapply sub_added with (a := 0); [eapply sub_added with (a := 1); [apply (sub_new [] collect c85_h [] ["x"])|]|]; try reflexivity.
  - intros a x E. destruct a as [|[|[|[|a]]]]; try discriminate; injection E as <-; cbn; repeat constructor; cbn; intuition discriminate.
  - cbn. repeat constructor. cbn. tauto.
Qed.
Example C85_example :
  (insts (fst c85_D), snd c85_D, count_multiset [("a", 2); ("b", 0)] (count_multiset [("a", 1); ("c", 1)] no_multisets)) =
  ([1; 0], ["b"; "c"; "a"], ([("a", 3); ("c", 1); ("b", 0)], [("a", 2); ("c", 1); ("b", 0)])).
Proof. reflexivity. Qed.

(** C86: Target sequences of a TargetSequenceDataset *)
(** compute_set_of_unique_sequences returns the target sequences of the
    instances, each once. *)
Theorem C86_unique_sequences : forall (I V L : Type) (EI : Eq I) (EV : Eq V) (EL : Eq L) (h : heap I V (list L)) d it,
  history true h d -> Permutation it (insts d) ->
  exists r, compute_set_of_unique_sequences h it = Ok r /\ NoDup r /\
    forall s, In s r <-> exists a x, member h d a x /\ target x = s.
Proof. exact @TargetDatasetsC.C86_unique_sequences. Qed.
Print Assumptions C86_unique_sequences.
(** get_sequences_ordered_by_frequency returns the same sequences, each once,
    rarest first; equally frequent ones in the order of the summed
    frequencies of their events. *)
Theorem C86_by_frequency : forall (I V L : Type) (EI : Eq I) (EV : Eq V) (EL : Eq L) (h : heap I V (list L)) d it,
  history true h d -> Permutation it (insts d) ->
  exists r, get_sequences_ordered_by_frequency h it = Ok r /\ NoDup r /\
    (forall s, In s r <-> exists a x, member h d a x /\ target x = s) /\
    StronglySorted (fun s t =>
      frequency h (insts d) s < frequency h (insts d) t \/
      frequency h (insts d) s = frequency h (insts d) t /\ weight h (insts d) s <= weight h (insts d) t) r.
Proof. exact @TargetDatasetsC.C86_by_frequency. Qed.
Print Assumptions C86_by_frequency.
Definition c86_h : heap nat nat (list string) :=
  map (fun '(i, t) => {| iid := i; feats := []; target := t |}) [(0, ["a"; "b"]); (1, ["c"]); (2, ["a"; "b"]); (3, ["a"])].
Definition c86_d := match foldM (add_instance c86_h) [0; 1; 2; 3] (new [] []) with Ok d => d | Err _ => new [] [] end.
Example C86_history : history true c86_h c86_d /\ Permutation [3; 1; 0; 2] (insts c86_d).
Proof.
  split.
  - eapply hist_add with (a := 3); [eapply hist_add with (a := 2); [eapply hist_add with (a := 1); [eapply hist_add with (a := 0); [apply (hist_new true c86_h [] [])|]|]|]|]; try reflexivity.
    + intros a x E. destruct a as [|[|[|[|[|a]]]]]; try discriminate; injection E as <-; constructor.
    + constructor.
  - change (insts c86_d) with [0; 1; 2; 3]. apply NoDup_Permutation; [repeat constructor; cbn; intuition discriminate..|].
    intros x. cbn. intuition.
Qed.
Example C86_example :
  (compute_set_of_unique_sequences c86_h [3; 1; 0; 2], get_sequences_ordered_by_frequency c86_h [3; 1; 0; 2]) =
  (Ok [["a"]; ["c"]; ["a"; "b"]], Ok [["c"]; ["a"]; ["a"; "b"]]).
Proof. reflexivity. Qed.
