(** Properties C105 and C106: datasets as ARFF files *)
From Coq Require Import String Ascii ZArith Permutation List Lia DecimalString.
From Verif.Model Require Import Base Sort Dataset TargetDatasets Arff.
From Verif.Spec Require Import DatasetSpec TargetSpec ArffSpec.
From Verif.Proofs Require ArffC ArffD ArffE ArffG ArffH ArffI ArffJ.
Open Scope string_scope.
Open Scope list_scope.
Open Scope nat_scope.
(** two instances with a colour and a size *)
Definition colours {T} (s t : T) : heap nat string T :=
  [{| iid := 7; feats := [("colour", "red"); ("size", "3")]; target := s |};
   {| iid := 8; feats := [("size", "4"); ("colour", "a,b")]; target := t |}].
Definition coloured : dataset string :=
  {| insts := [0; 1];
     attrs := [("colour", {| akind := Categorical; auniq := ["red"; "a,b"] |}); ("size", {| akind := Numerical; auniq := ["3"; "4"] |})];
     cats := ["colour"]; nums := ["size"] |}.
Definition first_coloured : dataset string :=
  {| insts := [0];
     attrs := [("colour", {| akind := Categorical; auniq := ["red"] |}); ("size", {| akind := Numerical; auniq := ["3"] |})];
     cats := ["colour"]; nums := ["size"] |}.
Ltac no_char := intros X; vm_compute in X; decompose [or False] X; discriminate.
Ltac all_chars := let c := fresh "c" in let Hc := fresh "Hc" in intros c Hc X; cbn in Hc; decompose [or False] Hc; subst; vm_compute in X; decompose [or False] X; discriminate.
Ltac name_ok := split; [all_chars|split; [no_char|split; intros r X; [discriminate|]; repeat (destruct r as [|? r]; [discriminate|]; injection X as _ X); destruct r; discriminate]].
Example ex_proper : forall T (s t : T), proper (colours s t).
Proof. intros T s t [|[|[|a]]] x E; try discriminate E; injection E as <-; repeat constructor; cbn; intuition discriminate. Qed.
Example ex_names : NoDup (["colour"] ++ ["size"]).
Proof. repeat constructor; cbn; intuition discriminate. Qed.
Example ex_history : forall T (s t : T), history true (colours s t) coloured.
Proof.
  intros T s t. eapply (hist_add _ _ first_coloured 1); [|vm_compute; reflexivity]. eapply (hist_add _ _ (new ["colour"] ["size"]) 0); [|vm_compute; reflexivity].
  apply hist_new; [apply ex_proper|intros _; apply ex_names].
Qed.
Example ex_sub : forall T X (x0 : X) (upd : T -> X -> X) s t, sub_history x0 upd (colours s t) (coloured, upd t (upd s x0)).
Proof.
  intros T X x0 upd s t. eapply (sub_added _ _ _ (first_coloured, upd s x0) 1); [|vm_compute; reflexivity].
  eapply (sub_added _ _ _ (new ["colour"] ["size"], x0) 0); [|vm_compute; reflexivity]. constructor; [apply ex_proper|apply ex_names].
Qed.
Example ex_plain : forall T (s t : T), plain_dataset (fun v => v) (colours s t) coloured.
Proof.
  intros T s t. constructor.
  - intros n [<-|[<-|[]]]; name_ok.
  - intros a n v Ha [<-|[]] E. destruct Ha as [<-|[<-|[]]]; injection E as <-; (split; [all_chars|split; no_char]).
  - intros a n v Ha [<-|[]] E. destruct Ha as [<-|[<-|[]]]; injection E as <-; (split; [all_chars|split; [no_char|split; [no_char|split; [discriminate|intros r X; discriminate]]]]).
Qed.

(** C105: Reading and writing ARFF files *)
(** What a well-formed file is read as. Rows may be given in full or sparsely. *)
Theorem C105_documents : forall doc, plain doc -> exists h d, create_from_arff (text_of doc) = Ok (h, d) /\ reads_as doc h d.
Proof. exact @ArffC.C105_documents. Qed.
Print Assumptions C105_documents.
(** The text of an exported dataset: the attributes, then a line per instance
    in the order of the iteration. *)
Theorem C105_text : forall (I V T : Type) (EI : Eq I) (EV : Eq V) (show : V -> string) (leb : V -> V -> bool) (h : heap I V T) (d : dataset V) it relation,
  history true h d -> Permutation it (insts d) ->
  export_to_arff show leb relation h d it = Ok (text_of (document_of show leb [] (fun _ => []) relation h d it)).
Proof. exact @ArffD.C105_text. Qed.
Print Assumptions C105_text.
(** Reading the text of a dataset with plain names and values gives the same
    attributes and one instance per instance, with the values as text. *)
Theorem C105_round_trip : forall (I V T : Type) (EI : Eq I) (EV : Eq V) (show : V -> string) (leb : V -> V -> bool) (h : heap I V T) (d : dataset V) it relation,
  history true h d -> Permutation it (insts d) -> one_line relation -> plain_dataset show h d -> cats d ++ nums d <> [] ->
  exists text h' d', export_to_arff show leb relation h d it = Ok text /\ create_from_arff text = Ok (h', d') /\
    cats d' = cats d /\ nums d' = nums d /\ insts d' = seq 0 (length it) /\ length h' = length it /\ history true h' d' /\
    forall i a, nth_error it i = Some a -> exists x, nth_error h' i = Some x /\ iid x = i /\
      forall n, dict_get n (feats x) = option_map (fun v => Text (show v)) (value h a n).
Proof. exact @ArffD.C105_round_trip. Qed.
Print Assumptions C105_round_trip.
(** A blank in the name of an attribute or in a categorical value: the exported
    text cannot be read. *)
Theorem C105_blanks : forall (I V T : Type) (EI : Eq I) (EV : Eq V) (show : V -> string) (leb : V -> V -> bool) (h : heap I V T) (d : dataset V) it relation,
  history true h d -> Permutation it (insts d) -> one_line relation -> unbroken show h d ->
  (exists n, In n (cats d ++ nums d) /\ ~ lacks " " n) \/
  (exists a n v, In a (insts d) /\ In n (cats d) /\ value h a n = Some v /\ ~ lacks " " (show v)) ->
  exists text, export_to_arff show leb relation h d it = Ok text /\ create_from_arff text = Err ValueError.
Proof. exact @ArffD.C105_blanks. Qed.
Print Assumptions C105_blanks.
(** A dataset without attributes comes back without its instances. *)
Theorem C105_no_attributes : forall (I V T : Type) (EI : Eq I) (EV : Eq V) (show : V -> string) (leb : V -> V -> bool) (h : heap I V T) (d : dataset V) it relation,
  history true h d -> Permutation it (insts d) -> one_line relation -> cats d = [] -> nums d = [] ->
  exists text, export_to_arff show leb relation h d it = Ok text /\ create_from_arff text = Ok ([], new [] []).
Proof. exact @ArffD.C105_no_attributes. Qed.
Print Assumptions C105_no_attributes.
(** Whatever the text is: if it can be read, the result is a proper dataset
    with the ids 0, 1, 2, ... *)
Theorem C105_any_text : forall text h d, create_from_arff text = Ok (h, d) ->
  history false h d /\ insts d = seq 0 (length h) /\
  forall i x, nth_error h i = Some x -> iid x = i /\ forall n, In n (keys (feats x)) <-> In n (cats d ++ nums d).
Proof. exact @ArffE.C105_any_text. Qed.
Print Assumptions C105_any_text.
(** [d == d']: the same names in the same order, the same values (as text) in
    the order of the two iterations, and the same unique values in the order of
    [sorted]. Ids are not compared. *)
Theorem C105_equality : forall (I V T : Type) (EI : Eq I) (EV : Eq V) (show : V -> string) (leb : V -> V -> bool) (h h' : heap I V T) (d d' : dataset V) it it',
  history true h d -> Permutation it (insts d) -> plain_dataset show h d -> cats d ++ nums d <> [] ->
  history true h' d' -> Permutation it' (insts d') -> plain_dataset show h' d' -> cats d' ++ nums d' <> [] ->
  exists b, dataset_eq show leb h d it h' d' it' = Ok b /\
  (b = true <-> cats d = cats d' /\ nums d = nums d' /\
    (forall n, In n (cats d) -> unique_texts show leb d n = unique_texts show leb d' n) /\
    map (fun a => map (value_text show h a) (cats d ++ nums d)) it = map (fun a => map (value_text show h' a) (cats d ++ nums d)) it').
Proof. exact @ArffE.C105_equality. Qed.
Print Assumptions C105_equality.
(** A dataset is not always equal to itself: it depends on the order in which a
    set happens to be iterated. *)
Theorem C105_equality_witness : exists (h : heap nat string unit) d it it', history true h d /\ Permutation it (insts d) /\ Permutation it' (insts d) /\
  plain_dataset (fun s => s) h d /\
  dataset_eq (fun s => s) String.leb h d it h d it = Ok true /\ dataset_eq (fun s => s) String.leb h d it h d it' = Ok false.
Proof. exact @ArffE.C105_equality_witness. Qed.
Print Assumptions C105_equality_witness.
(** If different categories have different texts and are sorted as their texts
    are, what is read from the text is exported as the same text. *)
Theorem C105_stable : forall (I V T : Type) (EI : Eq I) (EV : Eq V) (show : V -> string) (leb : V -> V -> bool) (h : heap I V T) (d : dataset V) it relation
    (show' : read_value -> string) (leb' : read_value -> read_value -> bool) text h' d',
  history true h d -> Permutation it (insts d) -> one_line relation -> plain_dataset show h d -> cats d ++ nums d <> [] ->
  (forall n s v w, In n (cats d) -> uniques d n = Some s -> In v s -> In w s -> (show v = show w -> v = w) /\ leb v w = String.leb (show v) (show w)) ->
  (forall s, show' (Text s) = s) -> (forall s t, leb' (Text s) (Text t) = String.leb s t) ->
  export_to_arff show leb relation h d it = Ok text -> create_from_arff text = Ok (h', d') ->
  export_to_arff show' leb' relation h' d' (insts d') = Ok text.
Proof. exact @ArffE.C105_stable. Qed.
Print Assumptions C105_stable.
(** Numbers as categories: 9 and 10 are sorted differently as texts, so the
    dataset that was read is exported differently. *)
Theorem C105_stable_witness : exists (h : heap nat Z unit) d text h' d' text', history true h d /\ plain_dataset int_text h d /\
  export_to_arff int_text Z.leb "r" h d [0; 1] = Ok text /\ create_from_arff text = Ok (h', d') /\
  export_to_arff (fun v => match v with Text s => s | Number z => int_text z end)
    (fun v w => match v, w with Text s, Text t => String.leb s t | _, _ => true end) "r" h' d' [0; 1] = Ok text' /\ text' <> text.
Proof. exact @ArffE.C105_stable_witness. Qed.
Print Assumptions C105_stable_witness.
Example C105_example : exists text h' d', export_to_arff (fun v => v) String.leb "r" (colours tt tt) coloured [1; 0] = Ok text /\
  create_from_arff text = Ok (h', d') /\ one_line "r" /\
  h' = [{| iid := 0; feats := [("colour", Text "a,b"); ("size", Text "4")]; target := tt |};
        {| iid := 1; feats := [("colour", Text "red"); ("size", Text "3")]; target := tt |}].
Proof. do 3 eexists. split; [vm_compute; reflexivity|]. split; [vm_compute; reflexivity|]. split; [all_chars|reflexivity]. Qed.
Example C105_example_sparse : exists doc h d, plain doc /\ create_from_arff (text_of doc) = Ok (h, d) /\
  h = [{| iid := 0; feats := [("x", Number 0); ("y", Number (-2))]; target := tt |}; {| iid := 1; feats := [("x", Text "u"); ("y", Text "3")]; target := tt |}].
Proof.
  exists {| relation := "r"; attributes := [("x", Nominal [Bare "u"]); ("y", Numeric)]; rows := [Sparse [(1, (-2)%Z)]; Dense [Quoted "u"; Bare "3"]] |}. do 2 eexists.
  split; [|split; [vm_compute; reflexivity|reflexivity]]. constructor; cbn [relation attributes rows names_of map fst].
  - all_chars.
  - discriminate.
  - repeat constructor; cbn; intuition discriminate.
  - intros n [<-|[<-|[]]]; name_ok.
  - intros n vs v [X|[X|[]]] Hv; [|discriminate]. injection X as <- <-. destruct Hv as [<-|[]]. split; [all_chars|no_char].
  - intros r [<-|[<-|[]]]; cbn [plain_row length]; [intros i z [X|[]]; injection X as <- <-; lia|]. split; [reflexivity|]. split; [|split; [discriminate|intros s fs' X; discriminate]].
    intros f [<-|[<-|[]]]; repeat split; try all_chars; no_char.
Qed.
Example C105_example_blank : exists d, history true [{| iid := 7; feats := [("a b", "red")]; target := tt |}] d /\
  unbroken (fun v => v) [{| iid := 7; feats := [("a b", "red")]; target := tt |}] d /\ In "a b" (cats d) /\ ~ lacks " " "a b".
Proof.
  exists {| insts := [0]; attrs := [("a b", {| akind := Categorical; auniq := ["red"] |})]; cats := ["a b"]; nums := [] |}. split; [|split; [|split]].
  - eapply (hist_add _ _ (new ["a b"] []) 0); [|vm_compute; reflexivity]. apply hist_new; [|intros _; repeat constructor; cbn; tauto].
    intros [|[|a]] x E; try discriminate E. injection E as <-. repeat constructor. cbn. tauto.
  - constructor; [intros n [<-|[]]; all_chars|]. intros a n v [<-|[]] E. unfold value in E. cbn [nth_error feats dict_get] in E.
    destruct (eqb n "a b"); [|discriminate]. injection E as <-. all_chars.
  - left. reflexivity.
  - intros X. apply X. vm_compute. auto.
Qed.

(** C106: Files of datasets with a target *)
(** The file of a ClassificationDataset has one more categorical attribute,
    whose value is the class of the instance. *)
Theorem C106_classes : forall (I V : Type) (EI : Eq I) (EV : Eq V) (show : V -> string) (leb : V -> V -> bool) (h : heap I V string) d c since asked it name relation,
  class_history h (d, c) since asked -> Permutation it (insts d) -> one_line relation -> plain_dataset show h d -> cats d ++ nums d <> [] ->
  plain_name name -> ~ In name (cats d ++ nums d) -> (forall l, In l (get_set_of_classes c) -> plain_value l) ->
  exists text h' d', class_export show leb name relation h (d, c) it = Ok text /\ create_from_arff text = Ok (h', d') /\ history true h' d' /\
    cats d' = cats d ++ [name] /\ nums d' = nums d /\ insts d' = seq 0 (length it) /\
    forall i a x, nth_error it i = Some a -> nth_error h a = Some x -> exists y, nth_error h' i = Some y /\ iid y = i /\
      dict_get name (feats y) = Some (Text (target x)) /\
      forall n, n <> name -> dict_get n (feats y) = option_map (fun v => Text (show v)) (value h a n).
Proof. exact @ArffG.C106_classes. Qed.
Print Assumptions C106_classes.
(** A MultiLabelDataset is read back with the same features (as text) and the
    same label sets, with the prefix in front of the labels, whatever order
    the sets of names and the instances of the file are iterated in. *)
Theorem C106_labels : forall (I V : Type) (EI : Eq I) (EV : Eq V) (show : V -> string) (leb : V -> V -> bool) (h : heap I V (list string)) d labels it prefix relation
    (ord : list string -> list string) (order : list nat -> list nat) chosen,
  sub_history [] collect h (d, labels) -> Permutation it (insts d) -> one_line relation -> plain_dataset show h d -> cats d ++ nums d <> [] ->
  labels <> [] -> (forall l, In l labels -> plain_name (prefix ++ l) /\ ~ In (prefix ++ l)%string (cats d ++ nums d)) ->
  (forall l, Permutation (ord l) l) -> (forall l, Permutation (order l) l) -> Permutation chosen (map (append prefix) labels) ->
  exists text h2 D2, label_export show leb prefix relation h (d, labels) it = Ok text /\ label_create ord order chosen text = Ok (h2, D2) /\
    sub_history [] collect h2 D2 /\
    restored show (fun t t2 => forall l2, In l2 t2 <-> exists l, l2 = (prefix ++ l)%string /\ In l t) h d it h2 (fst D2).
Proof. exact @ArffG.C106_labels. Qed.
Print Assumptions C106_labels.
(** A MultisetDataset is read back with the same features (as text) and the
    same counts: each multiset that is read lists every class of the dataset,
    also those with count 0. *)
Theorem C106_multisets : forall (I V : Type) (EI : Eq I) (EV : Eq V) (show : V -> string) (leb : V -> V -> bool) (h : heap I V (dict string nat)) d counts it prefix relation
    (ord : list string -> list string) (order : list nat -> list nat) chosen,
  sub_history no_multisets count_multiset h (d, counts) -> Permutation it (insts d) -> one_line relation -> plain_dataset show h d -> cats d ++ nums d <> [] ->
  multiset_classes counts <> [] -> (forall l, In l (multiset_classes counts) -> plain_name (prefix ++ l) /\ ~ In (prefix ++ l)%string (cats d ++ nums d)) ->
  (forall l, Permutation (ord l) l) -> (forall l, Permutation (order l) l) -> Permutation chosen (map (append prefix) (multiset_classes counts)) ->
  exists text h2 D2, multiset_export show leb prefix relation h (d, counts) it = Ok text /\ multiset_create ord order chosen text = Ok (h2, D2) /\
    sub_history no_multisets count_multiset h2 D2 /\
    restored show (fun t t2 => (forall l, In l (multiset_classes counts) -> dict_get (prefix ++ l)%string t2 = Some (count_of l t)) /\
      forall l2, In l2 (keys t2) -> In l2 chosen) h d it h2 (fst D2).
Proof. exact @ArffG.C106_multisets. Qed.
Print Assumptions C106_multisets.
(** A TargetSequenceDataset written with the separator [,] is read back with
    the same features (as text) and the same sequences, except that the empty
    sequence becomes the sequence of one empty symbol. *)
Theorem C106_sequences : forall (I V : Type) (EI : Eq I) (EV : Eq V) (show : V -> string) (leb : V -> V -> bool) (h : heap I V (list string)) d symbols it name relation order,
  sub_history [] collect h (d, symbols) -> Permutation it (insts d) -> one_line relation -> plain_dataset show h d -> cats d ++ nums d <> [] ->
  plain_name name -> ~ In name (cats d ++ nums d) ->
  (forall s, In s symbols -> plain_value s /\ lacks "[" s /\ lacks "]" s /\ lacks "," s) -> (forall l, Permutation (order l) l) ->
  exists text h2 D2, sequence_export show leb name "," relation h (d, symbols) it = Ok text /\ sequence_create order name text = Ok (h2, D2) /\
    sub_history [] collect h2 D2 /\
    restored show (fun t t2 => t2 = match t with [] => [""] | _ => t end) h d it h2 (fst D2).
Proof. exact @ArffH.C106_sequences. Qed.
Print Assumptions C106_sequences.
(** With a separator that has no comma, such as the default [;], every
    sequence is read as one symbol: the symbols joined by the separator. *)
Theorem C106_other_separator : forall (I V : Type) (EI : Eq I) (EV : Eq V) (show : V -> string) (leb : V -> V -> bool) (h : heap I V (list string)) d symbols it name separator relation order,
  sub_history [] collect h (d, symbols) -> Permutation it (insts d) -> one_line relation -> plain_dataset show h d -> cats d ++ nums d <> [] ->
  plain_name name -> ~ In name (cats d ++ nums d) ->
  (forall s, In s (separator :: symbols) -> plain_value s /\ lacks "[" s /\ lacks "]" s /\ lacks "," s) -> (forall l, Permutation (order l) l) ->
  exists text h2 D2, sequence_export show leb name separator relation h (d, symbols) it = Ok text /\ sequence_create order name text = Ok (h2, D2) /\
    sub_history [] collect h2 D2 /\
    restored show (fun t t2 => t2 = [String.concat separator t]) h d it h2 (fst D2).
Proof. exact @ArffH.C106_other_separator. Qed.
Print Assumptions C106_other_separator.
(** A MultiLabelDataset with instances but without labels is written to a file
    that cannot be read: every row ends with a comma. *)
Theorem C106_no_labels : forall (I V : Type) (EI : Eq I) (EV : Eq V) (show : V -> string) (leb : V -> V -> bool) (h : heap I V (list string)) d it prefix relation,
  sub_history [] collect h (d, []) -> Permutation it (insts d) -> it <> [] -> one_line relation -> plain_dataset show h d ->
  exists text, label_export show leb prefix relation h (d, []) it = Ok text /\ create_from_arff text = Err IndexError /\
    forall ord order chosen, label_create ord order chosen text = Err IndexError.
Proof. exact @ArffH.C106_no_labels. Qed.
Print Assumptions C106_no_labels.
(** The same for a MultisetDataset without classes. *)
Theorem C106_no_multiset_classes : forall (I V : Type) (EI : Eq I) (EV : Eq V) (show : V -> string) (leb : V -> V -> bool) (h : heap I V (dict string nat)) d counts it prefix relation,
  sub_history no_multisets count_multiset h (d, counts) -> multiset_classes counts = [] -> Permutation it (insts d) -> it <> [] -> one_line relation -> plain_dataset show h d ->
  exists text, multiset_export show leb prefix relation h (d, counts) it = Ok text /\
    forall ord order chosen, multiset_create ord order chosen text = Err IndexError.
Proof. exact @ArffH.C106_no_multiset_classes. Qed.
Print Assumptions C106_no_multiset_classes.
(** Without attributes the file of a ClassificationDataset with instances
    cannot be read: every row begins with a comma. *)
Theorem C106_no_attributes : forall (I V : Type) (EI : Eq I) (EV : Eq V) (show : V -> string) (leb : V -> V -> bool) (h : heap I V string) d c since asked it name relation,
  class_history h (d, c) since asked -> Permutation it (insts d) -> it <> [] -> one_line relation -> cats d ++ nums d = [] ->
  plain_name name -> (forall l, In l (get_set_of_classes c) -> plain_value l) ->
  exists text, class_export show leb name relation h (d, c) it = Ok text /\ create_from_arff text = Err IndexError.
Proof. exact @ArffH.C106_no_attributes. Qed.
Print Assumptions C106_no_attributes.
(** The file of a MultiLabelDataset without attributes cannot be read either. *)
Theorem C106_only_labels : forall (I V : Type) (EI : Eq I) (EV : Eq V) (show : V -> string) (leb : V -> V -> bool) (h : heap I V (list string)) d labels it prefix relation,
  sub_history [] collect h (d, labels) -> Permutation it (insts d) -> it <> [] -> one_line relation -> cats d ++ nums d = [] ->
  (forall l, In l labels -> plain_name (prefix ++ l)) ->
  exists text, label_export show leb prefix relation h (d, labels) it = Ok text /\ create_from_arff text = Err IndexError /\
    forall ord order chosen, label_create ord order chosen text = Err IndexError.
Proof. exact @ArffJ.C106_only_labels. Qed.
Print Assumptions C106_only_labels.
(** Nor can that of a MultisetDataset, *)
Theorem C106_only_multisets : forall (I V : Type) (EI : Eq I) (EV : Eq V) (show : V -> string) (leb : V -> V -> bool) (h : heap I V (dict string nat)) d counts it prefix relation,
  sub_history no_multisets count_multiset h (d, counts) -> Permutation it (insts d) -> it <> [] -> one_line relation -> cats d ++ nums d = [] ->
  (forall l, In l (multiset_classes counts) -> plain_name (prefix ++ l)) ->
  exists text, multiset_export show leb prefix relation h (d, counts) it = Ok text /\
    forall ord order chosen, multiset_create ord order chosen text = Err IndexError.
Proof. exact @ArffJ.C106_only_multisets. Qed.
Print Assumptions C106_only_multisets.
(** or that of a TargetSequenceDataset. *)
Theorem C106_only_sequences : forall (I V : Type) (EI : Eq I) (EV : Eq V) (show : V -> string) (leb : V -> V -> bool) (h : heap I V (list string)) d symbols it name separator relation,
  sub_history [] collect h (d, symbols) -> Permutation it (insts d) -> it <> [] -> one_line relation -> cats d ++ nums d = [] ->
  plain_name name -> (forall s, In s (separator :: symbols) -> plain_value s) ->
  exists text, sequence_export show leb name separator relation h (d, symbols) it = Ok text /\
    forall order, sequence_create order name text = Err IndexError.
Proof. exact @ArffJ.C106_only_sequences. Qed.
Print Assumptions C106_only_sequences.
(** A target sequence column of a file in the sparse format is a number, which
    has no symbols to split. *)
Theorem C106_sparse_witness : exists text h d, create_from_arff text = Ok (h, d) /\ cats d = ["s"] /\
  sequence_create (fun l => l) "s" text = Err AttributeError.
Proof. exact @ArffH.C106_sparse_witness. Qed.
Print Assumptions C106_sparse_witness.
(** Any well-formed file, with full or sparse rows, read as a MultiLabelDataset:
    an instance has exactly those of the chosen attributes as labels whose
    value is 1, and the other attributes as features. *)
Theorem C106_label_files : forall (ord : list string -> list string) (order : list nat -> list nat) doc chosen,
  (forall l, Permutation (ord l) l) -> (forall l, Permutation (order l) l) -> plain doc -> (forall l, In l chosen -> In l (names_of doc)) ->
  exists h2 D2, label_create ord order chosen (text_of doc) = Ok (h2, D2) /\ sub_history [] collect h2 D2 /\
    read_with_target doc chosen (fun r t => NoDup t /\ forall l, In l t <-> In l chosen /\ exists k, nth_error (names_of doc) k = Some l /\ set_cell (cell r k)) h2 (fst D2).
Proof. exact @ArffI.C106_label_files. Qed.
Print Assumptions C106_label_files.
(** Any well-formed file read as a MultisetDataset: an instance has the counts
    in its row. *)
Theorem C106_multiset_files : forall (ord : list string -> list string) (order : list nat -> list nat) doc chosen,
  (forall l, Permutation (ord l) l) -> (forall l, Permutation (order l) l) -> plain doc -> (forall l, In l chosen -> In l (names_of doc)) ->
  (forall r k l, In r (rows doc) -> nth_error (names_of doc) k = Some l -> In l chosen -> exists n, count_cell (cell r k) n) ->
  exists h2 D2, multiset_create ord order chosen (text_of doc) = Ok (h2, D2) /\ sub_history no_multisets count_multiset h2 D2 /\
    read_with_target doc chosen (fun r t =>
      (forall k l n, nth_error (names_of doc) k = Some l -> In l chosen -> count_cell (cell r k) n -> dict_get l t = Some n) /\
      forall l, In l (keys t) -> In l chosen) h2 (fst D2).
Proof. exact @ArffI.C106_multiset_files. Qed.
Print Assumptions C106_multiset_files.
(** A chosen attribute which the file does not have. *)
Theorem C106_unknown_label : forall (ord : list string -> list string) (order : list nat -> list nat) doc chosen,
  (forall l, Permutation (order l) l) -> plain doc -> rows doc <> [] -> (exists l, In l chosen /\ ~ In l (names_of doc)) ->
  label_create ord order chosen (text_of doc) = Err KeyError.
Proof. exact @ArffI.C106_unknown_label. Qed.
Print Assumptions C106_unknown_label.
Example C106_example_classes : exists c, class_history (colours "yes" "no") (coloured, c) [] [] /\ get_set_of_classes c = ["yes"; "no"] /\
  (forall l, In l (get_set_of_classes c) -> plain_value l) /\ plain_name "class" /\ ~ In "class" (cats coloured ++ nums coloured).
Proof.
  eexists. split; [|split; [|split; [|split; [name_ok|cbn; intuition discriminate]]]].
  - eapply (cl_add _ (first_coloured, _) 1); [|vm_compute; reflexivity]. eapply (cl_add _ (class_new ["colour"] ["size"]) 0); [|vm_compute; reflexivity].
    constructor; [apply ex_proper|apply ex_names].
  - reflexivity.
  - intros l [<-|[<-|[]]]; (split; [all_chars|split; no_char]).
Qed.
Example C106_example_labels : sub_history [] collect (colours ["u"; "v"] ["u"]) (coloured, ["u"; "v"]) /\
  (forall l, In l ["u"; "v"] -> plain_name ("label_" ++ l) /\ ~ In ("label_" ++ l)%string (cats coloured ++ nums coloured)) /\
  exists text h2 D2, label_export (fun v => v) String.leb "label_" "r" (colours ["u"; "v"] ["u"]) (coloured, ["u"; "v"]) [0; 1] = Ok text /\
    label_create (fun l => l) (fun l => l) ["label_v"; "label_u"] text = Ok (h2, D2) /\ map target h2 = [["label_v"; "label_u"]; ["label_u"]].
Proof.
  split; [exact (ex_sub _ _ [] collect ["u"; "v"] ["u"])|]. split; [intros l [<-|[<-|[]]]; (split; [name_ok|cbn; intuition discriminate])|].
  do 3 eexists. split; [vm_compute; reflexivity|]. split; vm_compute; reflexivity.
Qed.
Example C106_example_multisets : exists counts, sub_history no_multisets count_multiset (colours [("u", 2); ("v", 0)] [("u", 10)]) (coloured, counts) /\
  multiset_classes counts = ["u"; "v"] /\
  exists text h2 D2, multiset_export (fun v => v) String.leb "m_" "r" (colours [("u", 2); ("v", 0)] [("u", 10)]) (coloured, counts) [0; 1] = Ok text /\
    multiset_create (fun l => l) (fun l => l) ["m_u"; "m_v"] text = Ok (h2, D2) /\ map target h2 = [[("m_u", 2); ("m_v", 0)]; [("m_u", 10); ("m_v", 0)]].
Proof.
  eexists. split; [apply ex_sub|]. split; [reflexivity|]. do 3 eexists. split; [vm_compute; reflexivity|]. split; vm_compute; reflexivity.
Qed.
Example C106_example_sequences : sub_history [] collect (colours ["u"; "v"; "u"] []) (coloured, ["u"; "v"]) /\
  (forall s, In s [";"; "u"; "v"] -> plain_value s /\ lacks "[" s /\ lacks "]" s /\ lacks "," s) /\
  exists text h2 D2, sequence_export (fun v => v) String.leb "s" "," "r" (colours ["u"; "v"; "u"] []) (coloured, ["u"; "v"]) [0; 1] = Ok text /\
    sequence_create (fun l => l) "s" text = Ok (h2, D2) /\ map target h2 = [["u"; "v"; "u"]; [""]].
Proof.
  split; [exact (ex_sub _ _ [] collect ["u"; "v"; "u"] [])|]. split.
  - intros s [<-|[<-|[<-|[]]]]; (split; [split; [all_chars|split; no_char]|split; [no_char|split; no_char]]).
  - do 3 eexists. split; [vm_compute; reflexivity|]. split; vm_compute; reflexivity.
Qed.
Example C106_example_no_labels : sub_history [] collect (colours ([] : list string) []) (coloured, []).
Proof. exact (ex_sub _ _ [] collect [] []). Qed.
Example C106_example_no_classes : exists counts, sub_history no_multisets count_multiset (colours ([] : dict string nat) []) (coloured, counts) /\ multiset_classes counts = [].
Proof. eexists. split; [apply ex_sub|reflexivity]. Qed.
Example C106_example_no_attributes : exists d c, class_history [{| iid := 0; feats := []; target := "yes" |} : inst nat string string] (d, c) [] [] /\
  cats d ++ nums d = [] /\ insts d = [0] /\ get_set_of_classes c = ["yes"].
Proof.
  do 2 eexists. split; [|split; [|split]]; [eapply (cl_add _ (class_new [] []) 0); [|vm_compute; reflexivity]; constructor|reflexivity..].
  - intros [|[|a]] x E; try discriminate E. injection E as <-. constructor.
  - constructor.
Qed.
Example C106_example_only_labels : exists d, sub_history [] collect [{| iid := 0; feats := []; target := ["u"; "v"] |} : inst nat string (list string)] (d, ["u"; "v"]) /\
  cats d ++ nums d = [] /\ insts d = [0].
Proof.
  eexists. split; [|split]; [eapply (sub_added _ _ _ (new [] [], []) 0); [|vm_compute; reflexivity]; constructor|reflexivity..].
  - intros [|[|a]] x E; try discriminate E. injection E as <-. constructor.
  - constructor.
Qed.
Example C106_example_files : exists doc, plain doc /\ (forall l, In l ["u"; "v"] -> In l (names_of doc)) /\
  (forall r k l, In r (rows doc) -> nth_error (names_of doc) k = Some l -> In l ["u"; "v"] -> exists n, count_cell (cell r k) n) /\
  option_map (fun hD => map (@target _ _ _) (fst hD)) (match label_create (fun l => l) (fun l => l) ["u"; "v"] (text_of doc) with Ok x => Some x | Err _ => None end) = Some [["v"]; ["u"]] /\
  label_create (fun l => l) (fun l => l) ["u"; "w"] (text_of doc) = Err KeyError.
Proof.
  exists {| relation := "r"; attributes := [("x", Numeric); ("u", Nominal [Bare "0"; Bare "1"]); ("v", Nominal [Bare "0"; Bare "1"])];
            rows := [Sparse [(0, 7%Z); (2, 1%Z)]; Dense [Bare "8"; Quoted "1"; Bare "0"]] |}.
  split; [|split; [|split; [|split; vm_compute; reflexivity]]].
  - constructor; cbn [relation attributes rows names_of map fst].
    + all_chars.
    + discriminate.
    + repeat constructor; cbn; intuition discriminate.
    + intros n [<-|[<-|[<-|[]]]]; name_ok.
    + intros n vs v [X|[X|[X|[]]]] Hv; try discriminate; injection X as <- <-; (destruct Hv as [<-|[<-|[]]]; split; [all_chars|no_char|all_chars|no_char]).
    + intros r [<-|[<-|[]]]; cbn [plain_row length]; [intros i z [X|[X|[]]]; injection X as <- <-; lia|]. split; [reflexivity|]. split; [|split; [discriminate|intros s fs' X; discriminate]].
      intros f [<-|[<-|[<-|[]]]]; repeat split; try all_chars; no_char.
  - intros l [<-|[<-|[]]]; cbn; auto.
  - intros r [|[|[|k]]] l [<-|[<-|[]]] E Hl; cbn in E; try discriminate; try (destruct k; discriminate); injection E as <-.
    all: try (destruct Hl as [X|[X|[]]]; discriminate).
    + exists 0. left. reflexivity.
    + exists 1. right. reflexivity.
    + exists 1. left. reflexivity.
    + exists 0. right. reflexivity.
Qed.
