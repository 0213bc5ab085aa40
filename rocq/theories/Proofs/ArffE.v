(** What any text is read as; equality of datasets; exporting what was read *)
From Coq Require Import String Ascii ZArith Lia Permutation Sorted.
From Verif.Model Require Import Base Sort Dataset TargetDatasets Arff.
From Verif.Lib Require Import ListLib DictLib SortLib StrLib.
From Verif.Spec Require Import DatasetSpec ArffSpec.
From Verif.Proofs Require Import DatasetA LogTablesB LogTablesD ArffA ArffB ArffC ArffD.
Open Scope string_scope.
Open Scope list_scope.
Open Scope nat_scope.

Lemma name_fields_NoDup names : forall fields d d', NoDup (keys d) -> name_fields names fields d = Ok d' -> NoDup (keys d').
Proof.
  induction names as [|n names IH]; intros [|f fields] d d' Hd; cbn [name_fields]; try discriminate; try (intros E; injection E as <-; auto; fail).
  apply IH. apply keys_dict_set_NoDup; auto.
Qed.
Lemma parse_NoDup line names d : parse_instance line names = Ok d -> NoDup (keys d).
Proof.
  unfold parse_instance. destruct (String.prefix "{" line).
  - apply (foldM_inv _ (fun d => NoDup (keys d))).
    + intros y x y' _ Hy. destruct (split_at_char " " x) as [|w0 [|w1 [|w2 l]]]; try discriminate.
      destruct (int_of_string w1); cbn [of_option bind]; [|discriminate]. destruct (int_of_string w0); cbn [of_option bind]; [|discriminate].
      destruct (py_nth names _); cbn [of_option bind]; [|discriminate]. intros E. injection E as <-. apply keys_dict_set_NoDup; auto.
    + apply (zeros_ok names []). constructor.
  - apply name_fields_NoDup. constructor.
Qed.
Lemma read_line_NoDup st line st' : (forall x, In x (read_instances st) -> NoDup (keys x)) -> read_line st line = Ok st' ->
  forall x, In x (read_instances st') -> NoDup (keys x).
Proof.
  intros Hx. unfold read_line. destruct (started st && negb (eqb line "")).
  - destruct (parse_instance line (all_names st)) as [y|] eqn:Ey; cbn [bind]; [|discriminate]. intros E. injection E as <-. cbn [read_instances].
    intros x. rewrite in_app_iff. intros [X|[<-|[]]]; auto. eapply parse_NoDup; eauto.
  - destruct (String.prefix "@attribute" (lower line)).
    + destruct (split_at_char " " line) as [|w0 [|w1 [|w2 [|w3 l]]]]; try discriminate. cbv zeta.
      destruct (String.prefix "{" w2); [intros E; injection E as <-; auto|]. destruct (eqb (lower w2) "numeric"); [intros E; injection E as <-; auto|discriminate].
    + destruct (String.prefix "@data" (lower line)); intros E; injection E as <-; auto.
Qed.
Section B.
  Context {I V T : Type} `{Eq I} `{Eq V}.
  Lemma build_inv (h : heap I V T) cs ns : proper h -> forall l d, foldM (add_instance h) l (new cs ns) = Ok d ->
    history false h d /\ insts d = l /\ cats d = cs /\ nums d = ns /\ (forall n, In n (keys (attrs d)) <-> In n (cs ++ ns)).
  Proof.
    intros Hp l. induction l as [|a l IH] using rev_ind; intros d E.
    - cbn in E. injection E as <-. destruct (new_ok (V := V) cs ns) as (E1 & E2 & E3 & _ & _). repeat split; auto; try apply new_keys. apply hist_new; auto. discriminate.
    - rewrite foldM_app in E. destruct (foldM (add_instance h) l (new cs ns)) as [d0|] eqn:E0; cbn [bind foldM] in E; [|discriminate].
      destruct (add_instance h d0 a) as [d1|] eqn:E1; cbn [bind] in E; [|discriminate]. injection E as <-.
      destruct (IH d0 eq_refl) as (H1 & H2 & H3 & H4 & H5). destruct (add_instance_Ok _ _ _ _ E1) as (x & Ex & Hk & Hid).
      destruct (add_instance_ok h d0 a x Ex Hk Hid) as (d2 & E2 & F1 & F2 & F3 & F4 & F5). rewrite E1 in E2. injection E2 as <-.
      split; [eapply hist_add; eauto|]. repeat split; try congruence; rewrite F4; apply H5.
  Qed.
End B.
(*P C105 Reading and writing ARFF files *)
(** Whatever the text is: if it can be read, the result is a proper dataset
    with the ids 0, 1, 2, ... *)
Lemma C105_any_text : forall text h d, create_from_arff text = Ok (h, d) ->
  history false h d /\ insts d = seq 0 (length h) /\
  forall i x, nth_error h i = Some x -> iid x = i /\ forall n, In n (keys (feats x)) <-> In n (cats d ++ nums d).
Proof.
  intros text h d. rewrite create_eq. destruct (foldM read_line (splitlines text) start) as [st|] eqn:Est; cbn [bind]; [|discriminate].
  assert (Hk : forall x, In x (read_instances st) -> NoDup (keys x)).
  { revert Est. apply (foldM_inv _ (fun st => forall x, In x (read_instances st) -> NoDup (keys x))).
    - intros y x y' _ Hy E. eapply read_line_NoDup; eauto.
    - cbn. tauto. }
  destruct (foldM (add_instance (numbered (read_instances st))) (seq 0 (length (read_instances st))) (new (cat_names st) (num_names st))) as [d0|e] eqn:Ed; cbn [bind]; [|discriminate].
  intros E. assert (E1 : numbered (read_instances st) = h) by congruence. assert (E2 : d0 = d) by congruence. subst h d.
  apply build_inv in Ed as (H1 & H2 & H3 & H4 & H5); [|apply numbered_proper; auto]. split; auto. split; [rewrite numbered_length; auto|].
  intros i x Ex. pose proof (history_inv _ _ _ H1) as Hi. assert (Em : member (numbered (read_instances st)) d0 i x).
  { split; auto. rewrite H2. apply in_seq. apply nth_error_Some_lt in Ex. rewrite numbered_length in Ex. lia. }
  split.
  - rewrite numbered_nth in Ex. destruct (nth_error (read_instances st) i); [|discriminate]. injection Ex as <-. reflexivity.
  - intros n. rewrite (v_feats _ _ _ Hi i x Em n), H5, H3, H4. tauto.
Qed.

(** ** equality *)
Lemma map_inj_on {X Y} (f : X -> Y) l m : (forall x y, In x l -> In y m -> f x = f y -> x = y) -> map f l = map f m -> l = m.
Proof.
  revert m. induction l as [|x l IH]; intros [|y m] Hf E; try discriminate; auto. cbn in E. injection E as E1 E2. f_equal.
  - apply Hf; cbn; auto.
  - apply IH; auto. intros; apply Hf; cbn; auto.
Qed.
Lemma app_eq_length {X} (a b c d : list X) : length a = length c -> a ++ b = c ++ d -> a = c /\ b = d.
Proof. revert c. induction a as [|x a IH]; intros [|y c] El E; try discriminate; auto. cbn in *. injection E as <- E. destruct (IH c) as [-> ->]; auto. Qed.
Lemma app_str_end (a b c : string) : (a ++ c = b ++ c)%string -> a = b.
Proof.
  intros E. apply (f_equal list_ascii_of_string) in E. change (chars (a ++ c) = chars (b ++ c)) in E. rewrite !chars_app in E. apply app_inv_tail in E.
  apply (f_equal string_of_list_ascii) in E. unfold chars in E. rewrite !string_of_list_ascii_of_string in E. auto.
Qed.
Lemma quoted_inj l m : (forall s, In s l -> lacks dq s /\ one_line s) -> (forall s, In s m -> lacks dq s /\ one_line s) ->
  domain_text (Nominal (map Quoted l)) = domain_text (Nominal (map Quoted m)) -> l = m.
Proof.
  intros Hl Hm E. cbn [domain_text append] in E. injection E as E. apply app_str_end in E.
  assert (C : csv_row (String.concat "," (map field_text (map Quoted l))) = csv_row (String.concat "," (map field_text (map Quoted m)))) by (rewrite E; auto).
  assert (G : forall l, (forall s, In s l -> lacks dq s /\ one_line s) -> csv_row (String.concat "," (map field_text (map Quoted l))) = l).
  { clear. intros [|s l] Hs; [reflexivity|]. rewrite csv_row_dense; try discriminate.
    - rewrite map_map. cbn [field_value]. apply map_id.
    - intros f Hf. apply in_map_iff in Hf as (t & <- & Ht). cbn [plain_field]. apply Hs in Ht. tauto. }
  rewrite !G in C by auto. auto.
Qed.
Lemma attribute_text_inj n t t' : attribute_text (n, t) = attribute_text (n, t') -> domain_text t = domain_text t'.
Proof. rewrite !attribute_text_eq. cbn [fst snd]. intros E. apply app_str_inj in E. injection E as E. apply app_str_inj in E. injection E as E. auto. Qed.
Section Q.
  Context {I V T : Type} `{Eq I} `{Eq V}.
  Variable show : V -> string.
  Variable leb : V -> V -> bool.
  Notation heap := (heap I V T).
  Lemma row_values (h : heap) d a : map field_value (row_fields show h d a) = map (value_text show h a) (cats d ++ nums d).
  Proof. unfold row_fields. rewrite !map_app, !map_map. reflexivity. Qed.
  Lemma doc_plain (h : heap) d it relation : history true h d -> Permutation it (insts d) -> one_line relation ->
    plain_dataset show h d -> cats d ++ nums d <> [] -> plain (document_of show leb [] (fun _ => []) relation h d it).
  Proof. intros. apply plain_document; auto; try (cbn; tauto). constructor. Qed.
  Lemma text_inj (h : heap) d it (h' : heap) d' it' relation : one_line relation ->
    history true h d -> Permutation it (insts d) -> plain_dataset show h d -> cats d ++ nums d <> [] ->
    history true h' d' -> Permutation it' (insts d') -> plain_dataset show h' d' -> cats d' ++ nums d' <> [] ->
    text_of (document_of show leb [] (fun _ => []) relation h d it) = text_of (document_of show leb [] (fun _ => []) relation h' d' it') ->
    cats d = cats d' /\ nums d = nums d' /\
    (forall n, In n (cats d) -> unique_texts show leb d n = unique_texts show leb d' n) /\
    map (fun a => map (value_text show h a) (cats d ++ nums d)) it = map (fun a => map (value_text show h' a) (cats d ++ nums d)) it'.
  Proof.
    intros Hr Hh Hit Hp Hne Hh' Hit' Hp' Hne' E.
    pose proof (doc_plain h d it relation Hh Hit Hr Hp Hne) as P. pose proof (doc_plain h' d' it' relation Hh' Hit' Hr Hp' Hne') as P'.
    set (doc := document_of show leb [] (fun _ => []) relation h d it) in *. set (doc' := document_of show leb [] (fun _ => []) relation h' d' it') in *.
    assert (Ea : attributes doc = own_attributes show leb d) by (unfold doc; cbn [document_of attributes]; apply app_nil_r).
    assert (Ea' : attributes doc' = own_attributes show leb d') by (unfold doc'; cbn [document_of attributes]; apply app_nil_r).
    destruct (C105_documents doc P) as (g & e & Eg & R). destruct (C105_documents doc' P') as (g' & e' & Eg' & R').
    rewrite E, Eg' in Eg. assert (X1 : g' = g) by congruence. assert (X2 : e' = e) by congruence. subst g' e'.
    destruct (nominal_document show leb d) as [N1 N2]. destruct (nominal_document show leb d') as [N1' N2'].
    assert (Hc : cats d = cats d') by (rewrite <- N1, <- N1', <- Ea, <- Ea', <- (r_cats _ _ _ R), <- (r_cats _ _ _ R'); auto).
    assert (Hn : nums d = nums d') by (rewrite <- N2, <- N2', <- Ea, <- Ea', <- (r_nums _ _ _ R), <- (r_nums _ _ _ R'); auto).
    split; auto. split; auto.
    assert (El : lines_of doc = lines_of doc') by (rewrite <- !doc_lines by auto; congruence).
    unfold lines_of in El. apply (f_equal (skipn 2)) in El. cbn [skipn] in El. apply app_eq_length in El as [El1 El2].
    2:{ rewrite !map_length, Ea, Ea'. unfold own_attributes. rewrite !app_length, !map_length. congruence. }
    apply (f_equal (skipn 2)) in El2. cbn [skipn] in El2. split.
    - intros n Hin. rewrite Ea, Ea' in El1. unfold own_attributes in El1. rewrite !map_app, !map_map in El1.
      apply app_eq_length in El1 as [El1 _]; [|rewrite !map_length; congruence]. rewrite <- Hc in El1.
      assert (X : forall l, map (fun x => attribute_text (x, Nominal (map Quoted (unique_texts show leb d x)))) l =
                      map (fun x => attribute_text (x, Nominal (map Quoted (unique_texts show leb d' x)))) l -> In n l ->
                      attribute_text (n, Nominal (map Quoted (unique_texts show leb d n))) = attribute_text (n, Nominal (map Quoted (unique_texts show leb d' n)))).
      { induction l as [|m l IH]; [intros _ []|]. cbn [map]. intros Y. pose proof (f_equal (hd "") Y) as Y1. apply (f_equal (@tl string)) in Y. cbn [hd tl] in Y, Y1. intros [->|Hl]; auto. }
      apply X in El1; auto. apply attribute_text_inj in El1. apply quoted_inj in El1; auto.
      + intros s Hs. apply (unique_text_value show leb h) in Hs as (a & v & Ha & Ev & ->); auto.
        destruct (d_categories _ _ _ Hp a n v Ha Hin Ev) as (? & ? & ?). auto.
      + intros s Hs. apply (unique_text_value show leb h') in Hs as (a & v & Ha & Ev & ->); auto.
        rewrite Hc in Hin. destruct (d_categories _ _ _ Hp' a n v Ha Hin Ev) as (? & ? & ?). auto.
    - unfold doc, doc' in El2. cbn [document_of rows] in El2. rewrite !map_map in El2.
      assert (X : forall (h : heap) d it, history true h d -> Permutation it (insts d) -> plain_dataset show h d -> cats d ++ nums d <> [] ->
        map (fun a => map (value_text show h a) (cats d ++ nums d)) it = map csv_row (map (fun a => row_text (Dense (row_fields show h d a ++ []))) it)).
      { clear - Hr leb. intros h d it Hh Hit Hp Hne. rewrite map_map. apply map_ext_in. intros a Ha. rewrite app_nil_r, <- row_values. cbn [row_text].
        pose proof (doc_plain h d it relation Hh Hit Hr Hp Hne) as P.
        assert (Hpr := plain_rows _ P (Dense (row_fields show h d a))). cbn [document_of rows plain_row] in Hpr.
        destruct Hpr as (L & F1 & F2 & F3); [apply in_map_iff; exists a; rewrite app_nil_r; auto|]. rewrite csv_row_dense; auto.
        unfold row_fields. intros X. apply Hne. apply app_eq_nil in X as [X1 X2]. apply map_eq_nil in X1, X2. rewrite X1, X2. reflexivity. }
      rewrite (X h d it), El2 by auto. rewrite Hc, Hn. symmetry. apply X; auto.
  Qed.
End Q.
(*P C105 Reading and writing ARFF files *)
(** [d == d']: the same names in the same order, the same values (as text) in
    the order of the two iterations, and the same unique values in the order of
    [sorted]. Ids are not compared. *)
Lemma C105_equality : forall (I V T : Type) (EI : Eq I) (EV : Eq V) (show : V -> string) (leb : V -> V -> bool) (h h' : heap I V T) (d d' : dataset V) it it',
  history true h d -> Permutation it (insts d) -> plain_dataset show h d -> cats d ++ nums d <> [] ->
  history true h' d' -> Permutation it' (insts d') -> plain_dataset show h' d' -> cats d' ++ nums d' <> [] ->
  exists b, dataset_eq show leb h d it h' d' it' = Ok b /\
  (b = true <-> cats d = cats d' /\ nums d = nums d' /\
    (forall n, In n (cats d) -> unique_texts show leb d n = unique_texts show leb d' n) /\
    map (fun a => map (value_text show h a) (cats d ++ nums d)) it = map (fun a => map (value_text show h' a) (cats d ++ nums d)) it').
Proof.
  intros I V T EI EV show leb h h' d d' it it' Hh Hit Hp Hne Hh' Hit' Hp' Hne'. unfold dataset_eq.
  rewrite (C105_text I V T EI EV show leb h), (C105_text I V T EI EV show leb h') by auto. cbn [bind]. eexists. split; [reflexivity|]. rewrite eqb_eq.
  assert (Hr : one_line "Nameless Dataset") by (intros c Hc; cbn in Hc; decompose [or False] Hc; subst; ascii_line).
  split.
  - intros E. symmetry in E. apply text_inj in E; auto.
  - intros (Ec & En & Eu & Er). f_equal. unfold document_of. f_equal.
    + f_equal. unfold own_attributes. rewrite <- Ec, <- En. f_equal. apply map_ext_in. intros n Hn. rewrite Eu by auto. reflexivity.
    + assert (G : forall l l', map (fun a => map (value_text show h a) (cats d ++ nums d)) l = map (fun a => map (value_text show h' a) (cats d ++ nums d)) l' ->
        map (fun a => Dense (row_fields show h' d' a ++ [])) l' = map (fun a => Dense (row_fields show h d a ++ [])) l).
      { induction l as [|a l IH]; intros [|a' l'] E; try discriminate; auto. cbn [map] in *. injection E as E1 E2. f_equal; auto.
        unfold row_fields. rewrite <- Ec, <- En. rewrite !map_app in E1. apply app_eq_length in E1 as [F1 F2]; [|rewrite !map_length; auto].
        assert (M : forall (f : string -> field) (l : list string), map (value_text show h a) l = map (value_text show h' a') l -> forall g : string -> field, map (fun n => g (value_text show h' a' n)) l = map (fun n => g (value_text show h a n)) l).
        { clear. intros _ l E g. rewrite <- (map_map (value_text show h' a') g), <- (map_map (value_text show h a) g), E. reflexivity. }
        rewrite (M Bare (cats d) F1 Quoted), (M Bare (nums d) F2 Bare). reflexivity. }
      apply G. auto.
Qed.
(*P C105 Reading and writing ARFF files *)
(** A dataset is not always equal to itself: it depends on the order in which a
    set happens to be iterated. *)
Lemma C105_equality_witness : exists (h : heap nat string unit) d it it', history true h d /\ Permutation it (insts d) /\ Permutation it' (insts d) /\
  plain_dataset (fun s => s) h d /\
  dataset_eq (fun s => s) String.leb h d it h d it = Ok true /\ dataset_eq (fun s => s) String.leb h d it h d it' = Ok false.
Proof.
  set (h := [{| iid := 0; feats := [("a", "x")]; target := tt |}; {| iid := 1; feats := [("a", "y")]; target := tt |}] : heap nat string unit).
  assert (Hd : exists d, foldM (add_instance h) [0; 1] (new ["a"] []) = Ok d) by (eexists; reflexivity). destruct Hd as [d Ed].
  exists h, d, [0; 1], [1; 0]. vm_compute in Ed. injection Ed as <-. split; [|split; [apply Permutation_refl|split; [apply perm_swap|split; [|split; reflexivity]]]].
  - eapply (hist_add _ _ {| insts := [0]; attrs := [("a", {| akind := Categorical; auniq := ["x"] |})]; cats := ["a"]; nums := [] |} 1); [|reflexivity].
    eapply (hist_add _ _ (new ["a"] []) 0); [|reflexivity]. apply hist_new; [|intros _; repeat constructor; cbn; tauto].
    intros [|[|a]] x E; try (injection E as <-; repeat constructor; cbn; tauto). destruct a; discriminate.
  - constructor; cbn.
    + intros n [<-|[]]. repeat split; try discriminate.
      * intros c [<-|[]]. ascii_line.
      * intros [X|[]]. discriminate.
      * intros [|x [|y r]]; discriminate.
    + intros a n v [<-|[<-|[]]] [<-|[]] E; injection E as <-; (split; [intros c [<-|[]]; ascii_line|split; intros [X|[]]; discriminate]).
    + tauto.
Qed.

(** ** exporting what was read *)
Lemma sort_map {X} (leb : X -> X -> bool) (f : X -> string) l : (forall x y, In x l -> In y l -> leb x y = String.leb (f x) (f y)) ->
  map f (stable_sort leb l) = stable_sort String.leb (map f l).
Proof.
  unfold stable_sort. induction l as [|x l IH]; intros E; cbn [fold_right map]; auto. rewrite <- IH by (intros; apply E; cbn; auto).
  assert (G : forall m, (forall y, In y m -> In y l) -> map f (sort_insert leb x m) = sort_insert String.leb (f x) (map f m)).
  { induction m as [|y m IHm]; intros Hm; cbn [sort_insert map]; auto. rewrite <- (E x y) by (cbn; auto; right; apply Hm; cbn; auto).
    destruct (leb x y); cbn [map]; auto. f_equal. apply IHm. intros z Hz. apply Hm. cbn. auto. }
  apply G. intros y Hy. apply (sort_In leb y l). auto.
Qed.
(*P C105 Reading and writing ARFF files *)
(** If different categories have different texts and are sorted as their texts
    are, what is read from the text is exported as the same text. *)
Lemma C105_stable : forall (I V T : Type) (EI : Eq I) (EV : Eq V) (show : V -> string) (leb : V -> V -> bool) (h : heap I V T) (d : dataset V) it relation
    (show' : read_value -> string) (leb' : read_value -> read_value -> bool) text h' d',
  history true h d -> Permutation it (insts d) -> one_line relation -> plain_dataset show h d -> cats d ++ nums d <> [] ->
  (forall n s v w, In n (cats d) -> uniques d n = Some s -> In v s -> In w s -> (show v = show w -> v = w) /\ leb v w = String.leb (show v) (show w)) ->
  (forall s, show' (Text s) = s) -> (forall s t, leb' (Text s) (Text t) = String.leb s t) ->
  export_to_arff show leb relation h d it = Ok text -> create_from_arff text = Ok (h', d') ->
  export_to_arff show' leb' relation h' d' (insts d') = Ok text.
Proof.
  intros I V T EI EV show leb h d it relation show' leb' text h' d' Hh Hit Hr Hp Hne Hs Hshow Hleb Et Ec.
  destruct (C105_round_trip I V T EI EV show leb h d it relation Hh Hit Hr Hp Hne) as (text0 & h0 & d0 & Et0 & Ec0 & Hc & Hn & Hi & Hl & Hh0 & Hv).
  rewrite Et in Et0. injection Et0 as <-. rewrite Ec in Ec0. assert (X1 : h' = h0) by congruence. assert (X2 : d' = d0) by congruence. subst h0 d0.
  rewrite (C105_text I V T EI EV show leb) in Et by auto. injection Et as <-.
  rewrite (C105_text nat read_value unit _ _ show' leb') by auto. f_equal. f_equal. unfold document_of. f_equal.
  - f_equal. unfold own_attributes. rewrite Hc, Hn. f_equal. apply map_ext_in. intros n Hin. do 3 f_equal.
    destruct (own_attribute h d n Hh) as [y Ey]; [apply in_app_iff; auto|].
    destruct (own_attribute h' d' n Hh0) as [y' Ey']; [rewrite Hc; apply in_app_iff; auto|].
    unfold unique_texts. rewrite (attr_uniques _ _ _ Ey), (attr_uniques _ _ _ Ey').
    destruct (v_uniq _ _ _ (history_inv _ _ _ Hh) n y Ey) as [U1 U2]. destruct (v_uniq _ _ _ (history_inv _ _ _ Hh0) n y' Ey') as [U1' U2'].
    assert (Hval : forall i a, nth_error it i = Some a -> value h' i n = option_map (fun v => Text (show v)) (value h a n)).
    { intros i a Ei. destruct (Hv i a Ei) as (x & Ex & _ & Hx). unfold value at 1. rewrite Ex. apply Hx. }
    assert (UT : forall w, In w (auniq y') <-> exists v, In v (auniq y) /\ w = Text (show v)).
    { intros w. rewrite U2'. split.
      - intros (i & Hii & Ew). rewrite Hi, in_seq in Hii. destruct (nth_error_lt it i) as [a Ea]; [lia|]. rewrite (Hval i a Ea) in Ew.
        destruct (value h a n) as [v|] eqn:Ev; [|discriminate]. injection Ew as <-. exists v. split; auto. apply U2. exists a. split; auto.
        eapply Permutation_in; eauto. eapply nth_error_In; eauto.
      - intros (v & Hvv & ->). apply U2 in Hvv as (a & Ha & Ev). apply (Permutation_in _ (Permutation_sym Hit)) in Ha. apply In_nth_error in Ha as [i Ei].
        exists i. split; [rewrite Hi; apply in_seq; apply nth_error_Some_lt in Ei; lia|]. rewrite (Hval i a Ei), Ev. reflexivity. }
    rewrite (sort_map leb' show'), (sort_map leb show).
    + apply sort_str_ext. apply NoDup_Permutation.
      * clear - U1' UT Hshow EI EV. assert (Q : forall w, In w (auniq y') -> exists s, w = Text s) by (intros w Hw; apply UT in Hw as (v & _ & ->); eauto).
        clear UT. induction (auniq y') as [|w l IH]; cbn; constructor; apply names_NoDup_cons in U1' as [A1 A2].
        -- intros X. apply in_map_iff in X as (w' & X & Hw'). destruct (Q w) as [s ->]; [cbn; auto|]. destruct (Q w') as [s' ->]; [cbn; auto|].
           rewrite !Hshow in X. subst. auto.
        -- apply IH; auto. intros; apply Q; cbn; auto.
      * assert (Q : forall v w, In v (auniq y) -> In w (auniq y) -> show v = show w -> v = w) by (intros v w A1 A2; apply (Hs n (auniq y) v w Hin (attr_uniques _ _ _ Ey) A1 A2)).
        clear - U1 Q. induction (auniq y) as [|w l IH]; cbn; constructor; apply names_NoDup_cons in U1 as [A1 A2].
        -- intros X. apply in_map_iff in X as (w' & X & Hw'). apply A1. rewrite (Q w w'); cbn; auto.
        -- apply IH; auto. intros; apply Q; cbn; auto.
      * intros s. rewrite !in_map_iff. split.
        -- intros (w & <- & Hw). apply UT in Hw as (v & Hvv & ->). exists v. rewrite Hshow. auto.
        -- intros (v & <- & Hvv). exists (Text (show v)). rewrite Hshow. split; auto. apply UT. eauto.
    + intros v w A1 A2. apply (Hs n (auniq y)); auto. apply attr_uniques; auto.
    + intros v w A1 A2. apply UT in A1 as (v' & _ & ->). apply UT in A2 as (w' & _ & ->). rewrite Hleb, !Hshow. reflexivity.
  - rewrite Hi. apply nth_error_ext. intros i. rewrite !nth_error_map. destruct (nth_error it i) as [a|] eqn:Ei.
    + rewrite (nth_error_nth' (seq 0 (length it)) 0) by (rewrite seq_length; eapply nth_error_Some_lt; eauto). rewrite seq_nth by (eapply nth_error_Some_lt; eauto). cbn [option_map plus].
      do 3 f_equal. unfold row_fields. rewrite Hc, Hn. destruct (Hv i a Ei) as (x & Ex & _ & Hx).
      assert (G : forall n, value_text show' h' i n = value_text show h a n).
      { intros n. unfold value_text. assert (Y : value h' i n = option_map (fun v => Text (show v)) (value h a n)) by (unfold value at 1; rewrite Ex; apply Hx).
        rewrite Y. destruct (value h a n); cbn; auto. }
      f_equal; apply map_ext; intros n; rewrite G; reflexivity.
    + rewrite (proj2 (nth_error_None (seq 0 (length it)) i)); [reflexivity|]. rewrite seq_length. apply nth_error_None. auto.
Qed.
(*P C105 Reading and writing ARFF files *)
(** Numbers as categories: 9 and 10 are sorted differently as texts, so the
    dataset that was read is exported differently. *)
Lemma C105_stable_witness : exists (h : heap nat Z unit) d text h' d' text', history true h d /\ plain_dataset int_text h d /\
  export_to_arff int_text Z.leb "r" h d [0; 1] = Ok text /\ create_from_arff text = Ok (h', d') /\
  export_to_arff (fun v => match v with Text s => s | Number z => int_text z end)
    (fun v w => match v, w with Text s, Text t => String.leb s t | _, _ => true end) "r" h' d' [0; 1] = Ok text' /\ text' <> text.
Proof.
  set (h := [{| iid := 0; feats := [("a", 9%Z)]; target := tt |}; {| iid := 1; feats := [("a", 10%Z)]; target := tt |}] : heap nat Z unit).
  assert (Hd : exists d, foldM (add_instance h) [0; 1] (new ["a"] []) = Ok d) by (eexists; reflexivity). destruct Hd as [d Ed]. exists h, d. vm_compute in Ed. injection Ed as <-.
  do 4 eexists. split; [|split; [|split; [vm_compute; reflexivity|split; [vm_compute; reflexivity|split; [vm_compute; reflexivity|vm_compute; discriminate]]]]].
  - eapply (hist_add _ _ {| insts := [0]; attrs := [("a", {| akind := Categorical; auniq := [9%Z] |})]; cats := ["a"]; nums := [] |} 1); [|reflexivity].
    eapply (hist_add _ _ (new ["a"] []) 0); [|reflexivity]. apply hist_new; [|intros _; repeat constructor; cbn; tauto].
    intros [|[|a]] x E; try (injection E as <-; repeat constructor; cbn; tauto). destruct a; discriminate.
  - constructor; cbn.
    + intros n [<-|[]]. repeat split; try discriminate.
      * intros c [<-|[]]. ascii_line.
      * intros [X|[]]. discriminate.
      * intros [|x [|y r]]; discriminate.
    + intros a n v [<-|[<-|[]]] [<-|[]] E; injection E as <-; (split; [intros c Hc; cbn in Hc; decompose [or False] Hc; subst; ascii_line|split; intros X; cbn in X; decompose [or False] X; discriminate]).
    + tauto.
Qed.
