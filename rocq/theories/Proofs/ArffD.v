(** Writing a dataset and reading it back *)
From Coq Require Import String Ascii ZArith Lia Permutation Sorted.
From Verif.Model Require Import Base Sort Dataset TargetDatasets Arff.
From Verif.Lib Require Import ListLib DictLib SortLib StrLib.
From Verif.Spec Require Import DatasetSpec ArffSpec.
From Verif.Proofs Require Import DatasetA LogTablesB LogTablesD ArffA ArffB ArffC.
Open Scope string_scope.
Open Scope list_scope.
Open Scope nat_scope.

Lemma concat_lf_lines x l : String.concat lf (x :: l) = (x ++ String.concat "" (map (fun y => lf ++ y)%string l))%string.
Proof.
  revert x. induction l as [|y l IH]; intros x; [cbn; rewrite app_str_nil; reflexivity|].
  rewrite concat_lf_cons, IH. cbn [map]. rewrite concat_cons, app_str_assoc. reflexivity.
Qed.
Definition comma_fields (fs : list field) : string := String.concat "" (map (fun f => "," ++ field_text f)%string fs).
Lemma concat_comma_fields x l : String.concat "," (x :: l) = (x ++ String.concat "" (map (fun y => "," ++ y)%string l))%string.
Proof.
  revert x. induction l as [|y l IH]; intros x; [cbn; rewrite app_str_nil; reflexivity|].
  rewrite concat_comma_cons, IH. cbn [map]. rewrite concat_cons. cbn [append]. reflexivity.
Qed.
Lemma row_extra fs gs : fs <> [] -> row_text (Dense (fs ++ gs)) = (row_text (Dense fs) ++ comma_fields gs)%string.
Proof.
  intros Hn. destruct fs as [|f fs]; [congruence|]. cbn [row_text app map]. rewrite !concat_comma_fields, map_app, map_app, concat_app, app_str_assoc.
  unfold comma_fields. rewrite !map_map. reflexivity.
Qed.
Lemma concat_both (l m : list string) : String.concat "," (l ++ m) =
  (String.concat "," l ++ (match l, m with _ :: _, _ :: _ => "," | _, _ => "" end) ++ String.concat "," m)%string.
Proof.
  destruct l as [|x l]; [reflexivity|]. destruct m as [|y m]; [rewrite app_nil_r; cbn [append]; rewrite app_str_nil; reflexivity|].
  cbn [app]. rewrite !concat_comma_fields, map_app, concat_app. cbn [map]. rewrite concat_cons. cbn [append]. rewrite !app_str_assoc. reflexivity.
Qed.

Section E.
  Context {I V T : Type} `{Eq I} `{Eq V}.
  Variable show : V -> string.
  Variable leb : V -> V -> bool.
  Notation heap := (heap I V T).

  Lemma attr_uniques (d : dataset V) n y : dict_get n (attrs d) = Some y -> uniques d n = Some (auniq y).
  Proof. intros E. unfold uniques. rewrite E. reflexivity. Qed.
  Lemma own_attribute (h : heap) d n : history true h d -> In n (cats d ++ nums d) -> exists y, dict_get n (attrs d) = Some y.
  Proof. intros Hh Hn. apply history_inv in Hh. apply dict_get_key. apply (v_fresh _ _ _ Hh eq_refl). auto. Qed.
  Lemma own_value (h : heap) d a n : history true h d -> In a (insts d) -> In n (cats d ++ nums d) -> exists v, value h a n = Some v.
  Proof.
    intros Hh Ha Hn. destruct (own_attribute h d n Hh Hn) as [y Ey]. apply history_inv in Hh. destruct (v_valid _ _ _ Hh a Ha) as [x Ex].
    unfold value. rewrite Ex. apply dict_get_key. apply (v_feats _ _ _ Hh a x); [split; auto|]. eapply dict_get_Some_key; eauto.
  Qed.
  Lemma definitions_text (h : heap) d : history true h d ->
    attribute_definitions show leb d = Ok (String.concat "" (map (fun a => lf ++ attribute_text a)%string (own_attributes show leb d))).
  Proof.
    intros Hh. unfold attribute_definitions.
    rewrite (mapM_map _ (fun n => lf ++ attribute_text (n, Nominal (map Quoted (unique_texts show leb d n))))%string).
    - cbn [bind]. f_equal. unfold own_attributes. rewrite map_app, !map_map, concat_app. reflexivity.
    - intros n Hn. destruct (own_attribute h d n Hh) as [y Ey]; [apply in_app_iff; auto|]. rewrite Ey. cbn [of_option bind].
      unfold unique_texts. rewrite (attr_uniques _ _ _ Ey). unfold attribute_line, attribute_text, category. cbn [fst snd]. rewrite !map_map. reflexivity.
  Qed.
  Lemma shown_text (h : heap) d a x names : history true h d -> In a (insts d) -> nth_error h a = Some x -> (forall n, In n names -> In n (cats d ++ nums d)) ->
    shown show x names = Ok (map (value_text show h a) names).
  Proof.
    intros Hh Ha Ex Hn. unfold shown. apply mapM_map. intros n Hin. destruct (own_value h d a n Hh Ha (Hn n Hin)) as [v Ev].
    unfold value_text. rewrite Ev. unfold value in Ev. rewrite Ex in Ev. rewrite Ev. reflexivity.
  Qed.
  Lemma line_text (h : heap) d a x : history true h d -> In a (insts d) -> nth_error h a = Some x ->
    instance_line show d x = Ok (lf ++ row_text (Dense (row_fields show h d a)))%string.
  Proof.
    intros Hh Ha Ex. unfold instance_line.
    rewrite (shown_text h d a x (cats d)), (shown_text h d a x (nums d)); auto; try (intros n Hn; apply in_app_iff; auto). cbn [bind]. f_equal. f_equal.
    cbn [row_text]. unfold row_fields. rewrite map_app, concat_both, !map_map. cbn [field_text].
    destruct (cats d), (nums d); reflexivity.
  Qed.
  Lemma export_document (h : heap) d it definitions line extra extra_fields relation :
    history true h d -> Permutation it (insts d) ->
    definitions = String.concat "" (map (fun a => lf ++ attribute_text a)%string extra) ->
    (forall a x, In a it -> nth_error h a = Some x -> line x = comma_fields (extra_fields a)) ->
    (extra = [] /\ (forall a, extra_fields a = []) \/ cats d ++ nums d <> []) ->
    export_with show leb definitions line relation h d it = Ok (text_of (document_of show leb extra extra_fields relation h d it)).
  Proof.
    intros Hh Hit -> Hl Hne. unfold export_with. rewrite (definitions_text h) by auto. cbn [bind].
    rewrite (mapM_map _ (fun a => lf ++ row_text (Dense (row_fields show h d a ++ extra_fields a)))%string).
    - cbn [bind]. f_equal. unfold text_of, lines_of, document_of. cbn [ArffSpec.relation attributes rows].
      rewrite concat_lf_lines. cbn [map]. rewrite map_app, concat_cons, concat_app. cbn [map]. rewrite !concat_cons.
      rewrite !map_map, map_app, concat_app. cbn [append]. rewrite !app_str_assoc. reflexivity.
    - intros a Ha. assert (Ha' : In a (insts d)) by (eapply Permutation_in; eauto).
      destruct (v_valid _ _ _ (history_inv _ _ _ Hh) a Ha') as [x Ex]. rewrite Ex. cbn [of_option bind].
      rewrite (line_text h d a x) by auto. cbn [bind]. rewrite (Hl a x) by auto. f_equal.
      destruct Hne as [[-> He]|Hne].
      + rewrite He, app_nil_r. cbn. rewrite app_str_nil. reflexivity.
      + rewrite row_extra; [rewrite app_str_assoc; reflexivity|]. unfold row_fields. intros X. apply Hne.
        apply app_eq_nil in X as [X1 X2]. apply map_eq_nil in X1, X2. rewrite X1, X2. reflexivity.
  Qed.
  Lemma names_document extra extra_fields relation (h : heap) d it :
    names_of (document_of show leb extra extra_fields relation h d it) = cats d ++ nums d ++ map fst extra.
  Proof. unfold names_of, document_of, own_attributes. cbn [attributes]. rewrite !map_app, !map_map, !map_id, app_assoc. reflexivity. Qed.
  Lemma filter_all {X} (f : X -> bool) l : (forall x, In x l -> f x = true) -> filter f l = l.
  Proof. induction l as [|x l IH]; intros E; cbn; auto. rewrite (E x) by (cbn; auto). f_equal. apply IH. intros; apply E; cbn; auto. Qed.
  Lemma filter_none {X} (f : X -> bool) l : (forall x, In x l -> f x = false) -> filter f l = [].
  Proof. induction l as [|x l IH]; intros E; cbn; auto. rewrite (E x) by (cbn; auto). apply IH. intros; apply E; cbn; auto. Qed.
  Lemma nominal_document d : map fst (filter is_nominal (own_attributes show leb d)) = cats d /\
    map fst (filter (fun a => negb (is_nominal a)) (own_attributes show leb d)) = nums d.
  Proof.
    unfold own_attributes. rewrite !filter_app. split.
    - rewrite filter_all, filter_none; [rewrite app_nil_r, map_map; apply map_id|..]; intros x Hx; apply in_map_iff in Hx as (n & <- & _); reflexivity.
    - rewrite filter_none, filter_all; [cbn [app]; rewrite map_map; apply map_id|..]; intros x Hx; apply in_map_iff in Hx as (n & <- & _); reflexivity.
  Qed.
  Lemma unique_text_value (h : heap) d n s : history true h d -> In s (unique_texts show leb d n) -> exists a v, In a (insts d) /\ value h a n = Some v /\ s = show v.
  Proof.
    intros Hh Hs. unfold unique_texts, uniques in Hs. destruct (dict_get n (attrs d)) as [y|] eqn:Ey; cbn in Hs; [|tauto].
    apply in_map_iff in Hs as (v & <- & Hv). apply sort_In in Hv. apply (v_uniq _ _ _ (history_inv _ _ _ Hh) n y Ey) in Hv as (a & Ha & Ev). eauto.
  Qed.
  Lemma plain_document (h : heap) d it extra extra_fields relation : history true h d -> Permutation it (insts d) -> one_line relation ->
    plain_dataset show h d -> cats d ++ nums d <> [] ->
    (forall n, In n (map fst extra) -> plain_name n /\ ~ In n (cats d ++ nums d)) -> NoDup (map fst extra) ->
    (forall n vs v, In (n, Nominal vs) extra -> In v vs -> plain_category (field_value v)) ->
    (forall a, In a it -> length (extra_fields a) = length extra /\ forall f, In f (extra_fields a) -> plain_field f) ->
    plain (document_of show leb extra extra_fields relation h d it).
  Proof.
    intros Hh Hit Hr Hp Hne Hx Hxn Hc Hf. pose proof (history_inv _ _ _ Hh) as Hi. constructor.
    - exact Hr.
    - cbn [document_of attributes]. unfold own_attributes. intros X. apply app_eq_nil in X as [X _]. apply app_eq_nil in X as [X1 X2].
      apply map_eq_nil in X1, X2. apply Hne. rewrite X1, X2. reflexivity.
    - rewrite names_document, app_assoc. destruct (v_fresh _ _ _ Hi eq_refl) as [Hn _].
      clear - Hn Hx Hxn. induction (cats d ++ nums d) as [|m l IH]; auto. cbn [app]. apply names_NoDup_cons in Hn as [Hm Hn]. constructor.
      + rewrite in_app_iff. intros [X|X]; auto. apply Hx in X. cbn in X. tauto.
      + apply IH; auto. intros n X. apply Hx in X. cbn in X. tauto.
    - intros n. rewrite names_document, app_assoc, in_app_iff. intros [X|X]; [apply (d_names _ _ _ Hp); auto|apply Hx; auto].
    - intros n vs v. cbn [document_of attributes]. rewrite in_app_iff. intros [X|X]; [|eauto]. unfold own_attributes in X. rewrite in_app_iff, !in_map_iff in X.
      destruct X as [(m & X & Hm)|(m & X & _)]; [|discriminate]. injection X as <- <-. intros Hv. apply in_map_iff in Hv as (s & <- & Hs).
      apply (unique_text_value h) in Hs as (a & w & Ha & Ew & ->); auto. cbn [field_value]. destruct (d_categories _ _ _ Hp a m w Ha Hm Ew) as (P1 & P2 & P3). split; auto.
    - cbn [document_of rows attributes]. intros r Hrr. apply in_map_iff in Hrr as (a & <- & Ha). destruct (Hf a Ha) as [El Hfa].
      assert (Ha' : In a (insts d)) by (eapply Permutation_in; eauto).
      assert (Q1 : forall n, In n (cats d) -> plain_value (value_text show h a n)).
      { intros n Hn. destruct (own_value h d a n Hh Ha') as [v Ev]; [apply in_app_iff; auto|]. unfold value_text. rewrite Ev. eapply (d_categories _ _ _ Hp); eauto. }
      assert (Q2 : forall n, In n (nums d) -> plain_number (value_text show h a n)).
      { intros n Hn. destruct (own_value h d a n Hh Ha') as [v Ev]; [apply in_app_iff; auto|]. unfold value_text. rewrite Ev. eapply (d_numbers _ _ _ Hp); eauto. }
      cbn [plain_row]. split; [|split; [|split]].
      + unfold row_fields, own_attributes. rewrite !app_length, !map_length. lia.
      + intros f. rewrite in_app_iff. intros [X|X]; [|auto]. unfold row_fields in X. rewrite in_app_iff, !in_map_iff in X.
        destruct X as [(n & <- & Hn)|(n & <- & Hn)]; cbn [plain_field]; [apply Q1 in Hn; unfold plain_value in Hn; tauto|apply Q2 in Hn; unfold plain_number in Hn; tauto].
      + unfold row_fields. destruct (cats d) as [|c cs]; [|discriminate]. cbn [map app]. destruct (nums d) as [|m ns]; [cbn in Hne; congruence|].
        cbn [map app]. intros X. injection X as X _. destruct (Q2 m) as (_ & _ & _ & Y & _); [cbn; auto|]. auto.
      + unfold row_fields. destruct (cats d) as [|c cs]; [|discriminate]. cbn [map app]. destruct (nums d) as [|m ns]; [cbn in Hne; congruence|].
        cbn [map app]. intros s fs' X. injection X as X _. destruct (Q2 m) as (_ & _ & _ & _ & Y); [cbn; auto|]. eapply Y; eauto.
  Qed.
End E.

(*P C105 Reading and writing ARFF files *)
(** The text of an exported dataset: the attributes, then a line per instance
    in the order of the iteration. *)
Lemma C105_text : forall (I V T : Type) (EI : Eq I) (EV : Eq V) (show : V -> string) (leb : V -> V -> bool) (h : heap I V T) (d : dataset V) it relation,
  history true h d -> Permutation it (insts d) ->
  export_to_arff show leb relation h d it = Ok (text_of (document_of show leb [] (fun _ => []) relation h d it)).
Proof.
  intros I V T EI EV show leb h d it relation Hh Hit. apply export_document; auto.
Qed.

(*P C105 Reading and writing ARFF files *)
(** Reading the text of a dataset with plain names and values gives the same
    attributes and one instance per instance, with the values as text. *)
Lemma C105_round_trip : forall (I V T : Type) (EI : Eq I) (EV : Eq V) (show : V -> string) (leb : V -> V -> bool) (h : heap I V T) (d : dataset V) it relation,
  history true h d -> Permutation it (insts d) -> one_line relation -> plain_dataset show h d -> cats d ++ nums d <> [] ->
  exists text h' d', export_to_arff show leb relation h d it = Ok text /\ create_from_arff text = Ok (h', d') /\
    cats d' = cats d /\ nums d' = nums d /\ insts d' = seq 0 (length it) /\ length h' = length it /\ history true h' d' /\
    forall i a, nth_error it i = Some a -> exists x, nth_error h' i = Some x /\ iid x = i /\
      forall n, dict_get n (feats x) = option_map (fun v => Text (show v)) (value h a n).
Proof.
  intros I V T EI EV show leb h d it relation Hh Hit Hr Hp Hne. rewrite (C105_text I V T EI EV) by auto. set (doc := document_of show leb [] (fun _ => []) relation h d it).
  assert (Hpl : plain doc).
  { apply plain_document; auto; try (cbn; tauto). constructor. }
  destruct (C105_documents doc Hpl) as (h' & d' & E & R). exists (text_of doc), h', d'.
  split; auto. split; auto. destruct (nominal_document show leb d) as [E1 E2].
  assert (Ea : attributes doc = own_attributes show leb d) by (unfold doc; cbn [document_of attributes]; apply app_nil_r).
  assert (Er : length (rows doc) = length it) by (unfold doc; cbn [document_of rows]; apply map_length).
  split; [rewrite (r_cats _ _ _ R), Ea; auto|]. split; [rewrite (r_nums _ _ _ R), Ea; auto|].
  split; [rewrite (r_insts _ _ _ R), Er; auto|]. split; [rewrite (r_length _ _ _ R); auto|]. split; [apply R|].
  intros i a Ei. destruct (r_rows _ _ _ R i (Dense (row_fields show h d a))) as (x & Ex & Hid & F1 & F2).
  { unfold doc. cbn [document_of rows]. rewrite nth_error_map, Ei. cbn [option_map]. rewrite app_nil_r. reflexivity. }
  exists x. split; auto. split; auto. intros n.
  assert (Hn : names_of doc = cats d ++ nums d) by (unfold doc; rewrite names_document; cbn [map]; rewrite app_nil_r; reflexivity).
  assert (Ha : In a (insts d)) by (eapply Permutation_in; eauto; eapply nth_error_In; eauto).
  destruct (in_dec string_dec n (cats d ++ nums d)) as [Hin|Hin].
  - destruct (own_value h d a n Hh Ha Hin) as [v Ev]. rewrite Ev. cbn [option_map]. apply In_nth_error in Hin as [k Ek].
    rewrite (F1 k n) by (rewrite Hn; auto). cbn [cell]. unfold row_fields.
    assert (Ef : nth_error (map (fun n => Quoted (value_text show h a n)) (cats d) ++ map (fun n => Bare (value_text show h a n)) (nums d)) k =
      Some (if k <? length (cats d) then Quoted (value_text show h a n) else Bare (value_text show h a n))).
    { destruct (Nat.ltb_spec k (length (cats d))).
      - rewrite nth_error_app1 in Ek |- * by (rewrite ?map_length; auto). rewrite nth_error_map, Ek. reflexivity.
      - rewrite nth_error_app2 in Ek |- * by (rewrite ?map_length; auto). rewrite map_length, nth_error_map, Ek. reflexivity. }
    rewrite Ef. cbn [option_map]. unfold value_text. rewrite Ev. destruct (k <? length (cats d)); reflexivity.
  - rewrite F2 by (rewrite Hn; auto). symmetry. apply history_inv in Hh. destruct (v_valid _ _ _ Hh a Ha) as [y Ey]. unfold value. rewrite Ey.
    rewrite (proj2 (dict_get_None (feats y) n)); [reflexivity|]. intros X. apply (v_feats _ _ _ Hh a y) in X; [|split; auto].
    apply dict_get_key in X as [w Ew]. apply (v_lists _ _ _ Hh) in Ew. apply Hin. apply in_app_iff. destruct (akind w); auto.
Qed.

Lemma read_attributes_spaces atts : (exists a, In a atts /\ (In " "%char (chars (fst a)) \/ In " "%char (chars (domain_text (snd a))))) ->
  forall st rest, started st = false -> foldM read_line (map attribute_text atts ++ rest) st = Err ValueError.
Proof.
  induction atts as [|a atts IH]; intros (a0 & Ha0 & Hs) st rest Es; [destruct Ha0|].
  cbn [map app foldM].
  assert (Hdec : forall s, In " "%char (chars s) \/ ~ In " "%char (chars s)) by (intros s; destruct (in_dec ascii_dec " "%char (chars s)); auto).
  destruct (Hdec (fst a)) as [H1|H1]; [rewrite read_attribute_spaces by auto; reflexivity|].
  destruct (Hdec (domain_text (snd a))) as [H2|H2]; [rewrite read_attribute_spaces by auto; reflexivity|].
  assert (Hst : exists st', read_line st (attribute_text a) = Ok st' /\ started st' = false).
  { unfold read_line. rewrite Es, attribute_text_prefix. cbn [andb]. rewrite attribute_text_eq, split_cons by (intros X; cbn in X; decompose [or False] X; discriminate).
    rewrite split_cons by (apply lacks_quotes; [discriminate|auto]). rewrite split_lacks by auto. cbv zeta.
    destruct a as [n [vs|]].
    - rewrite (proj2 (prefix_brace _)) by (cbn [snd domain_text append]; eauto). eexists. split; reflexivity.
    - eexists. split; reflexivity. }
  destruct Hst as (st' & E & Es'). rewrite E. cbn [bind]. apply IH; auto. destruct Ha0 as [<-|Ha0]; [tauto|]. exists a0. auto.
Qed.
Lemma not_lacks c s : ~ lacks c s -> In c (chars s).
Proof. unfold lacks. destruct (in_dec ascii_dec c (chars s)); tauto. Qed.
Lemma In_concat_chars c sep l x : In x l -> In c (chars x) -> In c (chars (String.concat sep l)).
Proof.
  induction l as [|y l IH]; [intros []|]. intros Hx Hc. destruct l as [|z l].
  - destruct Hx as [<-|[]]. exact Hc.
  - change (String.concat sep (y :: z :: l)) with (y ++ sep ++ String.concat sep (z :: l))%string. rewrite !chars_app, !in_app_iff.
    destruct Hx as [<-|Hx]; auto.
Qed.
(*P C105 Reading and writing ARFF files *)
(** A blank in the name of an attribute or in a categorical value: the exported
    text cannot be read. *)
Lemma C105_blanks : forall (I V T : Type) (EI : Eq I) (EV : Eq V) (show : V -> string) (leb : V -> V -> bool) (h : heap I V T) (d : dataset V) it relation,
  history true h d -> Permutation it (insts d) -> one_line relation -> unbroken show h d ->
  (exists n, In n (cats d ++ nums d) /\ ~ lacks " " n) \/
  (exists a n v, In a (insts d) /\ In n (cats d) /\ value h a n = Some v /\ ~ lacks " " (show v)) ->
  exists text, export_to_arff show leb relation h d it = Ok text /\ create_from_arff text = Err ValueError.
Proof.
  intros I V T EI EV show leb h d it relation Hh Hit Hr Hu Hb. rewrite (C105_text I V T EI EV) by auto. eexists. split; [reflexivity|].
  set (doc := document_of show leb [] (fun _ => []) relation h d it).
  assert (Ea : attributes doc = own_attributes show leb d) by (unfold doc; cbn [document_of attributes]; apply app_nil_r).
  assert (Hl : forall l, In l (lines_of doc) -> one_line l).
  { intros l. unfold lines_of. cbn [In]. rewrite in_app_iff. cbn [In]. intros [<-|[<-|[Hl|[<-|[<-|Hl]]]]]; try apply one_line_nil.
    - rewrite one_line_app, one_line_quotes. split; [|exact Hr]. intros c Hc. cbn in Hc. decompose [or False] Hc; subst; ascii_line.
    - apply in_map_iff in Hl as (a & <- & Ha). rewrite Ea in Ha. unfold own_attributes in Ha. rewrite in_app_iff, !in_map_iff in Ha.
      destruct Ha as [(n & <- & Hn)|(n & <- & Hn)]; (apply attribute_one_line; [apply (u_names _ _ _ Hu); apply in_app_iff; solve [auto]|]).
      + apply domain_one_line. cbn [snd]. intros vs v E Hv. injection E as <-. apply in_map_iff in Hv as (s & <- & Hs). cbn [field_value].
        apply (unique_text_value show leb h) in Hs as (a & w & Hai & Ew & ->); auto. eapply (u_values _ _ _ Hu); eauto.
      + apply domain_one_line. discriminate.
    - intros c Hc. cbn in Hc. decompose [or False] Hc; subst; ascii_line.
    - apply in_map_iff in Hl as (r & <- & Hrr). unfold doc in Hrr. cbn [document_of rows] in Hrr. apply in_map_iff in Hrr as (a & <- & Ha).
      assert (Ha' : In a (insts d)) by (eapply Permutation_in; eauto).
      cbn [row_text]. apply one_line_concat; [apply one_line_cons; split; [ascii_line|apply one_line_nil]|]. intros x Hx. apply in_map_iff in Hx as (f & <- & Hf).
      rewrite app_nil_r in Hf. unfold row_fields in Hf. rewrite in_app_iff, !in_map_iff in Hf.
      destruct Hf as [(n & <- & Hn)|(n & <- & Hn)]; cbn [field_text]; rewrite ?one_line_quotes;
        (destruct (own_value h d a n Hh Ha') as [v Ev]; [apply in_app_iff; auto|]); unfold value_text; rewrite Ev; eapply (u_values _ _ _ Hu); eauto. }
  rewrite create_eq. unfold text_of.
  assert (Hlast : exists ls l, lines_of doc = (("@RELATION " ++ in_quotes (ArffSpec.relation doc))%string :: "" :: map attribute_text (attributes doc) ++ ls) ++ [l]).
  { unfold lines_of. destruct (exists_last (l := "" :: "@DATA" :: map row_text (rows doc))) as (ls & l & E); [discriminate|]. exists ls, l. rewrite E.
    cbn [app]. rewrite <- app_assoc. reflexivity. }
  destruct Hlast as (ls & l & E). rewrite E in *. rewrite splitlines_concat by auto. cbn [app]. rewrite <- app_assoc. cbn [foldM].
  rewrite read_relation by reflexivity. cbn [bind]. rewrite read_blank. cbn [bind]. rewrite read_attributes_spaces; [reflexivity| |reflexivity].
  rewrite Ea. unfold own_attributes. destruct Hb as [(n & Hn & Hs)|(a & n & v & Ha & Hn & Ev & Hs)].
  - apply not_lacks in Hs. rewrite in_app_iff in Hn. destruct Hn as [Hn|Hn].
    + eexists. split; [apply in_app_iff; left; apply in_map_iff; exists n; split; [reflexivity|auto]|]. cbn [fst]. auto.
    + eexists. split; [apply in_app_iff; right; apply in_map_iff; exists n; split; [reflexivity|auto]|]. cbn [fst]. auto.
  - apply not_lacks in Hs. eexists. split; [apply in_app_iff; left; apply in_map_iff; exists n; split; [reflexivity|auto]|]. cbn [fst snd domain_text]. right.
    rewrite !chars_app, !in_app_iff. right. left. apply (In_concat_chars _ _ _ (in_quotes (show v))).
    + apply in_map_iff. exists (Quoted (show v)). split; [reflexivity|]. apply in_map. unfold unique_texts.
      destruct (own_attribute h d n Hh) as [y Ey]; [apply in_app_iff; auto|]. rewrite (attr_uniques _ _ _ Ey). apply in_map. apply sort_In.
      apply (v_uniq _ _ _ (history_inv _ _ _ Hh) n y Ey). eauto.
    + unfold in_quotes. cbn [chars list_ascii_of_string In]. right. change (In " "%char (chars (show v ++ String dq ""))). rewrite chars_app, in_app_iff. auto.
Qed.
(*P C105 Reading and writing ARFF files *)
(** A dataset without attributes comes back without its instances. *)
Lemma C105_no_attributes : forall (I V T : Type) (EI : Eq I) (EV : Eq V) (show : V -> string) (leb : V -> V -> bool) (h : heap I V T) (d : dataset V) it relation,
  history true h d -> Permutation it (insts d) -> one_line relation -> cats d = [] -> nums d = [] ->
  exists text, export_to_arff show leb relation h d it = Ok text /\ create_from_arff text = Ok ([], new [] []).
Proof.
  intros I V T EI EV show leb h d it relation Hh Hit Hr Ec En. rewrite (C105_text I V T EI EV) by auto. eexists. split; [reflexivity|].
  rewrite create_eq. unfold text_of, lines_of, document_of, own_attributes, row_fields. cbn [attributes rows ArffSpec.relation]. rewrite Ec, En. cbn [map app].
  rewrite map_map, (map_ext _ (fun _ => "")) by reflexivity.
  assert (G : forall l, exists m, map (fun _ : nat => "") l = repeat "" m) by (intros l; exists (length l); induction l; cbn; f_equal; auto).
  destruct (G it) as [m ->]. set (head := [("@RELATION " ++ in_quotes relation)%string; ""; ""]).
  assert (Hh1 : forall l, In l head -> one_line l).
  { intros l [<-|[<-|[<-|[]]]]; try apply one_line_nil. rewrite one_line_app, one_line_quotes. split; [|exact Hr]. intros c Hc. cbn in Hc. decompose [or False] Hc; subst; ascii_line. }
  assert (Hl : exists k, splitlines (String.concat lf (head ++ "@DATA" :: repeat "" m)) = head ++ "@DATA" :: repeat "" k).
  { destruct m as [|m].
    - exists 0. cbn [repeat]. rewrite splitlines_concat; [reflexivity|]. intros x Hx. apply in_app_iff in Hx as [Hx|[<-|[]]]; auto.
      intros c Hc. cbn in Hc. decompose [or False] Hc; subst; ascii_line.
    - exists m. replace (repeat "" (S m)) with (repeat "" m ++ [""]) by (symmetry; apply repeat_cons).
      change ("@DATA" :: repeat "" m ++ [""]) with (("@DATA" :: repeat "" m) ++ [""]). rewrite app_assoc, splitlines_concat.
      + cbn [full negb]. unfold full. rewrite eqb_refl. cbn [negb]. rewrite app_nil_r. reflexivity.
      + intros x Hx. rewrite !in_app_iff in Hx. cbn [In] in Hx. destruct Hx as [[Hx|[<-|Hx]]|[<-|[]]]; auto; try apply one_line_nil.
        * intros c Hc. cbn in Hc. decompose [or False] Hc; subst; ascii_line.
        * apply repeat_spec in Hx. subst. apply one_line_nil. }
  destruct Hl as [k Ek]. change (String.concat lf (("@RELATION " ++ in_quotes relation)%string :: "" :: "" :: "@DATA" :: repeat "" m)) with (String.concat lf (head ++ "@DATA" :: repeat "" m)).
  rewrite Ek. unfold head. cbn [app foldM]. rewrite read_relation by reflexivity. cbn [bind]. rewrite !read_blank. cbn [bind]. rewrite read_blank. cbn [bind]. rewrite read_data by reflexivity. cbn [bind].
  assert (B : forall k st, foldM read_line (repeat "" k) st = Ok st) by (clear; induction k; intros st; cbn [repeat foldM]; [reflexivity|]; rewrite read_blank; cbn [bind]; auto).
  rewrite B. reflexivity.
Qed.
