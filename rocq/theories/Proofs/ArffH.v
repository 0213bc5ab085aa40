(** Sequences, and files that cannot be read *)
From Coq Require Import String Ascii ZArith Lia Permutation Sorted.
From Verif.Model Require Import Base Sort Dataset TargetDatasets Arff.
From Verif.Lib Require Import ListLib DictLib SortLib StrLib.
From Verif.Spec Require Import DatasetSpec TargetSpec ArffSpec.
From Verif.Proofs Require Import DatasetA TargetDatasetsA TargetDatasetsB TargetDatasetsC LogTablesB LogTablesD ArffA ArffB ArffC ArffD ArffE ArffF ArffG.
Open Scope string_scope.
Open Scope list_scope.
Open Scope nat_scope.

Lemma split_commas s : s <> [] -> (forall x, In x s -> lacks "," x) -> split_at_char "," (String.concat "," s) = s.
Proof.
  induction s as [|x s IH]; intros Hn Hx; [congruence|]. destruct s as [|y s]; [apply split_lacks; apply Hx; left; auto|].
  rewrite concat_comma_cons, split_cons by (apply Hx; left; auto). f_equal. apply IH; [discriminate|]. intros z Hz. apply Hx. right. auto.
Qed.
Definition brackets := String quotation_mark "[]".
Definition bracket_free (s : string) : Prop := lacks dq s /\ lacks "[" s /\ lacks "]" s.
Lemma strip_brackets s : bracket_free s -> strip (among brackets) ("[" ++ s ++ "]") = s.
Proof.
  intros (H1 & H2 & H3). apply (strip_around (among brackets) "[" "]"); try reflexivity.
  - intros r c E. apply among_not. unfold brackets. cbn [chars list_ascii_of_string In]. intros X. assert (Hc : In c (chars s)) by (rewrite E; left; reflexivity).
    change quotation_mark with dq in X. unfold lacks in *. destruct X as [<-|[<-|[<-|[]]]]; tauto.
  - intros r c E. apply among_not. unfold brackets. cbn [chars list_ascii_of_string In]. intros X. assert (Hc : In c (chars s)) by (rewrite E, chars_app; apply in_app_iff; right; left; reflexivity).
    change quotation_mark with dq in X. unfold lacks in *. destruct X as [<-|[<-|[<-|[]]]]; tauto.
Qed.
Lemma lacks_nil c : lacks c "".
Proof. intros []. Qed.
Lemma lacks_joined c sep l : lacks c sep -> (forall x, In x l -> lacks c x) -> lacks c (String.concat sep l).
Proof. intros Hs Hl. apply lacks_concat; auto. Qed.

Lemma sequence_start (cs ns : list string) name : NoDup ((cs ++ [name]) ++ ns) -> exists st : dataset read_value,
  remove_attribute (I := nat) (T := unit) [] (new (cs ++ [name]) (ns)) [] name = ([], st, None) /\
  sub_history (I := nat) (T := list string) [] collect [] (st, [] : list string) /\ insts st = [] /\ cats st = cs /\ nums st = ns.
Proof.
  intros Hnd. destruct (NoDup_parts _ _ Hnd) as (N1 & N2 & N3). destruct (NoDup_parts _ _ N1) as (A1 & A2 & A3).
  destruct (new_ok (V := read_value) (cs ++ [name]) (ns)) as (E1 & E2 & E3 & E4 & E5).
  set (raw := new (cs ++ [name]) (ns) : dataset read_value) in *.
  assert (Ename : dict_get name (attrs raw) = Some {| akind := Categorical; auniq := [] |}).
  { rewrite E5. rewrite (proj2 (mem_not_In name ns)) by (apply N3; apply in_app_iff; right; left; auto). rewrite (proj2 (mem_In name _)); [reflexivity|]. apply in_app_iff. right. left. auto. }
  assert (Emem : mem name (cats raw) = true) by (rewrite E2; apply mem_In; apply in_app_iff; right; left; auto).
  assert (Erem : remove_first name (cats raw) = cs).
  { rewrite E2. assert (Hn : ~ In name (cs)) by (intros X; apply (A3 name X); left; auto). clear - Hn. induction (cs) as [|m l IH]; cbn [app remove_first].
    - destruct (eqb_ok name name); [reflexivity|congruence].
    - destruct (eqb_ok name m) as [->|Hm]; [exfalso; apply Hn; left; auto|]. rewrite IH; [reflexivity|]. intros X. apply Hn. right. auto. }
  assert (R : forall T, remove_attribute (I := nat) (T := T) [] raw [] name = ([], {| insts := insts raw; attrs := dict_del name (attrs raw); cats := cs; nums := nums raw |}, None)).
  { intros T. unfold remove_attribute. rewrite Ename. cbn [akind]. rewrite Emem, Erem. reflexivity. }
  eexists. split; [apply R|]. split; [|cbn [insts cats nums]; rewrite E1, E3; auto].
  eapply sub_removed; [|rewrite E1; apply Permutation_refl|apply R]. apply new_start. exact Hnd.
Qed.

Section Q.
  Context {I V : Type} {EI : Eq I} {EV : Eq V}.
  Variable show : V -> string.
  Variable leb : V -> V -> bool.
  Lemma sequences_general (h : heap I V (list string)) d symbols it name separator relation order :
    sub_history [] collect h (d, symbols) -> Permutation it (insts d) -> one_line relation -> plain_dataset show h d -> cats d ++ nums d <> [] ->
    plain_name name -> ~ In name (cats d ++ nums d) -> plain_value separator -> bracket_free separator ->
    (forall s, In s symbols -> plain_value s /\ bracket_free s) -> (forall l, Permutation (order l) l) ->
    exists text h2 D2, sequence_export show leb name separator relation h (d, symbols) it = Ok text /\ sequence_create order name text = Ok (h2, D2) /\
      sub_history [] collect h2 D2 /\ restored show (fun t t2 => (forall s, In s t -> In s symbols) /\ t2 = split_at_char "," (String.concat separator t)) h d it h2 (fst D2).
  Proof.
    intros Hs Hit Hr Hp Hne Hn1 Hn2 Hsep1 Hsep2 Hsym Hord. destruct (C85_labels _ _ _ _ _ _ _ _ _ Hs) as [_ Hls]. destruct (sub_history_ok _ _ _ _ Hs) as [Hh _]. cbn [fst] in Hh. clear Hs. pose proof (history_inv _ _ _ Hh) as Hinv.
    destruct (C86_unique_sequences _ _ _ _ _ _ _ _ _ Hh Hit) as (u & Eu & _ & Hu).
    unfold sequence_export. rewrite Eu. cbn [bind fst]. set (S := map (sequence_text separator) (stable_sort tuple_leb u)).
    assert (Hseq : forall t a x, member h d a x -> target x = t -> forall s, In s t -> In s symbols) by (intros t a x Hm <- s Hs; apply Hls; eauto).
    assert (Hfree : forall t, (forall s, In s t -> In s symbols) -> plain_value (sequence_text separator t) /\ bracket_free (String.concat separator t)).
    { intros t Ht. destruct Hsep1 as (P1 & P2 & P3), Hsep2 as (_ & P4 & P5). split.
      - unfold sequence_text. split; [|split].
        + rewrite !one_line_app. split; [|split]; try short_line. apply one_line_concat; auto. intros s Hs. apply Hsym. auto.
        + rewrite !lacks_app. split; [|split]; try short_line. apply lacks_joined; auto. intros s Hs. apply Hsym. auto.
        + rewrite !lacks_app. split; [|split]; try short_line. apply lacks_joined; auto. intros s Hs. apply Hsym. auto.
      - split; [|split]; apply lacks_joined; auto; intros s Hs; apply Hsym; auto. }
    set (ef := fun a => [Quoted (sequence_text separator (match nth_error h a with Some x => target x | None => [] end))]).
    destruct (written show leb h d it (attribute_line name (category S)) (fun x => "," ++ quote (sequence_text separator (target x)))%string
       [(name, Nominal (map Quoted S))] ef relation) as (text & h' & d' & E1 & E2 & E3 & _ & E4 & E5 & E6 & E7); auto.
    - cbn [map String.concat]. rewrite category_text. reflexivity.
    - intros a x _ Ex. unfold ef. rewrite Ex. reflexivity.
    - cbn [map fst]. intros n [<-|[]]. auto.
    - repeat constructor. cbn. tauto.
    - intros n vs v [Y|[]] Hv. assert (Evs : vs = map Quoted S) by congruence. subst vs. apply in_map_iff in Hv as (l & <- & Hl).
      unfold S in Hl. apply in_map_iff in Hl as (t & <- & Ht). apply sort_In in Ht. apply Hu in Ht as (a & x & Hm & Et).
      destruct (Hfree t) as [(L1 & L2 & L3) _]; [eapply Hseq; eauto|]. split; auto.
    - intros a Ha. split; [reflexivity|]. unfold ef. intros f [<-|[]]. assert (Ha' : In a (insts d)) by (eapply Permutation_in; eauto).
      destruct (v_valid _ _ _ Hinv a Ha') as [x Ex]. rewrite Ex. destruct (Hfree (target x)) as [(L1 & L2 & L3) _]; [apply (Hseq _ a x); [split|]; auto|]. split; auto.
    - exists text. unfold sequence_create. rewrite E2. cbn [bind fst snd]. cbn [map fst filter is_nominal negb] in E4, E5. cbn in E4, E5. rewrite app_nil_r in E5. rewrite E4, E5.
      assert (Hraw : NoDup (cats d' ++ nums d')) by (eapply raw_names_NoDup; eauto). rewrite E4, E5 in Hraw.
      destruct (sequence_start (cats d) (nums d) name Hraw) as (st & Est & Hst & Hsi & Hsc & Hsn). rewrite Est.
      match goal with |- exists h2 D2, _ /\ convert _ _ ?m _ _ _ = _ /\ _ => set (make := m) end.
      match goal with |- exists h2 D2, _ /\ _ /\ _ /\ restored _ ?s _ _ _ _ _ => set (same := s) end.
      destruct (restore (T := list string) show [] collect make same h d it h' st (order (insts d'))) as (h2 & D2 & F1 & F2 & F3); auto.
      { rewrite Hsc. apply Permutation_refl. } { rewrite Hsn. apply Permutation_refl. } { rewrite <- E6. apply Hord. }
      { intros i a x Ea Ex. assert (Ha : In a (insts d)) by (eapply Permutation_in; eauto; eapply nth_error_In; eauto).
        destruct (E7 i a Ea) as (y & Ey & Eid & G1 & G2). exists y, (dict_del name (feats y)), (split_at_char "," (String.concat separator (target x))).
        assert (Hny : NoDup (keys (feats y))) by (apply (v_proper _ _ _ (history_inv _ _ _ E3) i y Ey)).
        assert (Htx : forall s, In s (target x) -> In s symbols) by (apply (Hseq _ a x); [split|]; auto).
        split; auto. split; auto. split.
        { unfold make. rewrite (G2 0 name eq_refl). unfold ef. rewrite Ex. cbn [nth_error option_map of_option bind field_value]. f_equal. f_equal. f_equal.
          unfold sequence_text. apply strip_brackets. apply Hfree. auto. }
        split; [apply keys_dict_del_NoDup; auto|]. split; [|split; auto].
        intros n. rewrite dict_get_del by auto. destruct (eqb_ok n name) as [->|Hn].
        - symmetry. unfold value. rewrite Ex. rewrite (proj2 (dict_get_None _ _)); [reflexivity|]. intros Y.
          apply (v_feats _ _ _ Hinv a x) in Y; [|split; auto]. apply (names_keys _ _ Hinv) in Y. tauto.
        - rewrite G1 by (cbn; intros [Z|[]]; congruence). reflexivity. }
      exists h2, D2. auto.
  Qed.
End Q.
Lemma restored_weaken {I V T T2 : Type} {EI : Eq I} {EV : Eq V} (show : V -> string) (R1 R2 : T -> T2 -> Prop) (h : heap I V T) d it h2 (d2 : dataset read_value) :
  (forall t t2, R1 t t2 -> R2 t t2) -> restored show R1 h d it h2 d2 -> restored show R2 h d it h2 d2.
Proof.
  intros Hr [A B C D]. constructor; auto. intros i a x Ea Ex. destruct (D i a x Ea Ex) as (b & x2 & Hm & Hi & Hf & Hs). exists b, x2. auto.
Qed.

(*P C106 Files of datasets with a target *)
(** A TargetSequenceDataset written with the separator [,] is read back with
    the same features (as text) and the same sequences, except that the empty
    sequence becomes the sequence of one empty symbol. *)
Lemma C106_sequences : forall (I V : Type) (EI : Eq I) (EV : Eq V) (show : V -> string) (leb : V -> V -> bool) (h : heap I V (list string)) d symbols it name relation order,
  sub_history [] collect h (d, symbols) -> Permutation it (insts d) -> one_line relation -> plain_dataset show h d -> cats d ++ nums d <> [] ->
  plain_name name -> ~ In name (cats d ++ nums d) ->
  (forall s, In s symbols -> plain_value s /\ lacks "[" s /\ lacks "]" s /\ lacks "," s) -> (forall l, Permutation (order l) l) ->
  exists text h2 D2, sequence_export show leb name "," relation h (d, symbols) it = Ok text /\ sequence_create order name text = Ok (h2, D2) /\
    sub_history [] collect h2 D2 /\
    restored show (fun t t2 => t2 = match t with [] => [""] | _ => t end) h d it h2 (fst D2).
Proof.
  intros I V EI EV show leb h d symbols it name relation order Hs Hit Hr Hp Hne Hn1 Hn2 Hsym Hord.
  destruct (sequences_general show leb h d symbols it name "," relation order) as (text & h2 & D2 & E1 & E2 & E3 & E4); auto.
  - repeat split; short_line.
  - repeat split; short_line.
  - intros s Hsy. destruct (Hsym s Hsy) as ((A & B & C) & D & E & F). repeat split; auto.
  - exists text, h2, D2. split; auto. split; auto. split; auto. eapply restored_weaken; [|exact E4]. intros t t2 [Ht ->].
    destruct t as [|x t]; [reflexivity|]. apply split_commas; [discriminate|]. intros s Hi. apply Hsym. auto.
Qed.
(*P C106 Files of datasets with a target *)
(** With a separator that has no comma, such as the default [;], every
    sequence is read as one symbol: the symbols joined by the separator. *)
Lemma C106_other_separator : forall (I V : Type) (EI : Eq I) (EV : Eq V) (show : V -> string) (leb : V -> V -> bool) (h : heap I V (list string)) d symbols it name separator relation order,
  sub_history [] collect h (d, symbols) -> Permutation it (insts d) -> one_line relation -> plain_dataset show h d -> cats d ++ nums d <> [] ->
  plain_name name -> ~ In name (cats d ++ nums d) ->
  (forall s, In s (separator :: symbols) -> plain_value s /\ lacks "[" s /\ lacks "]" s /\ lacks "," s) -> (forall l, Permutation (order l) l) ->
  exists text h2 D2, sequence_export show leb name separator relation h (d, symbols) it = Ok text /\ sequence_create order name text = Ok (h2, D2) /\
    sub_history [] collect h2 D2 /\
    restored show (fun t t2 => t2 = [String.concat separator t]) h d it h2 (fst D2).
Proof.
  intros I V EI EV show leb h d symbols it name separator relation order Hs Hit Hr Hp Hne Hn1 Hn2 Hsym Hord.
  destruct (sequences_general show leb h d symbols it name separator relation order) as (text & h2 & D2 & E1 & E2 & E3 & E4); auto.
  - apply Hsym. left. auto.
  - destruct (Hsym separator) as ((A & B & C) & D & E & F); [left; auto|]. repeat split; auto.
  - intros s Hsy. destruct (Hsym s) as ((A & B & C) & D & E & F); [right; auto|]. repeat split; auto.
  - exists text, h2, D2. split; auto. split; auto. split; auto. eapply restored_weaken; [|exact E4]. intros t t2 [Ht ->].
    apply split_lacks. apply lacks_joined; [apply Hsym; left; auto|]. intros s Hi. apply Hsym. right. auto.
Qed.

(** ** rows with more fields than there are attributes *)
Lemma name_fields_long : forall fields names d, length names < length fields -> name_fields names fields d = Err IndexError.
Proof.
  induction fields as [|f fields IH]; intros names d El; cbn in El; [lia|]. destruct names as [|n names]; [reflexivity|]. cbn [name_fields]. apply IH. cbn in El. lia.
Qed.
Lemma dense_one_line fs : (forall f, In f fs -> plain_field f) -> one_line (row_text (Dense fs)).
Proof.
  intros Hf. cbn [row_text]. apply one_line_concat; [short_line|]. intros x Hx. apply in_map_iff in Hx as (f & <- & Hin).
  apply Hf in Hin. destruct f; cbn in *; [apply one_line_quotes; tauto|tauto].
Qed.
Lemma too_wide doc fs rs : plain_header doc -> one_line (relation doc) -> rows doc = Dense fs :: rs ->
  (forall r, In r rs -> one_line (row_text r)) -> (forall f, In f fs -> plain_field f) -> fs <> [] -> fs <> [Bare ""] ->
  (forall s fs', fs <> Bare (String "{" s) :: fs') -> length (attributes doc) < length fs ->
  create_from_arff (text_of doc) = Err IndexError.
Proof.
  intros Hh Hr Erows Hrs Hf Hn1 Hn2 Hb Hl. rewrite create_eq. unfold text_of.
  assert (Hne : row_text (Dense fs) <> "") by (cbn [row_text]; intros X; apply row_text_empty in X; tauto).
  assert (Hlines : forall l, In l (lines_of doc) -> one_line l).
  { apply header_lines; auto. rewrite Erows. intros r [<-|Hin]; auto. apply dense_one_line. auto. }
  set (head := ("@RELATION " ++ in_quotes (relation doc))%string :: "" :: map attribute_text (attributes doc) ++ [""; "@DATA"]).
  assert (El : lines_of doc = head ++ row_text (Dense fs) :: map row_text rs) by (unfold lines_of, head; rewrite Erows; cbn [map app]; rewrite <- app_assoc; reflexivity).
  assert (Hsp : exists rest, splitlines (String.concat lf (lines_of doc)) = head ++ row_text (Dense fs) :: rest).
  { destruct rs as [|r0 rs0].
    - exists []. rewrite El in *. cbn [map] in *. rewrite splitlines_concat by auto. unfold full. rewrite (proj2 (eqb_neq _ "") Hne). reflexivity.
    - destruct (exists_last (l := r0 :: rs0)) as (rs' & r & E); [discriminate|]. rewrite E, map_app in El. cbn [map] in El.
      change (row_text (Dense fs) :: map row_text rs' ++ [row_text r]) with ((row_text (Dense fs) :: map row_text rs') ++ [row_text r]) in El. rewrite app_assoc in El. rewrite El in *.
      rewrite splitlines_concat by auto. rewrite <- app_assoc. cbn [app]. eauto. }
  destruct Hsp as [rest ->]. unfold head. rewrite foldM_app, read_header by auto. cbn [bind foldM]. unfold read_line at 1. cbn [started].
  rewrite (proj2 (eqb_neq _ "") Hne). cbn [andb negb all_names].
  unfold parse_instance. destruct (String.prefix "{" (row_text (Dense fs))) eqn:Ep.
  - apply prefix_brace in Ep as [r Er]. apply row_text_brace in Er as (r' & fs' & ->). exfalso. eapply Hb; eauto.
  - cbn [row_text]. rewrite csv_row_dense by auto. rewrite name_fields_long; [reflexivity|]. unfold names_of. rewrite !map_length. auto.
Qed.
Section W.
  Context {I V T : Type} {EI : Eq I} {EV : Eq V}.
  Variable show : V -> string.
  Variable leb : V -> V -> bool.
  Notation heap := (heap I V T).
  Lemma wide_document (h : heap) d it extra extra_fields relation fields0 : history true h d -> Permutation it (insts d) -> it <> [] -> one_line relation -> plain_dataset show h d ->
    (forall n, In n (map fst extra) -> plain_name n) ->
    (forall n vs v, In (n, Nominal vs) extra -> In v vs -> plain_category (field_value v)) ->
    (forall a, In a it -> length extra < length (fields0 ++ extra_fields a) /\ forall f, In f (fields0 ++ extra_fields a) -> plain_field f) ->
    fields0 <> [] /\ cats d ++ nums d = [] \/ fields0 = [] /\ cats d ++ nums d <> [] ->
    (forall s fs', fields0 <> Bare (String "{" s) :: fs') ->
    (forall a, In a it -> length (fields0 ++ extra_fields a) <> 1 \/ cats d ++ nums d <> []) ->
    create_from_arff (text_of (document_of show leb extra (fun a => fields0 ++ extra_fields a) relation h d it)) = Err IndexError.
  Proof.
    intros Hh Hit Hne Hr Hp Hx Hc Hf Hcase Hb Hlen. pose proof (history_inv _ _ _ Hh) as Hi.
    set (doc := document_of show leb extra (fun a => fields0 ++ extra_fields a) relation h d it).
    assert (Hown : forall a, In a it -> forall f, In f (row_fields show h d a) -> plain_field f).
    { intros a Ha f Hin. assert (Ha' : In a (insts d)) by (eapply Permutation_in; eauto). unfold row_fields in Hin. apply in_app_iff in Hin as [Hin|Hin]; apply in_map_iff in Hin as (n & <- & Hn).
      - destruct (own_value h d a n Hh Ha') as [v Ev]; [apply in_app_iff; auto|]. unfold value_text. rewrite Ev. destruct (d_categories _ _ _ Hp a n v Ha' Hn Ev) as (A & B & C). split; auto.
      - destruct (own_value h d a n Hh Ha') as [v Ev]; [apply in_app_iff; auto|]. unfold value_text. rewrite Ev. destruct (d_numbers _ _ _ Hp a n v Ha' Hn Ev) as (A & B & C & _). split; auto. }
    assert (Hrow : forall a, In a it -> forall f, In f (row_fields show h d a ++ fields0 ++ extra_fields a) -> plain_field f).
    { intros a Ha f Hin. apply in_app_iff in Hin as [Hin|Hin]; [apply (Hown a Ha); auto|apply (Hf a Ha); auto]. }
    destruct it as [|a it]; [congruence|]. clear Hne.
    assert (Ew : length (row_fields show h d a) = length (cats d ++ nums d)) by (unfold row_fields; rewrite !app_length, !map_length; auto).
    eapply (too_wide doc (row_fields show h d a ++ fields0 ++ extra_fields a) (map (fun a => Dense (row_fields show h d a ++ fields0 ++ extra_fields a)) it)).
    - split.
      + unfold doc. rewrite names_document. intros n Hn. rewrite app_assoc in Hn. apply in_app_iff in Hn as [Hn|Hn]; [apply (d_names _ _ _ Hp); auto|auto].
      + unfold doc. cbn [document_of attributes]. intros n vs v Hin Hv. apply in_app_iff in Hin as [Hin|Hin]; [|eapply Hc; eauto].
        unfold own_attributes in Hin. apply in_app_iff in Hin as [Hin|Hin]; apply in_map_iff in Hin as (m & Y & Hm); [|congruence].
        assert (Em : m = n) by congruence. assert (Evs : vs = map Quoted (unique_texts show leb d m)) by congruence. subst m vs.
        apply in_map_iff in Hv as (s & <- & Hs). destruct (unique_text_value show leb h d n s Hh Hs) as (b & v0 & Hb0 & Ev & ->).
        destruct (d_categories _ _ _ Hp b n v0 Hb0 Hm Ev) as (A & B & C). split; auto.
    - exact Hr.
    - reflexivity.
    - intros r Hin. apply in_map_iff in Hin as (b & <- & Hb0). apply dense_one_line. apply Hrow. right. auto.
    - apply Hrow. left. auto.
    - intros X. destruct (Hf a (or_introl eq_refl)) as [L _]. apply (f_equal (@length _)) in X. rewrite app_length in X. cbn in X. lia.
    - intros X. destruct Hcase as [[H1 H2]|[H1 H2]].
      + destruct (Hlen a (or_introl eq_refl)) as [L|L]; [|congruence]. apply (f_equal (@length _)) in X. rewrite app_length, Ew, H2 in X. cbn in X. lia.
      + subst fields0. destruct (Hf a (or_introl eq_refl)) as [L _]. apply (f_equal (@length _)) in X. rewrite app_length in X. cbn [length app] in X, L.
        assert (length (cats d ++ nums d) <> 0) by (destruct (cats d ++ nums d); [congruence|discriminate]). lia.
    - intros s fs' X. destruct Hcase as [[H1 H2]|[H1 H2]].
      + assert (Er : row_fields show h d a = []) by (apply length_zero_iff_nil; rewrite Ew, H2; reflexivity). rewrite Er in X. cbn [app] in X.
        destruct fields0 as [|f0 fields0]; [congruence|]. apply (Hb s fields0). f_equal. cbn [app] in X. congruence.
      + assert (Hin : In (Bare (String "{" s)) (row_fields show h d a)).
        { destruct (row_fields show h d a) as [|f fs0] eqn:Ef; [cbn [length] in Ew; destruct (cats d ++ nums d); [congruence|discriminate]|]. cbn [app] in X. left. congruence. }
        unfold row_fields in Hin. apply in_app_iff in Hin as [Hin|Hin]; apply in_map_iff in Hin as (n & Y & Hn); [congruence|].
        assert (Ha' : In a (insts d)) by (eapply Permutation_in; eauto; left; auto).
        destruct (own_value h d a n Hh Ha') as [v Ev]; [apply in_app_iff; auto|]. destruct (d_numbers _ _ _ Hp a n v Ha' Hn Ev) as (_ & _ & _ & _ & Z).
        unfold value_text in Y. rewrite Ev in Y. apply (Z s). congruence.
    - unfold doc. cbn [document_of attributes]. rewrite !app_length. destruct (Hf a (or_introl eq_refl)) as [L _]. rewrite app_length in L.
      assert (length (own_attributes show leb d) = length (cats d ++ nums d)) by (unfold own_attributes; rewrite !app_length, !map_length; auto). lia.
  Qed.
End W.
Section B.
  Context {I V T : Type} {EI : Eq I} {EV : Eq V}.
  Variable show : V -> string.
  Variable leb : V -> V -> bool.
  Notation heap := (heap I V T).
  Lemma no_names (h : heap) d : cats d ++ nums d = [] -> plain_dataset show h d.
  Proof.
    intros E. constructor; [rewrite E; intros n []| |]; apply app_eq_nil in E as [E1 E2]; rewrite ?E1, ?E2; intros a n v _ [].
  Qed.
  Lemma unreadable (h : heap) d it definitions line extra extra_fields relation :
    history true h d -> Permutation it (insts d) -> it <> [] -> one_line relation -> plain_dataset show h d ->
    definitions = String.concat "" (map (fun a => lf ++ attribute_text a)%string extra) ->
    (forall a x, In a it -> nth_error h a = Some x -> line x = comma_fields (extra_fields a)) ->
    (forall n, In n (map fst extra) -> plain_name n) ->
    (forall n vs v, In (n, Nominal vs) extra -> In v vs -> plain_category (field_value v)) ->
    (forall a, In a it -> extra_fields a <> [] /\ (cats d ++ nums d = [] -> length extra <= length (extra_fields a)) /\
       (cats d ++ nums d <> [] -> length extra < length (extra_fields a)) /\ forall f, In f (extra_fields a) -> plain_field f) ->
    exists text, export_with show leb definitions line relation h d it = Ok text /\ create_from_arff text = Err IndexError.
  Proof.
    intros Hh Hit Hne Hr Hp Hdef Hline Hx Hc Hf. assert (Hcase : cats d ++ nums d = [] \/ cats d ++ nums d <> []) by (destruct (cats d ++ nums d); [auto|right; discriminate]).
    destruct Hcase as [E|E].
    - exists (text_of (document_of show leb extra (fun a => [Bare ""] ++ extra_fields a) relation h d it)). split.
      + unfold export_with. rewrite (definitions_text show leb h) by auto. cbn [bind].
        rewrite (mapM_map _ (fun a => lf ++ row_text (Dense (row_fields show h d a ++ [Bare ""] ++ extra_fields a)))%string).
        * cbn [bind]. f_equal. unfold text_of, lines_of, document_of. cbn [ArffSpec.relation attributes rows]. rewrite Hdef.
          rewrite concat_lf_lines. cbn [map]. rewrite map_app, concat_cons, concat_app. cbn [map]. rewrite !concat_cons.
          rewrite !map_map, map_app, concat_app. cbn [append]. rewrite !app_str_assoc. reflexivity.
        * intros a Ha. assert (Ha' : In a (insts d)) by (eapply Permutation_in; eauto).
          destruct (v_valid _ _ _ (history_inv _ _ _ Hh) a Ha') as [x Ex]. rewrite Ex. cbn [of_option bind].
          rewrite (line_text show h d a x) by auto. cbn [bind]. rewrite (Hline a x) by auto. f_equal.
          assert (Er : row_fields show h d a = []) by (unfold row_fields; apply app_eq_nil in E as [-> ->]; reflexivity). rewrite Er.
          rewrite app_str_assoc. f_equal. change (([] : list field) ++ [Bare ""] ++ extra_fields a) with ([Bare ""] ++ extra_fields a). rewrite (row_extra [Bare ""]) by discriminate. reflexivity.
      + apply wide_document; auto.
        * intros a Ha. destruct (Hf a Ha) as (F1 & F2 & F3 & F4). specialize (F2 E). cbn [app length]. split; [lia|].
          intros f [<-|Hin]; auto. cbn. repeat split; [apply one_line_nil|apply lacks_nil|apply lacks_nil].
        * left. split; [discriminate|auto].
        * intros s fs'. discriminate.
        * intros a Ha. destruct (Hf a Ha) as (F1 & _). left. cbn [app length]. destruct (extra_fields a); [congruence|]. discriminate.
    - exists (text_of (document_of show leb extra (fun a => [] ++ extra_fields a) relation h d it)). split; [apply export_document; auto|].
      apply wide_document; auto; try discriminate. intros a Ha. destruct (Hf a Ha) as (F1 & F2 & F3 & F4). auto.
  Qed.
End B.

(*P C106 Files of datasets with a target *)
(** A MultiLabelDataset with instances but without labels is written to a file
    that cannot be read: every row ends with a comma. *)
Lemma C106_no_labels : forall (I V : Type) (EI : Eq I) (EV : Eq V) (show : V -> string) (leb : V -> V -> bool) (h : heap I V (list string)) d it prefix relation,
  sub_history [] collect h (d, []) -> Permutation it (insts d) -> it <> [] -> one_line relation -> plain_dataset show h d ->
  exists text, label_export show leb prefix relation h (d, []) it = Ok text /\ create_from_arff text = Err IndexError /\
    forall ord order chosen, label_create ord order chosen text = Err IndexError.
Proof.
  intros I V EI EV show leb h d it prefix relation Hs Hit Hne Hr Hp. destruct (sub_history_ok _ _ _ _ Hs) as [Hh _]. cbn [fst] in Hh.
  destruct (unreadable show leb h d it "" (fun _ => ",") [] (fun _ => [Bare ""]) relation) as (text & E1 & E2); auto; try (cbn; tauto).
  - intros a Ha. split; [discriminate|]. split; [cbn; lia|]. split; [cbn; lia|]. intros f [<-|[]]. cbn. repeat split; [apply one_line_nil|apply lacks_nil|apply lacks_nil].
  - exists text. split; [exact E1|]. split; auto. intros ord order chosen. unfold label_create. rewrite E2. reflexivity.
Qed.
(*P C106 Files of datasets with a target *)
(** The same for a MultisetDataset without classes. *)
Lemma C106_no_multiset_classes : forall (I V : Type) (EI : Eq I) (EV : Eq V) (show : V -> string) (leb : V -> V -> bool) (h : heap I V (dict string nat)) d counts it prefix relation,
  sub_history no_multisets count_multiset h (d, counts) -> multiset_classes counts = [] -> Permutation it (insts d) -> it <> [] -> one_line relation -> plain_dataset show h d ->
  exists text, multiset_export show leb prefix relation h (d, counts) it = Ok text /\
    forall ord order chosen, multiset_create ord order chosen text = Err IndexError.
Proof.
  intros I V EI EV show leb h d counts it prefix relation Hs Hcl Hit Hne Hr Hp. destruct (sub_history_ok _ _ _ _ Hs) as [Hh _]. cbn [fst] in Hh.
  destruct (unreadable show leb h d it "" (fun _ => ",") [] (fun _ => [Bare ""]) relation) as (text & E1 & E2); auto; try (cbn; tauto).
  - intros a Ha. split; [discriminate|]. split; [cbn; lia|]. split; [cbn; lia|]. intros f [<-|[]]. cbn. repeat split; [apply one_line_nil|apply lacks_nil|apply lacks_nil].
  - exists text. split; [unfold multiset_export; cbn [fst snd]; rewrite Hcl; exact E1|]. intros ord order chosen. unfold multiset_create. rewrite E2. reflexivity.
Qed.
(*P C106 Files of datasets with a target *)
(** Without attributes the file of a ClassificationDataset with instances
    cannot be read: every row begins with a comma. *)
Lemma C106_no_attributes : forall (I V : Type) (EI : Eq I) (EV : Eq V) (show : V -> string) (leb : V -> V -> bool) (h : heap I V string) d c since asked it name relation,
  class_history h (d, c) since asked -> Permutation it (insts d) -> it <> [] -> one_line relation -> cats d ++ nums d = [] ->
  plain_name name -> (forall l, In l (get_set_of_classes c) -> plain_value l) ->
  exists text, class_export show leb name relation h (d, c) it = Ok text /\ create_from_arff text = Err IndexError.
Proof.
  intros I V EI EV show leb h d c since asked it name relation Hc Hit Hne Hr He Hn Hcl.
  pose proof (C84_set_of_classes _ _ _ _ _ _ _ _ _ _ _ Hc) as [_ Hcs]. apply class_history_inv in Hc. pose proof (c_hist _ _ _ _ _ Hc) as Hh. cbn [fst] in Hh. clear Hc.
  pose proof (history_inv _ _ _ Hh) as Hinv.
  apply (unreadable show leb h d it _ _ [(name, Nominal (map Quoted (stable_sort String.leb (get_set_of_classes c))))]
     (fun a => [Quoted (match nth_error h a with Some x => target x | None => "" end)]) relation); auto.
  - apply no_names. auto.
  - cbn [map String.concat]. rewrite category_text. reflexivity.
  - intros a x _ Ex. rewrite Ex. reflexivity.
  - cbn [map fst]. intros n [<-|[]]. auto.
  - intros n vs v [Y|[]] Hv. assert (Evs : vs = map Quoted (stable_sort String.leb (get_set_of_classes c))) by congruence. subst vs.
    apply in_map_iff in Hv as (l & <- & Hl). apply sort_In in Hl. apply Hcl in Hl. destruct Hl as (L1 & L2 & L3). split; auto.
  - intros a Ha. split; [discriminate|]. split; [auto|]. split; [congruence|]. intros f [<-|[]]. assert (Ha' : In a (insts d)) by (eapply Permutation_in; eauto).
    destruct (v_valid _ _ _ Hinv a Ha') as [x Ex]. rewrite Ex. destruct (Hcl (target x)) as (L1 & L2 & L3); [|split; auto]. apply Hcs. right. exists a, x. split; [split; auto|auto].
Qed.
(*P C106 Files of datasets with a target *)
(** A target sequence column of a file in the sparse format is a number, which
    has no symbols to split. *)
Lemma C106_sparse_witness : exists text h d, create_from_arff text = Ok (h, d) /\ cats d = ["s"] /\
  sequence_create (fun l => l) "s" text = Err AttributeError.
Proof.
  set (doc := {| relation := "r"; attributes := [("s", Nominal [Quoted "[a]"])]; rows := [Sparse [(0, 1%Z)]] |}).
  exists (text_of doc). do 2 eexists. split; [|split]; vm_compute; reflexivity.
Qed.
