(** Reading a document *)
From Coq Require Import String Ascii ZArith Lia Permutation.
From Verif.Model Require Import Base Dataset TargetDatasets Arff.
From Verif.Lib Require Import ListLib DictLib.
From Verif.Spec Require Import DatasetSpec ArffSpec.
From Verif.Proofs Require Import DatasetA LogTablesD ArffA ArffB.
Open Scope string_scope.
Open Scope list_scope.
Open Scope nat_scope.

Lemma foldM_app {X Y} (f : Y -> X -> result Y) l m : forall y, foldM f (l ++ m) y = do y' <- foldM f l y ; foldM f m y'.
Proof. induction l as [|x l IH]; intros y; cbn [app foldM]; [reflexivity|]. destruct (f y x); cbn [bind]; auto. Qed.
Lemma foldM_inv {X Y} (f : Y -> X -> result Y) (P : Y -> Prop) l : (forall y x y', In x l -> P y -> f y x = Ok y' -> P y') ->
  forall y y', P y -> foldM f l y = Ok y' -> P y'.
Proof.
  induction l as [|x l IH]; intros Hf y y' Hy; cbn [foldM]; [intros E; injection E as <-; auto|].
  destruct (f y x) as [z|e] eqn:E; cbn [bind]; [|discriminate]. apply IH.
  - intros; eapply Hf; eauto; cbn; auto.
  - eapply Hf; eauto. cbn. auto.
Qed.

(** ** the header *)
Definition domain_text (t : domain) : string :=
  match t with Nominal vs => ("{" ++ String.concat "," (map field_text vs) ++ "}")%string | Numeric => "NUMERIC" end.
Lemma attribute_text_eq a : attribute_text a = ("@ATTRIBUTE" ++ String " " (in_quotes (fst a) ++ String " " (domain_text (snd a))))%string.
Proof. reflexivity. Qed.
Lemma attribute_text_spaces a : length (split_at_char " " (attribute_text a)) = 3 + count_char " " (fst a) + count_char " " (domain_text (snd a)).
Proof.
  rewrite split_length, attribute_text_eq, count_char_app. unfold in_quotes. cbn [count_char Ascii.eqb append].
  rewrite !count_char_app. cbn. rewrite Nat.add_0_r. lia.
Qed.
Lemma attribute_text_prefix a : String.prefix "@attribute" (lower (attribute_text a)) = true.
Proof. rewrite attribute_text_eq. reflexivity. Qed.
Lemma lacks_concat c sep l : lacks c sep -> (forall x, In x l -> lacks c x) -> lacks c (String.concat sep l).
Proof.
  intros Hs. induction l as [|x l IH]; intros E; [intros []|]. destruct l as [|y l].
  - cbn. apply E. cbn. auto.
  - change (String.concat sep (x :: y :: l)) with (x ++ sep ++ String.concat sep (y :: l))%string. rewrite !lacks_app. split; [|split]; auto.
    + apply E. cbn. auto.
    + apply IH. intros z Hz. apply E. cbn. auto.
Qed.
Lemma one_line_concat sep l : one_line sep -> (forall x, In x l -> one_line x) -> one_line (String.concat sep l).
Proof.
  intros Hs. induction l as [|x l IH]; intros E; [apply one_line_nil|]. destruct l as [|y l].
  - cbn. apply E. cbn. auto.
  - change (String.concat sep (x :: y :: l)) with (x ++ sep ++ String.concat sep (y :: l))%string. rewrite !one_line_app. split; [|split]; auto.
    + apply E. cbn. auto.
    + apply IH. intros z Hz. apply E. cbn. auto.
Qed.
Ltac ascii_line := intros X; vm_compute in X; decompose [or False] X; discriminate.
Lemma one_line_quotes s : one_line (in_quotes s) <-> one_line s.
Proof.
  unfold in_quotes. rewrite one_line_cons, one_line_app, one_line_cons. split; [tauto|].
  intros E. repeat split; auto; try ascii_line. apply one_line_nil.
Qed.
Lemma lacks_quotes c s : c <> dq -> lacks c (in_quotes s) <-> lacks c s.
Proof. intros Hc. unfold in_quotes. rewrite lacks_cons, lacks_app, lacks_cons. split; [tauto|]. intros E. repeat split; auto; intros []. Qed.
Lemma domain_lacks t : (forall vs v, t = Nominal vs -> In v vs -> lacks " " (field_value v)) -> lacks " " (domain_text t).
Proof.
  destruct t as [vs|]; intros E; cbn [domain_text].
  - rewrite !lacks_app. split; [|split]; try (intros X; cbn in X; decompose [or False] X; discriminate).
    apply lacks_concat; [intros X; cbn in X; decompose [or False] X; discriminate|]. intros x Hx.
    apply in_map_iff in Hx as (v & <- & Hv). apply (E vs v eq_refl) in Hv. destruct v; cbn [field_text]; [apply lacks_quotes; [discriminate|]|]; auto.
  - intros X; cbn in X; decompose [or False] X; discriminate.
Qed.
Lemma domain_one_line t : (forall vs v, t = Nominal vs -> In v vs -> one_line (field_value v)) -> one_line (domain_text t).
Proof.
  destruct t as [vs|]; intros E; cbn [domain_text].
  - rewrite !one_line_app. split; [|split].
    + apply one_line_cons. split; [ascii_line|apply one_line_nil].
    + apply one_line_concat; [apply one_line_cons; split; [ascii_line|apply one_line_nil]|]. intros x Hx.
      apply in_map_iff in Hx as (v & <- & Hv). apply (E vs v eq_refl) in Hv. destruct v; cbn [field_text]; [apply one_line_quotes|]; auto.
    + apply one_line_cons. split; [ascii_line|apply one_line_nil].
  - intros c Hc. cbn in Hc. decompose [or False] Hc; subst; ascii_line.
Qed.
Lemma attribute_one_line a : one_line (fst a) -> one_line (domain_text (snd a)) -> one_line (attribute_text a).
Proof.
  intros E1 E2. rewrite attribute_text_eq. apply one_line_app. split; [intros c Hc; cbn in Hc; decompose [or False] Hc; subst; ascii_line|].
  apply one_line_cons. split; [ascii_line|]. apply one_line_app. split; [apply one_line_quotes; auto|]. apply one_line_cons. split; [ascii_line|auto].
Qed.
Lemma read_attribute a st : started st = false -> plain_name (fst a) -> (forall vs v, snd a = Nominal vs -> In v vs -> lacks " " (field_value v)) ->
  read_line st (attribute_text a) = Ok (ArffState (all_names st ++ [fst a])
    (if is_nominal a then cat_names st ++ [fst a] else cat_names st)
    (if is_nominal a then num_names st else num_names st ++ [fst a]) false (read_instances st)).
Proof.
  intros Es (_ & Hb & H1 & H2) Hd. unfold read_line. rewrite Es, attribute_text_prefix. cbn [andb].
  rewrite attribute_text_eq, split_cons by (intros X; cbn in X; decompose [or False] X; discriminate).
  rewrite split_cons by (apply lacks_quotes; [discriminate|auto]).
  rewrite split_lacks by (apply domain_lacks; eauto). cbv zeta.
  rewrite strip_quotes by auto. destruct a as [n [vs|]]; [|reflexivity].
  rewrite (proj2 (prefix_brace _)) by (cbn [snd domain_text append]; eauto). reflexivity.
Qed.
Lemma read_attribute_spaces a st : started st = false -> (In " "%char (chars (fst a)) \/ In " "%char (chars (domain_text (snd a)))) ->
  read_line st (attribute_text a) = Err ValueError.
Proof.
  intros Es Hb. unfold read_line. rewrite Es, attribute_text_prefix. cbn [andb].
  pose proof (attribute_text_spaces a) as El.
  assert (4 <= length (split_at_char " " (attribute_text a))) by (destruct Hb as [Hb|Hb]; apply count_char_In in Hb; lia).
  destruct (split_at_char " " (attribute_text a)) as [|w0 [|w1 [|w2 [|w3 l]]]]; cbn in *; try lia; reflexivity.
Qed.
Lemma read_attributes atts : (forall a, In a atts -> plain_name (fst a) /\ forall vs v, snd a = Nominal vs -> In v vs -> lacks " " (field_value v)) ->
  forall st, started st = false -> foldM read_line (map attribute_text atts) st =
    Ok (ArffState (all_names st ++ map fst atts) (cat_names st ++ map fst (filter is_nominal atts))
       (num_names st ++ map fst (filter (fun a => negb (is_nominal a)) atts)) false (read_instances st)).
Proof.
  induction atts as [|a atts IH]; intros E st Es.
  - cbn. rewrite !app_nil_r. destruct st; cbn in *; subst; reflexivity.
  - cbn [map foldM]. destruct (E a) as [H1 H2]; [cbn; auto|]. rewrite read_attribute by auto. cbn [bind].
    rewrite IH; [|intros; apply E; cbn; auto|reflexivity]. cbn [all_names cat_names num_names read_instances map filter].
    rewrite <- !app_assoc. destruct (is_nominal a); cbn [negb map app]; rewrite <- ?app_assoc; reflexivity.
Qed.
Definition start : arff_state := ArffState [] [] [] false [].
Lemma read_relation r st : started st = false -> read_line st ("@RELATION " ++ r) = Ok st.
Proof. intros Es. unfold read_line. rewrite Es. reflexivity. Qed.
Lemma read_blank st : read_line st "" = Ok st.
Proof. unfold read_line. rewrite andb_false_r. reflexivity. Qed.
Lemma read_data st : started st = false -> read_line st "@DATA" = Ok (ArffState (all_names st) (cat_names st) (num_names st) true (read_instances st)).
Proof. intros Es. unfold read_line. rewrite Es. reflexivity. Qed.
Definition filled (st : arff_state) (rs : list row) (xs : list (dict string read_value)) : Prop :=
  Forall2 (fun r x => NoDup (keys x) /\ (forall k n, nth_error (all_names st) k = Some n -> dict_get n x = cell r k) /\
    (forall n, ~ In n (all_names st) -> dict_get n x = None)) rs xs.
Lemma row_text_nonempty (names : list string) r : names <> [] -> plain_row (length names) r -> row_text r <> "".
Proof.
  intros Hne. destruct r as [fs|es]; cbn [plain_row]; [|discriminate].
  intros (El & _ & Hb & _) X. apply row_text_empty in X as [->|X]; [|auto]. destruct names; [congruence|discriminate].
Qed.
Lemma read_rows rs : forall st, started st = true -> NoDup (all_names st) -> all_names st <> [] ->
  (forall r, In r rs -> plain_row (length (all_names st)) r) ->
  exists xs, foldM read_line (map row_text rs) st = Ok (ArffState (all_names st) (cat_names st) (num_names st) true (read_instances st ++ xs)) /\ filled st rs xs.
Proof.
  induction rs as [|r rs IH]; intros st Es Hn Hne Hp.
  - exists []. cbn. rewrite app_nil_r. destruct st; cbn in *; subst. split; [reflexivity|constructor].
  - destruct (parse_row r (all_names st) Hn Hne) as (x & E & Hx); [apply Hp; cbn; auto|].
    cbn [map foldM]. assert (Er : read_line st (row_text r) = Ok (ArffState (all_names st) (cat_names st) (num_names st) true (read_instances st ++ [x]))).
    { unfold read_line. rewrite Es. destruct (eqb_ok (row_text r) "") as [X|_].
      - exfalso. eapply row_text_nonempty; eauto. apply Hp. cbn. auto.
      - cbn [negb andb]. rewrite E. reflexivity. }
    rewrite Er. cbn [bind].
    destruct (IH (ArffState (all_names st) (cat_names st) (num_names st) true (read_instances st ++ [x]))) as (xs & Exs & Hxs); auto.
    + intros r' Hr'. apply Hp. cbn. auto.
    + exists (x :: xs). rewrite Exs. cbn [all_names cat_names num_names read_instances]. rewrite <- app_assoc. split; [reflexivity|].
      constructor; auto.
Qed.

(** ** the dataset *)
Definition numbered {V} (xs : list (dict string V)) : heap nat V unit :=
  map (fun '(i, x) => {| iid := i; feats := x; target := tt |}) (combine (seq 0 (length xs)) xs).
Lemma numbered_nth {V} (xs : list (dict string V)) i :
  nth_error (numbered xs) i = option_map (fun x => {| iid := i; feats := x; target := tt |}) (nth_error xs i).
Proof.
  unfold numbered. enough (G : forall s, nth_error (map (fun '(i, x) => {| iid := i; feats := x; target := tt |}) (combine (seq s (length xs)) xs)) i = option_map (fun x => {| iid := s + i; feats := x; target := tt |}) (nth_error xs i)) by apply (G 0).
  revert i. induction xs as [|x xs IH]; intros [|i] s; cbn; auto.
  - rewrite Nat.add_0_r. reflexivity.
  - rewrite IH. destruct (nth_error xs i); cbn; auto. do 3 f_equal. lia.
Qed.
Lemma numbered_length {V} (xs : list (dict string V)) : length (numbered xs) = length xs.
Proof. unfold numbered. rewrite map_length, combine_length, seq_length. lia. Qed.
Lemma numbered_proper {V} (xs : list (dict string V)) : (forall x, In x xs -> NoDup (keys x)) -> proper (numbered xs).
Proof.
  intros E a x. rewrite numbered_nth. destruct (nth_error xs a) as [y|] eqn:Ey; cbn; [|discriminate]. intros X. injection X as <-.
  cbn. apply E. eapply nth_error_In; eauto.
Qed.
Lemma new_keys {V} `{Eq V} cs ns n : In n (keys (attrs (new (V := V) cs ns))) <-> In n (cs ++ ns).
Proof.
  destruct (new_ok (V := V) cs ns) as (_ & _ & _ & _ & E). rewrite <- dict_has_In. unfold dict_has. rewrite E, in_app_iff.
  destruct (mem n ns) eqn:E1; [apply mem_In in E1; split; auto|]. apply mem_not_In in E1.
  destruct (mem n cs) eqn:E2; [apply mem_In in E2; split; auto|]. apply mem_not_In in E2. split; [discriminate|tauto].
Qed.
Section B.
  Context {V : Type} `{Eq V}.
  Lemma build_ok fresh (xs : list (dict string V)) cs ns : (fresh = true -> NoDup (cs ++ ns)) -> (forall x, In x xs -> NoDup (keys x)) ->
    (forall x n, In x xs -> In n (keys x) <-> In n (cs ++ ns)) ->
    exists d, foldM (add_instance (numbered xs)) (seq 0 (length xs)) (new cs ns) = Ok d /\ cats d = cs /\ nums d = ns /\
      insts d = seq 0 (length xs) /\ history fresh (numbered xs) d.
  Proof.
    intros Hf Hp Hk. set (h := numbered xs).
    assert (G : forall m, m <= length xs -> exists d, foldM (add_instance h) (seq 0 m) (new cs ns) = Ok d /\ cats d = cs /\ nums d = ns /\
      insts d = seq 0 m /\ (forall n, In n (keys (attrs d)) <-> In n (cs ++ ns)) /\ history fresh h d).
    { induction m as [|m IH]; intros Hm.
      - exists (new cs ns). cbn [seq foldM]. destruct (new_ok (V := V) cs ns) as (E1 & E2 & E3 & _ & _). repeat split; auto; try apply new_keys.
        apply hist_new; auto. apply numbered_proper; auto.
      - destruct IH as (d & Ed & E1 & E2 & E3 & E4 & Hh); [lia|]. rewrite seq_S, foldM_app, Ed. cbn [bind foldM plus].
        destruct (nth_error_lt xs m) as [x Ex]; [lia|].
        destruct (add_instance_ok h d m {| iid := m; feats := x; target := tt |}) as (d' & Ed' & F1 & F2 & F3 & F4 & F5).
        + unfold h. rewrite numbered_nth, Ex. reflexivity.
        + intros k. cbn. rewrite E4. apply Hk. eapply nth_error_In; eauto.
        + intros b y [Hb Ey]. unfold h in Ey. rewrite numbered_nth in Ey. destruct (nth_error xs b); [|discriminate]. injection Ey as <-.
          cbn. rewrite E3, in_seq in Hb. lia.
        + rewrite Ed'. cbn [bind]. exists d'. split; [auto|]. repeat split; try congruence.
          * rewrite F4. apply E4.
          * rewrite F4. apply E4.
          * eapply hist_add; eauto. }
    destruct (G (length xs)) as (d & Ed & E1 & E2 & E3 & _ & Hh); [lia|]. exists d. auto.
  Qed.
End B.
Lemma create_eq text : create_from_arff text = do st <- foldM read_line (splitlines text) start ;
  do d <- foldM (add_instance (numbered (read_instances st))) (seq 0 (length (read_instances st))) (new (cat_names st) (num_names st)) ;
  Ok (numbered (read_instances st), d).
Proof. reflexivity. Qed.
Lemma Forall2_nth {X Y} (P : X -> Y -> Prop) l m : Forall2 P l m -> length l = length m /\ forall i x, nth_error l i = Some x -> exists y, nth_error m i = Some y /\ P x y.
Proof.
  induction 1 as [|x y l m Hxy Hlm [El IH]]; cbn; [split; [auto|]; intros [|i]; discriminate|].
  split; [congruence|]. intros [|i] z; cbn; [intros E; injection E as <-; eauto|auto].
Qed.
Lemma filter_partition {X} (f : X -> bool) l : Permutation (filter f l ++ filter (fun x => negb (f x)) l) l.
Proof.
  induction l as [|x l IH]; cbn; auto. destruct (f x); cbn [negb app]; [constructor; auto|].
  eapply perm_trans; [apply Permutation_sym, Permutation_middle|]. constructor. auto.
Qed.
Lemma doc_names atts : Permutation (map fst (filter is_nominal atts) ++ map fst (filter (fun a => negb (is_nominal a)) atts)) (map (fst (A := string) (B := domain)) atts).
Proof. rewrite <- map_app. apply Permutation_map. apply filter_partition. Qed.
Lemma cell_some r k width : plain_row width r -> k < width -> cell r k <> None.
Proof.
  destruct r as [fs|es]; cbn [plain_row cell]; [|discriminate]. intros (El & _) Hk. destruct (nth_error_lt fs k) as [f ->]; [lia|]. discriminate.
Qed.
Definition plain_header (doc : document) : Prop :=
  (forall n, In n (names_of doc) -> plain_name n) /\ (forall n vs v, In (n, Nominal vs) (attributes doc) -> In v vs -> plain_category (field_value v)).
Lemma read_header doc : plain_header doc -> foldM read_line
   (("@RELATION " ++ in_quotes (relation doc))%string :: "" :: map attribute_text (attributes doc) ++ [""; "@DATA"]) start =
   Ok (ArffState (names_of doc) (map fst (filter is_nominal (attributes doc))) (map fst (filter (fun a => negb (is_nominal a)) (attributes doc))) true []).
Proof.
  intros [Hn Hc]. cbn [foldM]. rewrite read_relation by reflexivity. cbn [bind]. rewrite read_blank. cbn [bind]. rewrite foldM_app, read_attributes.
  - cbn [bind foldM]. rewrite read_blank. cbn [bind]. rewrite read_data by reflexivity. reflexivity.
  - intros a Ha. split.
    + apply Hn. apply in_map. auto.
    + intros vs v Ev Hv. eapply (Hc (fst a) vs); eauto. rewrite <- Ev. destruct a; auto.
  - reflexivity.
Qed.
Lemma header_lines doc : plain_header doc -> one_line (relation doc) -> (forall r, In r (rows doc) -> one_line (row_text r)) -> forall l, In l (lines_of doc) -> one_line l.
Proof.
  intros [Hn Hc] Hr Hrows l. unfold lines_of. cbn [In]. rewrite in_app_iff. cbn [In]. intros [<-|[<-|[Hl|[<-|[<-|Hl]]]]]; try apply one_line_nil.
  - rewrite one_line_app, one_line_quotes. split; [|auto]. intros c Hcc. cbn in Hcc. decompose [or False] Hcc; subst; ascii_line.
  - apply in_map_iff in Hl as (a & <- & Ha). apply attribute_one_line.
    + apply Hn. apply in_map. auto.
    + apply domain_one_line. intros vs v Ev Hv. eapply (Hc (fst a) vs); eauto. rewrite <- Ev. destruct a; auto.
  - intros c Hcc. cbn in Hcc. decompose [or False] Hcc; subst; ascii_line.
  - apply in_map_iff in Hl as (r & <- & Hrr). auto.
Qed.
Lemma plain_row_one_line w r : plain_row w r -> one_line (row_text r).
Proof.
  destruct r as [fs|es]; cbn [row_text plain_row]; intros Hr.
  - apply one_line_concat; [apply one_line_cons; split; [ascii_line|apply one_line_nil]|]. intros x Hx. apply in_map_iff in Hx as (f & <- & Hf).
    apply Hr in Hf. destruct f; cbn in *; [apply one_line_quotes; tauto|tauto].
  - rewrite !one_line_app. split; [|split]; try (apply one_line_cons; split; [ascii_line|apply one_line_nil]).
    apply one_line_concat; [apply one_line_cons; split; [ascii_line|apply one_line_nil]|]. intros x Hx. apply in_map_iff in Hx as (e & <- & He).
    apply (entry_text_plain e).
Qed.
Lemma plain_plain_header doc : plain doc -> plain_header doc.
Proof. intros Hp. split; [apply (plain_names _ Hp)|apply (plain_categories _ Hp)]. Qed.
Lemma doc_lines doc : plain doc -> splitlines (text_of doc) = lines_of doc.
Proof.
  intros Hp. unfold text_of.
  assert (Hl : forall l, In l (lines_of doc) -> one_line l).
  { apply header_lines; [apply plain_plain_header; auto|apply (plain_relation _ Hp)|]. intros r Hr. eapply plain_row_one_line. apply (plain_rows _ Hp). auto. }
  assert (Hlast : exists ls l, lines_of doc = ls ++ [l] /\ l <> "").
  { unfold lines_of. destruct (rows doc) as [|r0 rs0] eqn:Er.
    - exists (("@RELATION " ++ in_quotes (relation doc))%string :: "" :: map attribute_text (attributes doc) ++ [""]), "@DATA". split; [|discriminate].
      cbn [map app]. do 2 f_equal. rewrite <- app_assoc. reflexivity.
    - destruct (exists_last (l := r0 :: rs0)) as (rs & r & E); [discriminate|]. rewrite E.
      exists (("@RELATION " ++ in_quotes (relation doc))%string :: "" :: map attribute_text (attributes doc) ++ "" :: "@DATA" :: map row_text rs), (row_text r). split.
      + rewrite map_app. cbn [map app]. do 2 f_equal. rewrite <- app_assoc. reflexivity.
      + eapply (row_text_nonempty (names_of doc)).
        * unfold names_of. intros X. apply map_eq_nil in X. apply (plain_attributes _ Hp X).
        * unfold names_of. rewrite map_length. apply (plain_rows _ Hp). rewrite Er, E. apply in_app_iff. cbn. auto. }
  destruct Hlast as (ls & l & E & Hne). rewrite E in *. rewrite splitlines_concat by auto. unfold full.
  rewrite (proj2 (eqb_neq l "") Hne). reflexivity.
Qed.
(*P C105 Reading and writing ARFF files *)
(** What a well-formed file is read as. Rows may be given in full or sparsely. *)
Lemma C105_documents : forall doc, plain doc -> exists h d, create_from_arff (text_of doc) = Ok (h, d) /\ reads_as doc h d.
Proof.
  intros doc Hp. rewrite create_eq, doc_lines by auto. unfold lines_of.
  assert (Hne : names_of doc <> []) by (intros X; apply map_eq_nil in X; apply (plain_attributes _ Hp X)).
  replace (("@RELATION " ++ in_quotes (relation doc))%string :: "" :: map attribute_text (attributes doc) ++ "" :: "@DATA" :: map row_text (rows doc))
    with ((("@RELATION " ++ in_quotes (relation doc))%string :: "" :: map attribute_text (attributes doc) ++ [""; "@DATA"]) ++ map row_text (rows doc))
    by (cbn [app]; rewrite <- app_assoc; reflexivity).
  rewrite foldM_app, read_header by (apply plain_plain_header; auto). cbn [bind].
  destruct (read_rows (rows doc) (ArffState (names_of doc) (map fst (filter is_nominal (attributes doc))) (map fst (filter (fun a => negb (is_nominal a)) (attributes doc))) true [])) as (xs & Exs & Hxs); auto.
  { apply Hp. }
  { cbn. unfold names_of. rewrite map_length. apply (plain_rows _ Hp). }
  rewrite Exs. cbn [bind read_instances cat_names num_names all_names app].
  unfold filled in Hxs. cbn [all_names] in Hxs. destruct (Forall2_nth _ _ _ Hxs) as [El Hi].
  assert (Hback : forall x, In x xs -> exists r, In r (rows doc) /\ NoDup (keys x) /\ (forall k n, nth_error (names_of doc) k = Some n -> dict_get n x = cell r k) /\ (forall n, ~ In n (names_of doc) -> dict_get n x = None)).
  { intros x Hx. apply In_nth_error in Hx as [i Ex]. destruct (nth_error_lt (rows doc) i) as [r Er]; [apply nth_error_Some_lt in Ex; lia|].
    destruct (Hi i r Er) as (x' & Ex' & Hx'). exists r. split; [eapply nth_error_In; eauto|]. rewrite Ex in Ex'. injection Ex' as <-. auto. }
  destruct (build_ok true xs (map fst (filter is_nominal (attributes doc))) (map fst (filter (fun a => negb (is_nominal a)) (attributes doc)))) as (d & Ed & E1 & E2 & E3 & Hh).
  - intros _. eapply Permutation_NoDup; [apply Permutation_sym, doc_names|]. apply Hp.
  - intros x Hx. apply Hback in Hx as (r & _ & Hk & _). auto.
  - intros x n Hx. apply Hback in Hx as (r & Hr & Hk & F1 & F2). rewrite <- dict_has_In. unfold dict_has. split.
    + intros E. eapply Permutation_in; [apply Permutation_sym, doc_names|]. change (In n (names_of doc)).
      destruct (in_dec string_dec n (names_of doc)); auto. rewrite F2 in E by auto. discriminate.
    + intros Hn. apply (Permutation_in _ (doc_names _)) in Hn. apply In_nth_error in Hn as [k Ek]. rewrite (F1 _ _ Ek).
      assert (X : cell r k <> None); [|destruct (cell r k); congruence].
      eapply cell_some; [apply (plain_rows _ Hp); eauto|]. apply nth_error_Some_lt in Ek. rewrite map_length in Ek. auto.
  - rewrite Ed. cbn [bind]. exists (numbered xs), d. split; [reflexivity|]. constructor; auto.
    + congruence.
    + rewrite numbered_length. auto.
    + intros i r Er. destruct (Hi i r Er) as (x & Ex & Hk & F1 & F2). rewrite numbered_nth, Ex. cbn [option_map]. eexists. split; [reflexivity|]. cbn [iid feats]. auto.
Qed.
