(** Lemmas about reading a document *)
From Coq Require Import String Ascii ZArith Lia DecimalString DecimalZ DecimalNat.
From Verif.Model Require Import Base Dataset TargetDatasets Arff.
From Verif.Lib Require Import ListLib DictLib.
From Verif.Spec Require Import DatasetSpec ArffSpec.
From Verif.Proofs Require Import DatasetA LogTablesD ArffA.
Open Scope string_scope.
Open Scope list_scope.
Open Scope nat_scope.

(** ** [int] *)
Lemma digits_pos u : forall p, digits (Zpos p) true (NilEmpty.string_of_uint u) = Some (Zpos (Pos.of_uint_acc u p)).
Proof.
  induction u; intros p; [reflexivity|..]; cbn [NilEmpty.string_of_uint digits Pos.of_uint_acc];
    match goal with |- context[nat_of_ascii ?c] => change (nat_of_ascii c) with ltac:(let n := eval compute in (nat_of_ascii c) in exact n) end;
    cbn [Nat.leb andb Nat.sub]; rewrite <- IHu; f_equal; lia.
Qed.
Lemma digits_uint u : forall b, u <> Decimal.Nil \/ b = true -> digits 0 b (NilEmpty.string_of_uint u) = Some (Z.of_N (Pos.of_uint u)).
Proof.
  induction u; intros b Hn; [destruct Hn as [Hn| ->]; [congruence|reflexivity]|..]; cbn [NilEmpty.string_of_uint digits Pos.of_uint];
    match goal with |- context[nat_of_ascii ?c] => change (nat_of_ascii c) with ltac:(let n := eval compute in (nat_of_ascii c) in exact n) end;
    cbn [Nat.leb andb Nat.sub]; try apply digits_pos. apply IHu. auto.
Qed.
Lemma digits_nat u : forall n b, u <> Decimal.Nil \/ b = true -> digits (Z.of_nat n) b (NilEmpty.string_of_uint u) = Some (Z.of_nat (Nat.of_uint_acc u n)).
Proof.
  induction u; intros n b Hn; [destruct Hn as [Hn| ->]; [congruence|reflexivity]|..]; cbn [NilEmpty.string_of_uint digits Nat.of_uint_acc];
    match goal with |- context[nat_of_ascii ?c] => change (nat_of_ascii c) with ltac:(let n := eval compute in (nat_of_ascii c) in exact n) end;
    cbn [Nat.leb andb Nat.sub]; rewrite <- (IHu _ true) by auto; f_equal; rewrite Nat.tail_mul_spec; lia.
Qed.
Definition digit_text (s : string) : Prop := all_digits s /\ s <> "".
Lemma all_digits_In s c : all_digits s -> In c (chars s) -> digit c.
Proof. unfold chars. induction s as [|x s IH]; cbn [all_digits list_ascii_of_string In]; [tauto|]. intros [E1 E2] [<-|Hc]; auto. Qed.
Lemma chars_last r c : In c (chars (r ++ String c "")).
Proof. rewrite chars_app, in_app_iff. cbn. auto. Qed.
Lemma digit_facts c : digit c -> is_whitespace c = false /\ ~ line_break c /\ c <> dq /\ c <> ","%char /\ c <> " "%char /\ c <> "{"%char /\ c <> "}"%char /\ c <> "-"%char /\ c <> "+"%char.
Proof.
  unfold digit, line_break. cbn [In]. intros E.
  decompose [or False] E; subst; (split; [reflexivity|]); (split; [intros X; vm_compute in X; decompose [or False] X; discriminate|]); repeat split; discriminate.
Qed.
Lemma strip_digits s : (forall c, In c (chars s) -> is_whitespace c = false) -> strip is_whitespace s = s.
Proof.
  intros E. apply strip_id.
  - intros r c ->. apply E. cbn. auto.
  - intros r c ->. apply E. apply chars_last.
Qed.
Lemma uint_text u : digit_text (NilZero.string_of_uint u).
Proof.
  unfold NilZero.string_of_uint. destruct u; try (split; [apply uint_digits|discriminate]).
  split; [|discriminate]. cbn. unfold digit. cbn. tauto.
Qed.
Lemma int_of_digits s : digit_text s -> int_of_string s = digits 0 false s.
Proof.
  intros [Ed Hn]. unfold int_of_string. rewrite strip_digits.
  - destruct s as [|c s]; [congruence|]. destruct Ed as [Ed _].
    unfold digit in Ed. cbn [In] in Ed. decompose [or False] Ed; subst; reflexivity.
  - intros c Hc. apply (digit_facts c). eapply all_digits_In; eauto.
Qed.
Lemma digits_zero u : digits 0 false (NilZero.string_of_uint u) = Some (Z.of_N (Pos.of_uint u)).
Proof.
  unfold NilZero.string_of_uint. destruct u; try reflexivity; try (apply digits_uint; left; discriminate).
Qed.
Lemma int_of_nat_text n : int_of_string (nat_text n) = Some (Z.of_nat n).
Proof.
  unfold nat_text. rewrite int_of_digits by apply uint_text. unfold NilZero.string_of_uint.
  assert (E : digits 0 false (NilEmpty.string_of_uint (Nat.to_uint n)) = Some (Z.of_nat n)).
  { change 0%Z with (Z.of_nat 0). rewrite digits_nat by (left; apply to_uint_not_nil). f_equal. f_equal. apply DecimalNat.Unsigned.of_to. }
  destruct (Nat.to_uint n) eqn:En; auto. exfalso. eapply to_uint_not_nil; eauto.
Qed.
Lemma int_of_int_text z : int_of_string (int_text z) = Some z.
Proof.
  unfold int_text. pose proof (DecimalZ.of_to z) as E. destruct (Z.to_int z) as [u|u]; cbn [NilZero.string_of_int].
  - rewrite int_of_digits by apply uint_text. rewrite digits_zero. f_equal. exact E.
  - assert (E2 : int_of_string (String "-" (NilZero.string_of_uint u)) = option_map Z.opp (digits 0 false (NilZero.string_of_uint u))).
    { unfold int_of_string. rewrite strip_digits; [reflexivity|]. intros c [<-|Hc]; [reflexivity|].
      apply (digit_facts c). eapply all_digits_In; [|exact Hc]. apply uint_text. }
    rewrite E2, digits_zero. cbn [option_map]. f_equal. exact E.
Qed.
(** the characters of a number *)
Lemma nat_text_digits n c : In c (chars (nat_text n)) -> digit c.
Proof. intros Hc. eapply all_digits_In; [|exact Hc]. apply uint_text. Qed.
Lemma nat_text_nonempty n : nat_text n <> "".
Proof. apply uint_text. Qed.
Lemma int_text_chars z c : In c (chars (int_text z)) -> digit c \/ c = "-"%char.
Proof.
  unfold int_text. destruct (Z.to_int z) as [u|u]; cbn [NilZero.string_of_int].
  - intros Hc. left. eapply all_digits_In; [|exact Hc]. apply uint_text.
  - cbn [chars list_ascii_of_string In]. intros [<-|Hc]; auto. left. eapply all_digits_In; [|exact Hc]. apply uint_text.
Qed.
Lemma int_text_last z r c : int_text z = (r ++ String c "")%string -> digit c.
Proof.
  unfold int_text. destruct (Z.to_int z) as [u|u]; cbn [NilZero.string_of_int].
  - intros E. eapply all_digits_In; [apply (proj1 (uint_text u))|]. rewrite E. apply chars_last.
  - destruct r as [|x r]; cbn [append]; intros E; injection E as E1 E2.
    + exfalso. apply (uint_text u). auto.
    + eapply all_digits_In; [apply (proj1 (uint_text u))|]. rewrite E2. apply chars_last.
Qed.
Lemma int_text_nonempty z : int_text z <> "".
Proof. unfold int_text. destruct (Z.to_int z); cbn; [apply uint_text|discriminate]. Qed.

(** ** a line with instances *)
Lemma names_NoDup_cons {X} (x : X) l : NoDup (x :: l) -> ~ In x l /\ NoDup l.
Proof. inversion 1; auto. Qed.
Lemma name_fields_ok names : forall fields d, NoDup names -> length fields = length names -> NoDup (keys d) ->
  exists d', name_fields names fields d = Ok d' /\ NoDup (keys d') /\
    (forall k n, nth_error names k = Some n -> dict_get n d' = option_map Text (nth_error fields k)) /\
    (forall n, ~ In n names -> dict_get n d' = dict_get n d).
Proof.
  induction names as [|m names IH]; intros [|f fields] d Hn El Hd; try discriminate.
  - exists d. cbn. repeat split; auto. intros [|k] n; discriminate.
  - apply names_NoDup_cons in Hn as [Hm Hn]. injection El as El. cbn [name_fields].
    destruct (IH fields (dict_set m (Text f) d)) as (d' & E & Hk & E1 & E2); auto; [apply keys_dict_set_NoDup; auto|].
    exists d'. split; auto. split; auto. split.
    + intros [|k] n; cbn.
      * intros X. injection X as <-. rewrite E2 by auto. rewrite dict_get_set, eqb_refl. reflexivity.
      * apply E1.
    + intros n Hni. cbn in Hni. rewrite E2 by tauto. rewrite dict_get_set. destruct (eqb_ok n m); [subst; tauto|reflexivity].
Qed.
Lemma prefix_brace s : String.prefix "{" s = true <-> exists r, s = String "{" r.
Proof.
  destruct s as [|c s]; cbn [String.prefix].
  - split; [discriminate|]. intros [r E]. discriminate.
  - destruct (ascii_dec "{" c) as [<-|Hn]; split; intros E.
    + eauto.
    + destruct s; reflexivity.
    + discriminate.
    + destruct E as [r E]. injection E as -> _. congruence.
Qed.
Lemma parse_dense fs names : NoDup names -> length fs = length names -> names <> [] -> (forall f, In f fs -> plain_field f) ->
  fs <> [Bare ""] -> (forall s fs', fs <> Bare (String "{" s) :: fs') ->
  exists d', parse_instance (row_text (Dense fs)) names = Ok d' /\ NoDup (keys d') /\
    (forall k n, nth_error names k = Some n -> dict_get n d' = cell (Dense fs) k) /\
    (forall n, ~ In n names -> dict_get n d' = None).
Proof.
  intros Hn El Hne Hp Hb Hs. unfold parse_instance. destruct (String.prefix "{" (row_text (Dense fs))) eqn:Ep.
  - apply prefix_brace in Ep as [r Er]. apply row_text_brace in Er as (r' & fs' & ->). exfalso. eapply Hs; eauto.
  - cbn [row_text]. rewrite csv_row_dense; auto.
    + destruct (name_fields_ok names (map field_value fs) []) as (d' & E & Hk & E1 & E2); auto.
      * rewrite map_length. auto.
      * constructor.
      * exists d'. split; auto. split; auto. split; [|auto]. intros k n Ek. rewrite (E1 _ _ Ek). cbn [cell].
        rewrite nth_error_map. destruct (nth_error fs k); reflexivity.
    + intros ->. destruct names; [congruence|discriminate].
Qed.
Definition entry_text (e : nat * Z) : string := (nat_text (fst e) ++ " " ++ int_text (snd e))%string.
Lemma entry_text_chars e c : In c (chars (entry_text e)) -> digit c \/ c = "-"%char \/ c = " "%char.
Proof.
  unfold entry_text. rewrite !chars_app, !in_app_iff. intros [Hc|[Hc|Hc]].
  - left. eapply nat_text_digits; eauto.
  - cbn in Hc. destruct Hc as [<-|[]]. auto.
  - apply int_text_chars in Hc. tauto.
Qed.
Lemma entry_text_plain e : plain_field (Bare (entry_text e)).
Proof.
  cbn [plain_field]. unfold one_line, lacks.
  assert (E : forall c, In c (chars (entry_text e)) -> ~ line_break c /\ c <> dq /\ c <> ","%char).
  { intros c Hc. apply entry_text_chars in Hc as [Hd|[->| ->]].
    - apply digit_facts in Hd. tauto.
    - split; [|split; discriminate]. intros X. vm_compute in X. decompose [or False] X; discriminate.
    - split; [|split; discriminate]. intros X. vm_compute in X. decompose [or False] X; discriminate. }
  split; [|split].
  - intros c Hc. apply (E c Hc).
  - intros Hc. apply E in Hc. tauto.
  - intros Hc. apply E in Hc. tauto.
Qed.
Lemma entry_text_split e : split_at_char " " (entry_text e) = [nat_text (fst e); int_text (snd e)].
Proof.
  unfold entry_text. cbn [append]. rewrite split_cons.
  - rewrite split_lacks; [reflexivity|]. intros Hc. apply int_text_chars in Hc as [Hd|Hd]; [apply digit_facts in Hd; tauto|discriminate].
  - intros Hc. apply nat_text_digits in Hc. apply digit_facts in Hc. tauto.
Qed.
Lemma app_nonempty_l a b : a <> "" -> (a ++ b)%string <> "".
Proof. destruct a; cbn; congruence. Qed.
Lemma sparse_row es : row_text (Sparse es) = ("{" ++ String.concat "," (map field_text (map (fun e => Bare (entry_text e)) es)) ++ "}")%string.
Proof. cbn [row_text]. rewrite map_map. reflexivity. Qed.
Lemma app_end a b r c : b <> "" -> (a ++ b)%string = (r ++ String c "")%string -> exists r', b = (r' ++ String c "")%string.
Proof.
  revert r. induction a as [|x a IH]; intros r Hb E; cbn in E; [eauto|].
  destruct r as [|y r]; cbn in E; injection E as E1 E2.
  - destruct a; [|discriminate]. cbn in E2. congruence.
  - eauto.
Qed.
Lemma sparse_strip es :
  strip (among "{}") (row_text (Sparse es)) = String.concat "," (map field_text (map (fun e => Bare (entry_text e)) es)).
Proof.
  rewrite sparse_row. cbn [append]. apply strip_around; auto.
  - intros r c E. apply among_not. cbn. destruct es as [|e es]; [discriminate|].
    assert (Hc : In c (chars (nat_text (fst e)))).
    { cbn [map] in E. destruct (nat_text (fst e)) as [|c' t] eqn:Et; [exfalso; eapply nat_text_nonempty; eauto|].
      destruct es as [|e' es].
      - cbn [map String.concat field_text entry_text] in E. unfold entry_text in E. rewrite Et in E. cbn [append] in E. injection E as -> _. cbn. auto.
      - cbn [map] in E. rewrite concat_comma_cons in E. cbn [field_text] in E. unfold entry_text at 1 in E. rewrite Et in E. cbn [append] in E. injection E as -> _. cbn. auto. }
    apply nat_text_digits in Hc. apply digit_facts in Hc. intuition congruence.
  - assert (G : forall r c, String.concat "," (map field_text (map (fun e => Bare (entry_text e)) es)) = (r ++ String c "")%string -> digit c).
    { induction es as [|e es IH]; intros r c E; [destruct r; discriminate|]. destruct es as [|e' es].
      - cbn [map String.concat field_text] in E. unfold entry_text in E. rewrite <- app_str_assoc in E.
        apply app_end in E as [r' E]; [eapply int_text_last; eauto|apply int_text_nonempty].
      - cbn [map] in E. rewrite concat_comma_cons in E. change (String "," ?x) with ("," ++ x)%string in E. rewrite <- app_str_assoc in E.
        apply app_end in E as [r' E]; [eapply IH; exact E|].
        intros X. change (String.concat "," (map field_text (map (fun e => Bare (entry_text e)) (e' :: es))) = "") in X.
        apply row_text_empty in X as [X|X]; [discriminate|]. injection X as X _. apply (app_nonempty_l (nat_text (fst e')) (" " ++ int_text (snd e')) (nat_text_nonempty _)). exact X. }
    intros r c E. apply among_not. apply G in E. apply digit_facts in E. cbn. intuition congruence.
Qed.
Lemma sparse_csv es : csv_row (String.concat "," (map field_text (map (fun e => Bare (entry_text e)) es))) = map entry_text es.
Proof.
  destruct es as [|e es]; [reflexivity|]. rewrite csv_row_dense.
  - rewrite map_map. reflexivity.
  - intros f Hf. apply in_map_iff in Hf as (e' & <- & _). apply entry_text_plain.
  - discriminate.
  - intros X. injection X as X _. apply (app_nonempty_l (nat_text (fst e)) (" " ++ int_text (snd e)) (nat_text_nonempty _)). exact X.
Qed.
Lemma py_nth_nat {X} (l : list X) i : py_nth l (Z.of_nat i) = nth_error l i.
Proof. unfold py_nth. destruct (Z.ltb_spec (Z.of_nat i) 0); [lia|]. rewrite Nat2Z.id. reflexivity. Qed.
Definition sparse_step (names : list string) (d : dict string read_value) (field : string) : result (dict string read_value) :=
  match split_at_char " " field with
  | [index; value] =>
    do v <- of_option ValueError (int_of_string value) ;
    do i <- of_option ValueError (int_of_string index) ;
    do n <- of_option IndexError (py_nth names i) ;
    Ok (dict_set n (Number v) d)
  | _ => Err ValueError
  end.
Lemma sparse_step_ok names d e n : nth_error names (fst e) = Some n -> sparse_step names d (entry_text e) = Ok (dict_set n (Number (snd e)) d).
Proof.
  intros En. unfold sparse_step. rewrite entry_text_split, int_of_int_text, int_of_nat_text. cbn [of_option bind].
  rewrite py_nth_nat, En. reflexivity.
Qed.
Lemma sparse_fold names : NoDup names -> forall es (acc : nat -> Z) d, (forall i z, In (i, z) es -> i < length names) -> NoDup (keys d) ->
  (forall k n, nth_error names k = Some n -> dict_get n d = Some (Number (acc k))) ->
  (forall n, ~ In n names -> dict_get n d = None) ->
  exists d', foldM (sparse_step names) (map entry_text es) d = Ok d' /\ NoDup (keys d') /\
    (forall k n, nth_error names k = Some n -> dict_get n d' = Some (Number (fold_left (fun z e => if fst e =? k then snd e else z) es (acc k)))) /\
    (forall n, ~ In n names -> dict_get n d' = None).
Proof.
  intros Hn. induction es as [|[i z] es IH]; intros acc d Hi Hd H1 H2.
  - exists d. cbn. auto.
  - destruct (nth_error_lt names i) as [m Em]; [eapply Hi; cbn; auto|].
    cbn [map foldM]. rewrite (sparse_step_ok names d (i, z) m) by auto. cbn [bind].
    destruct (IH (fun k => if i =? k then z else acc k) (dict_set m (Number z) d)) as (d' & E & Hk & E1 & E2).
    + intros; eapply Hi; cbn; eauto.
    + apply keys_dict_set_NoDup; auto.
    + intros k n Ek. rewrite dict_get_set. destruct (eqb_ok n m) as [Enm|Hnm].
      * subst. rewrite (proj1 (NoDup_nth_error names) Hn i k); [rewrite Nat.eqb_refl; auto|eapply nth_error_Some_lt; eauto|congruence].
      * destruct (Nat.eqb_spec i k); [subst; congruence|]. auto.
    + intros n Hni. rewrite dict_get_set. destruct (eqb_ok n m); [|auto]. subst. exfalso. apply Hni. eapply nth_error_In; eauto.
    + exists d'. split; [exact E|]. split; [exact Hk|]. split; [|exact E2]. intros k n Ek. cbn [fold_left fst snd]. apply (E1 k n Ek).
Qed.
Lemma zeros_ok names : forall d : dict string read_value, NoDup (keys d) ->
  let d' := fold_left (fun d n => dict_set n (Number 0) d) names d in
  NoDup (keys d') /\ forall n, dict_get n d' = if mem n names then Some (Number 0) else dict_get n d.
Proof.
  induction names as [|m names IH]; intros d Hd; cbn [fold_left]; [auto|].
  destruct (IH (dict_set m (Number 0) d)) as [Hk E]; [apply keys_dict_set_NoDup; auto|]. split; auto. intros n. rewrite E, dict_get_set.
  unfold mem. cbn [existsb]. fold (mem n names). destruct (mem n names); [rewrite orb_true_r; auto|]. rewrite orb_false_r. auto.
Qed.
Lemma parse_sparse es names : NoDup names -> (forall i z, In (i, z) es -> i < length names) ->
  exists d', parse_instance (row_text (Sparse es)) names = Ok d' /\ NoDup (keys d') /\
    (forall k n, nth_error names k = Some n -> dict_get n d' = cell (Sparse es) k) /\
    (forall n, ~ In n names -> dict_get n d' = None).
Proof.
  intros Hn Hi. unfold parse_instance. rewrite (proj2 (prefix_brace _)) by (rewrite sparse_row; eexists; reflexivity).
  rewrite sparse_strip, sparse_csv. destruct (zeros_ok names [] ltac:(constructor)) as [Hk Ez].
  destruct (sparse_fold names Hn es (fun _ => 0%Z) (fold_left (fun d n => dict_set n (Number 0) d) names [])) as (d' & E & Hk' & E1 & E2); auto.
  - intros k n Ek. rewrite Ez. rewrite (proj2 (mem_In n names)); auto. eapply nth_error_In; eauto.
  - intros n Hni. rewrite Ez, (proj2 (mem_not_In n names)) by auto. reflexivity.
  - exists d'. split; [exact E|]. auto.
Qed.
Lemma parse_row r names : NoDup names -> names <> [] -> plain_row (length names) r ->
  exists d', parse_instance (row_text r) names = Ok d' /\ NoDup (keys d') /\
    (forall k n, nth_error names k = Some n -> dict_get n d' = cell r k) /\
    (forall n, ~ In n names -> dict_get n d' = None).
Proof.
  intros Hn Hne. destruct r as [fs|es]; cbn [plain_row].
  - intros (E1 & E2 & E3 & E4). apply parse_dense; auto.
  - apply parse_sparse; auto.
Qed.
