(** Lemmas about the strings, lines and fields of Model/Arff.v *)
From Coq Require Import String Ascii ZArith Lia DecimalString.
From Verif.Model Require Import Base Dataset TargetDatasets Arff.
From Verif.Lib Require Import ListLib DictLib.
From Verif.Spec Require Import DatasetSpec ArffSpec.
From Verif.Proofs Require Import LogTablesD.
Open Scope string_scope.
Open Scope list_scope.
Open Scope nat_scope.

Lemma chars_app a b : chars (a ++ b) = chars a ++ chars b.
Proof. induction a; cbn; f_equal; auto. Qed.
Lemma lacks_app c a b : lacks c (a ++ b) <-> lacks c a /\ lacks c b.
Proof. unfold lacks. rewrite chars_app, in_app_iff. tauto. Qed.
Lemma lacks_cons c x s : lacks c (String x s) <-> x <> c /\ lacks c s.
Proof. unfold lacks. cbn. tauto. Qed.
Lemma one_line_app a b : one_line (a ++ b) <-> one_line a /\ one_line b.
Proof.
  unfold one_line. rewrite chars_app. split.
  - intros E. split; intros c Hc; apply E; apply in_app_iff; auto.
  - intros [E1 E2] c Hc. apply in_app_iff in Hc. destruct Hc; auto.
Qed.
Lemma one_line_cons c s : one_line (String c s) <-> ~ line_break c /\ one_line s.
Proof.
  unfold one_line. cbn. split.
  - intros E. split; auto.
  - intros [E1 E2] x [<-|Hx]; auto.
Qed.
Lemma one_line_nil : one_line "".
Proof. intros c []. Qed.
Lemma is_break_ok c : is_break c = true <-> line_break c.
Proof.
  unfold is_break, one_of, line_break. rewrite existsb_exists. split.
  - intros (n & Hn & E). apply Nat.eqb_eq in E. rewrite E. auto.
  - intros Hn. eexists. split; eauto. apply Nat.eqb_refl.
Qed.
Lemma not_break c : ~ line_break c -> is_break c = false.
Proof. intros E. destruct (is_break c) eqn:Eb; auto. apply is_break_ok in Eb. tauto. Qed.

(** ** lines *)
Lemma splitlines_cons l s : one_line l -> splitlines (l ++ lf ++ s) = l :: splitlines s.
Proof.
  induction l as [|c l IH]; intros El.
  - cbn. destruct s; reflexivity.
  - apply one_line_cons in El as [Ec El]. cbn [append splitlines]. rewrite (not_break c Ec), (IH El). reflexivity.
Qed.
Lemma splitlines_one l : one_line l -> l <> "" -> splitlines l = [l].
Proof.
  induction l as [|c l IH]; intros El Hn; [congruence|].
  apply one_line_cons in El as [Ec El]. cbn [splitlines]. rewrite (not_break c Ec).
  destruct l as [|c' l]; [reflexivity|]. rewrite IH; auto. congruence.
Qed.
Lemma concat_lf_cons x y l : String.concat lf (x :: y :: l) = (x ++ lf ++ String.concat lf (y :: l))%string.
Proof. reflexivity. Qed.
Definition full (l : string) : bool := negb (eqb l "").
Lemma splitlines_concat ls l : (forall x, In x (ls ++ [l]) -> one_line x) ->
  splitlines (String.concat lf (ls ++ [l])) = ls ++ if full l then [l] else [].
Proof.
  induction ls as [|x ls IH]; intros E.
  - cbn [app String.concat]. unfold full. destruct (eqb_ok l "") as [El|El]; cbn [negb].
    + rewrite El. reflexivity.
    + apply splitlines_one; auto. apply E. cbn. auto.
  - assert (Er : exists y r, ls ++ [l] = y :: r) by (destruct ls; cbn; eauto). destruct Er as (y & r & Er).
    cbn [app]. rewrite Er, concat_lf_cons, splitlines_cons by (apply E; cbn; auto). rewrite <- Er, IH; [reflexivity|].
    intros z Hz. apply E. cbn. auto.
Qed.

(** ** [split] *)
Lemma split_nonempty sep s : split_at_char sep s <> [].
Proof. induction s as [|c s IH]; cbn; [discriminate|]. destruct (Ascii.eqb c sep); [discriminate|]. unfold put. destruct (split_at_char sep s); discriminate. Qed.
Lemma split_lacks sep s : lacks sep s -> split_at_char sep s = [s].
Proof.
  induction s as [|c s IH]; intros El; [reflexivity|]. apply lacks_cons in El as [Ec El].
  cbn [split_at_char]. rewrite (IH El). destruct (Ascii.eqb_spec c sep); [congruence|reflexivity].
Qed.
Lemma split_cons sep a s : lacks sep a -> split_at_char sep (a ++ String sep s) = a :: split_at_char sep s.
Proof.
  induction a as [|c a IH]; intros El.
  - cbn [append split_at_char]. rewrite Ascii.eqb_refl. reflexivity.
  - apply lacks_cons in El as [Ec El]. cbn [append split_at_char]. rewrite (IH El).
    destruct (Ascii.eqb_spec c sep); [congruence|reflexivity].
Qed.
Fixpoint count_char (sep : ascii) (s : string) : nat :=
  match s with EmptyString => 0 | String c s' => (if Ascii.eqb c sep then 1 else 0) + count_char sep s' end.
Lemma split_length sep s : length (split_at_char sep s) = S (count_char sep s).
Proof.
  induction s as [|c s IH]; [reflexivity|]. cbn [split_at_char count_char].
  destruct (Ascii.eqb c sep); cbn [length plus]; [lia|].
  unfold put. destruct (split_at_char sep s) eqn:E; [exfalso; eapply split_nonempty; eauto|]. cbn in *. lia.
Qed.
Lemma count_char_app sep a b : count_char sep (a ++ b) = count_char sep a + count_char sep b.
Proof. induction a; cbn; [reflexivity|]. rewrite IHa. lia. Qed.
Lemma count_char_In sep s : In sep (chars s) -> 1 <= count_char sep s.
Proof.
  induction s as [|c s IH]; cbn; [tauto|]. intros [->|E]; [rewrite Ascii.eqb_refl; lia|]. apply IH in E. lia.
Qed.

(** ** [strip] *)
Lemma rstrip_end p s c : p c = true -> rstrip p (s ++ String c "") = rstrip p s.
Proof. intros E. induction s as [|x s IH]; cbn; [rewrite E; reflexivity|]. rewrite IH. reflexivity. Qed.
Lemma rstrip_id p s : (forall r c, s = (r ++ String c "")%string -> p c = false) -> rstrip p s = s.
Proof.
  induction s as [|x s IH]; intros E; [reflexivity|]. cbn. rewrite IH.
  - destruct s; [|reflexivity]. rewrite (E "" x eq_refl). reflexivity.
  - intros r c ->. apply (E (String x r) c). reflexivity.
Qed.
Lemma lstrip_id p s : (forall r c, s = String c r -> p c = false) -> lstrip p s = s.
Proof. intros E. destruct s; [reflexivity|]. cbn. rewrite (E _ _ eq_refl). reflexivity. Qed.
Lemma strip_around p a b s : p a = true -> p b = true ->
  (forall r c, s = String c r -> p c = false) -> (forall r c, s = (r ++ String c "")%string -> p c = false) ->
  strip p (String a (s ++ String b "")) = s.
Proof.
  intros Ea Eb E1 E2. unfold strip. cbn [lstrip]. rewrite Ea. destruct s as [|x s].
  - cbn. rewrite Eb. reflexivity.
  - cbn [append lstrip]. rewrite (E1 _ _ eq_refl). change (String x (s ++ String b "")) with (String x s ++ String b "")%string.
    rewrite rstrip_end by auto. apply rstrip_id. auto.
Qed.
Lemma strip_id p s :
  (forall r c, s = String c r -> p c = false) -> (forall r c, s = (r ++ String c "")%string -> p c = false) -> strip p s = s.
Proof. intros E1 E2. unfold strip. rewrite lstrip_id by auto. apply rstrip_id. auto. Qed.
Lemma among_ok cs c : among cs c = true <-> In c (chars cs).
Proof.
  unfold among. rewrite existsb_exists. split.
  - intros (x & Hx & E). apply Ascii.eqb_eq in E. subst. auto.
  - intros Hc. exists c. split; auto. apply Ascii.eqb_refl.
Qed.
Lemma among_not cs c : among cs c = false <-> ~ In c (chars cs).
Proof. rewrite <- among_ok. destruct (among cs c); split; congruence. Qed.
Lemma strip_quotes n : (forall r, n <> String dq r) -> (forall r, n <> (r ++ String dq "")%string) ->
  strip (among (String quotation_mark "")) (in_quotes n) = n.
Proof.
  intros E1 E2. unfold in_quotes. apply strip_around; auto.
  - intros r c E. apply among_not. cbn. intros [<-|[]]. eapply E1; eauto.
  - intros r c E. apply among_not. cbn. intros [<-|[]]. eapply E2; eauto.
Qed.

(** ** csv.reader *)
Lemma add_char_app f c s : (add_char f c ++ s = f ++ String c s)%string.
Proof. unfold add_char. rewrite app_str_assoc. reflexivity. Qed.
Lemma csv_quoted s rest : lacks dq s -> forall f, csv_fields InQuoted f (s ++ String dq rest) = csv_fields QuoteInQuoted (f ++ s) rest.
Proof.
  induction s as [|c s IH]; intros El f.
  - cbn [append csv_fields]. rewrite app_str_nil, Ascii.eqb_refl. reflexivity.
  - apply lacks_cons in El as [Ec El]. cbn [append csv_fields]. change quotation_mark with dq; destruct (Ascii.eqb_spec c dq); [congruence|].
    rewrite (IH El), add_char_app. reflexivity.
Qed.
Lemma csv_in_field s rest : lacks "," s -> forall f, csv_fields InField f (s ++ String "," rest) = (f ++ s)%string :: csv_fields StartField "" rest.
Proof.
  induction s as [|c s IH]; intros El f.
  - cbn [append csv_fields]. rewrite app_str_nil, Ascii.eqb_refl. reflexivity.
  - apply lacks_cons in El as [Ec El]. cbn [append csv_fields]. destruct (Ascii.eqb_spec c ","); [congruence|].
    rewrite (IH El), add_char_app. reflexivity.
Qed.
Lemma csv_in_field_end s : lacks "," s -> forall f, csv_fields InField f s = [(f ++ s)%string].
Proof.
  induction s as [|c s IH]; intros El f.
  - cbn. rewrite app_str_nil. reflexivity.
  - apply lacks_cons in El as [Ec El]. cbn [csv_fields]. destruct (Ascii.eqb_spec c ","); [congruence|].
    rewrite (IH El), add_char_app. reflexivity.
Qed.
Lemma csv_field f rest : plain_field f ->
  csv_fields StartField "" (field_text f ++ String "," rest) = field_value f :: csv_fields StartField "" rest.
Proof.
  destruct f as [s|s]; cbn [field_text field_value plain_field].
  - intros [_ E]. unfold in_quotes. cbn [append csv_fields]. rewrite Ascii.eqb_refl, app_str_assoc.
    cbn [append]. rewrite csv_quoted by auto. cbn. reflexivity.
  - intros (_ & E1 & E2). destruct s as [|c s]; [reflexivity|].
    apply lacks_cons in E1 as [E1 _]. apply lacks_cons in E2 as [E2 E3]. cbn [append csv_fields].
    change quotation_mark with dq; destruct (Ascii.eqb_spec c dq); [congruence|]. destruct (Ascii.eqb_spec c ","); [congruence|].
    rewrite csv_in_field by auto. reflexivity.
Qed.
Lemma csv_field_end f : plain_field f -> csv_fields StartField "" (field_text f) = [field_value f].
Proof.
  destruct f as [s|s]; cbn [field_text field_value plain_field].
  - intros [_ E]. unfold in_quotes. cbn [append csv_fields]. rewrite Ascii.eqb_refl.
    rewrite csv_quoted by auto. reflexivity.
  - intros (_ & E1 & E2). destruct s as [|c s]; [reflexivity|].
    apply lacks_cons in E1 as [E1 _]. apply lacks_cons in E2 as [E2 E3]. cbn [csv_fields].
    change quotation_mark with dq; destruct (Ascii.eqb_spec c dq); [congruence|]. destruct (Ascii.eqb_spec c ","); [congruence|].
    rewrite csv_in_field_end by auto. reflexivity.
Qed.
Lemma concat_comma_cons x y l : String.concat "," (x :: y :: l) = (x ++ String "," (String.concat "," (y :: l)))%string.
Proof. reflexivity. Qed.
Lemma csv_fields_row fs : (forall f, In f fs -> plain_field f) -> fs <> [] ->
  csv_fields StartField "" (String.concat "," (map field_text fs)) = map field_value fs.
Proof.
  induction fs as [|f fs IH]; intros E Hn; [congruence|]. destruct fs as [|g fs].
  - apply csv_field_end. apply E. cbn. auto.
  - cbn [map]. rewrite concat_comma_cons, csv_field by (apply E; cbn; auto). f_equal. apply IH; [|discriminate].
    intros f0 H0. apply E. cbn. auto.
Qed.
Lemma row_text_empty fs : String.concat "," (map field_text fs) = "" -> fs = [] \/ fs = [Bare ""].
Proof.
  destruct fs as [|f [|g fs]]; cbn; auto.
  - destruct f as [s|s]; cbn; [discriminate|]. intros ->. auto.
  - destruct (field_text f); discriminate.
Qed.
Lemma row_text_brace fs s : String.concat "," (map field_text fs) = String "{" s -> exists r fs', fs = Bare (String "{" r) :: fs'.
Proof.
  destruct fs as [|f fs]; [discriminate|]. assert (E : exists r, String.concat "," (map field_text (f :: fs)) = (field_text f ++ r)%string /\ (r = "" \/ exists r', r = String "," r')).
  { destruct fs as [|g fs]; [exists ""; cbn; rewrite app_str_nil; auto|]. cbn [map]. rewrite concat_comma_cons. eauto. }
  destruct E as (r & -> & Er). destruct f as [t|t]; cbn; [discriminate|]. destruct t as [|c t]; cbn.
  - destruct Er as [->|[r' ->]]; discriminate.
  - intros E. injection E as -> _. eauto.
Qed.
Lemma csv_row_dense fs : (forall f, In f fs -> plain_field f) -> fs <> [] -> fs <> [Bare ""] ->
  csv_row (String.concat "," (map field_text fs)) = map field_value fs.
Proof.
  intros E Hn Hb. unfold csv_row. destruct (String.concat "," (map field_text fs)) eqn:Et.
  - apply row_text_empty in Et. tauto.
  - rewrite <- Et. apply csv_fields_row; auto.
Qed.
