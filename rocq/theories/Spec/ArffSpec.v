(** Vocabulary for the properties of datasets written to and read from the
    Attribute-Relation File Format *)
From Coq Require Import String Ascii ZArith DecimalString.
From Verif.Model Require Import Base Sort Dataset Arff.
From Verif.Spec Require Import DatasetSpec.
Open Scope string_scope.
Open Scope list_scope.
Open Scope nat_scope.

(** ** text *)
Definition chars : string -> list ascii := list_ascii_of_string.
(** the characters at which [str.splitlines] splits *)
Definition line_break (c : ascii) : Prop := In (nat_of_ascii c) [10; 11; 12; 13; 28; 29; 30; 133].
Definition one_line (s : string) : Prop := forall c, In c (chars s) -> ~ line_break c.
Definition lacks (c : ascii) (s : string) : Prop := ~ In c (chars s).
Definition dq : ascii := ascii_of_nat 34.
Definition lf : string := String (ascii_of_nat 10) "".
Definition in_quotes (s : string) : string := String dq (s ++ String dq "").
Definition int_text (z : Z) : string := NilZero.string_of_int (Z.to_int z).
Definition nat_text (n : nat) : string := NilZero.string_of_uint (Nat.to_uint n).

(** ** documents *)
Inductive field := Quoted (s : string) | Bare (s : string).
Inductive domain := Nominal (values : list field) | Numeric.
Inductive row := Dense (fs : list field) | Sparse (entries : list (nat * Z)).
Record document := { relation : string; attributes : list (string * domain); rows : list row }.

Definition field_text (f : field) : string := match f with Quoted s => in_quotes s | Bare s => s end.
Definition field_value (f : field) : string := match f with Quoted s => s | Bare s => s end.
Definition attribute_text (a : string * domain) : string :=
  ("@ATTRIBUTE " ++ in_quotes (fst a) ++ " " ++
   match snd a with Nominal vs => "{" ++ String.concat "," (map field_text vs) ++ "}" | Numeric => "NUMERIC" end)%string.
Definition row_text (r : row) : string :=
  match r with
  | Dense fs => String.concat "," (map field_text fs)
  | Sparse es => ("{" ++ String.concat "," (map (fun e => nat_text (fst e) ++ " " ++ int_text (snd e)) es) ++ "}")%string
  end.
Definition lines_of (doc : document) : list string :=
  ("@RELATION " ++ in_quotes (relation doc))%string :: "" :: map attribute_text (attributes doc) ++
  "" :: "@DATA" :: map row_text (rows doc).
Definition text_of (doc : document) : string := String.concat lf (lines_of doc).

Definition names_of (doc : document) : list string := map fst (attributes doc).
Definition is_nominal (a : string * domain) : bool := match snd a with Nominal _ => true | Numeric => false end.

(** no blank, no line break, no quotation mark at an end *)
Definition plain_name (n : string) : Prop :=
  one_line n /\ lacks " " n /\ (forall r, n <> String dq r) /\ (forall r, n <> (r ++ String dq "")%string).
Definition plain_category (v : string) : Prop := one_line v /\ lacks " " v.
Definition plain_field (f : field) : Prop :=
  match f with
  | Quoted s => one_line s /\ lacks dq s
  | Bare s => one_line s /\ lacks dq s /\ lacks "," s
  end.
Definition plain_row (width : nat) (r : row) : Prop :=
  match r with
  | Dense fs => length fs = width /\ (forall f, In f fs -> plain_field f) /\
                fs <> [Bare ""] /\ (forall s fs', fs <> Bare (String "{" s) :: fs')
  | Sparse es => forall i z, In (i, z) es -> i < width
  end.
Record plain (doc : document) : Prop := {
  plain_relation : one_line (relation doc);
  plain_attributes : attributes doc <> [];
  plain_distinct : NoDup (names_of doc);
  plain_names : forall n, In n (names_of doc) -> plain_name n;
  plain_categories : forall n vs v, In (n, Nominal vs) (attributes doc) -> In v vs -> plain_category (field_value v);
  plain_rows : forall r, In r (rows doc) -> plain_row (length (attributes doc)) r
}.

(** the number at position [i] of a sparse row: the last one given, or 0 *)
Definition entry (es : list (nat * Z)) (i : nat) : Z :=
  fold_left (fun z e => if fst e =? i then snd e else z) es 0%Z.
(** the value of a row at position [i] *)
Definition cell (r : row) (i : nat) : option read_value :=
  match r with
  | Dense fs => option_map (fun f => Text (field_value f)) (nth_error fs i)
  | Sparse es => Some (Number (entry es i))
  end.

(** [h] and [d] are what the document says: the attributes in the order of the
    document, instance [i] with id [i] for row [i], with the values of the row
    and no other features *)
Record reads_as (doc : document) (h : heap nat read_value unit) (d : dataset read_value) : Prop := {
  r_cats : cats d = map fst (filter is_nominal (attributes doc));
  r_nums : nums d = map fst (filter (fun a => negb (is_nominal a)) (attributes doc));
  r_insts : insts d = seq 0 (length (rows doc));
  r_length : length h = length (rows doc);
  r_history : history true h d;
  r_rows : forall i r, nth_error (rows doc) i = Some r -> exists x, nth_error h i = Some x /\ iid x = i /\
    (forall k n, nth_error (names_of doc) k = Some n -> dict_get n (feats x) = cell r k) /\
    (forall n, ~ In n (names_of doc) -> dict_get n (feats x) = None)
}.

(** ** datasets *)
Section S.
  Context {I V T : Type} `{Eq I} `{Eq V}.
  Variable show : V -> string.
  (** text that does not get lost in a quoted field / in an unquoted field *)
  Definition plain_value (s : string) : Prop := one_line s /\ lacks " " s /\ lacks dq s.
  Definition plain_number (s : string) : Prop :=
    one_line s /\ lacks dq s /\ lacks "," s /\ s <> "" /\ (forall r, s <> String "{" r).
  Record plain_dataset (h : heap I V T) (d : dataset V) : Prop := {
    d_names : forall n, In n (cats d ++ nums d) -> plain_name n;
    d_categories : forall a n v, In a (insts d) -> In n (cats d) -> value h a n = Some v -> plain_value (show v);
    d_numbers : forall a n v, In a (insts d) -> In n (nums d) -> value h a n = Some v -> plain_number (show v)
  }.
  (** no line break in any name or value *)
  Record unbroken (h : heap I V T) (d : dataset V) : Prop := {
    u_names : forall n, In n (cats d ++ nums d) -> one_line n;
    u_values : forall a n v, In a (insts d) -> value h a n = Some v -> one_line (show v)
  }.
  (** the file of a dataset: the sorted values of the categorical attributes,
      one row per instance in the order [it], categorical values first *)
  Definition unique_texts (leb : V -> V -> bool) (d : dataset V) (n : string) : list string :=
    match uniques d n with Some s => map show (Sort.stable_sort leb s) | None => [] end.
  Definition value_text (h : heap I V T) (a : nat) (n : string) : string :=
    match value h a n with Some v => show v | None => "" end.
  Definition row_fields (h : heap I V T) (d : dataset V) (a : nat) : list field :=
    map (fun n => Quoted (value_text h a n)) (cats d) ++ map (fun n => Bare (value_text h a n)) (nums d).
  Definition own_attributes (leb : V -> V -> bool) (d : dataset V) : list (string * domain) :=
    map (fun n => (n, Nominal (map Quoted (unique_texts leb d n)))) (cats d) ++ map (fun n => (n, Numeric)) (nums d).
  (** [extra] attributes with the [extra_fields] of an instance come last *)
  Definition document_of (leb : V -> V -> bool) (extra : list (string * domain)) (extra_fields : nat -> list field)
      (relation : string) (h : heap I V T) (d : dataset V) (it : list nat) : document :=
    {| relation := relation; attributes := own_attributes leb d ++ extra;
       rows := map (fun a => Dense (row_fields h d a ++ extra_fields a)) it |}.
End S.

(** [d2] in [h2] is what is read from the file of [d] in [h], iterated in the
    order [it]: the same names, and for the i-th instance an instance with id
    [i], the values as text and a target related to the old one by [same] *)
Record restored {I V T T2 : Type} `{Eq I} `{Eq V} (show : V -> string) (same : T -> T2 -> Prop)
    (h : heap I V T) (d : dataset V) (it : list nat) (h2 : heap nat read_value T2) (d2 : dataset read_value) : Prop := {
  s_cats : Permutation.Permutation (cats d2) (cats d);
  s_nums : Permutation.Permutation (nums d2) (nums d);
  s_length : length (insts d2) = length it;
  s_insts : forall i a x, nth_error it i = Some a -> nth_error h a = Some x -> exists b x2, member h2 d2 b x2 /\ iid x2 = i /\
    (forall n, dict_get n (feats x2) = option_map (fun v => Text (show v)) (value h a n)) /\ same (target x) (target x2)
}.

(** [d2] in [h2] is what a class with a target reads from a document if the
    attributes [chosen] make up the target: the other attributes, and for row
    [i] an instance with id [i], the values of the other attributes and a
    target related to the row by [fits] *)
Record read_with_target {T2 : Type} (doc : document) (chosen : list string) (fits : row -> T2 -> Prop)
    (h2 : heap nat read_value T2) (d2 : dataset read_value) : Prop := {
  t_cats : Permutation.Permutation (cats d2) (map fst (filter (fun a => is_nominal a && negb (mem (fst a) chosen)) (attributes doc)));
  t_nums : Permutation.Permutation (nums d2) (map fst (filter (fun a => negb (is_nominal a) && negb (mem (fst a) chosen)) (attributes doc)));
  t_length : length (insts d2) = length (rows doc);
  t_rows : forall i r, nth_error (rows doc) i = Some r -> exists b x2, member h2 d2 b x2 /\ iid x2 = i /\
    (forall k n, nth_error (names_of doc) k = Some n -> ~ In n chosen -> dict_get n (feats x2) = cell r k) /\
    (forall n, In n chosen \/ ~ In n (names_of doc) -> dict_get n (feats x2) = None) /\ fits r (target x2)
}.
(** a cell that says that a label is there, as text or as a number *)
Definition set_cell (c : option read_value) : Prop := c = Some (Number 1) \/ c = Some (Text "1").
(** a cell with the count [n] *)
Definition count_cell (c : option read_value) (n : nat) : Prop := c = Some (Number (Z.of_nat n)) \/ c = Some (Text (nat_text n)).
