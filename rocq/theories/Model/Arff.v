(** Model of reading and writing datasets in the Attribute-Relation File Format
    (prolothar_common/models/dataset/dataset.py 121-171, 301-358 and the
    methods of the subclasses).
    Characters are code points below 256.  Not modelled: the errors of
    csv.reader for NUL characters and for fields longer than 131072, and
    categorical values that are tuples (the [%] of line 151 takes them apart).
    Classes, labels and symbols of sequences are strings. *)
From Coq Require Import String Ascii ZArith DecimalString.
From Verif.Model Require Import Base Sort Dataset TargetDatasets.
Open Scope string_scope.
Open Scope list_scope.
Open Scope nat_scope.

(** ** strings *)
Definition newline : string := String (ascii_of_nat 10) "".
Definition one_of (ns : list nat) (c : ascii) : bool := existsb (Nat.eqb (nat_of_ascii c)) ns.
(** the line boundaries of [str.splitlines] below 256 *)
Definition is_break (c : ascii) : bool := one_of [10; 11; 12; 13; 28; 29; 30; 133] c.
Definition put (c : ascii) (ls : list string) : list string :=
  match ls with [] => [String c ""] | l :: ls' => String c l :: ls' end.
(** [str.splitlines(keepends=False)]; "\r\n" is one boundary *)
Fixpoint splitlines (s : string) : list string :=
  match s with
  | EmptyString => []
  | String c s' =>
    if is_break c then
      match s' with
      | String d s'' => if one_of [13] c && one_of [10] d then "" :: splitlines s'' else "" :: splitlines s'
      | EmptyString => "" :: splitlines s'
      end
    else put c (splitlines s')
  end.
(** [str.split(sep)] for a separator of one character *)
Fixpoint split_at_char (sep : ascii) (s : string) : list string :=
  match s with
  | EmptyString => [""]
  | String c s' => if Ascii.eqb c sep then "" :: split_at_char sep s' else put c (split_at_char sep s')
  end.
(** [str.lower]; only used to compare with ASCII words *)
Definition lower_char (c : ascii) : ascii :=
  let n := nat_of_ascii c in if (65 <=? n) && (n <=? 90) then ascii_of_nat (n + 32) else c.
Fixpoint lower (s : string) : string :=
  match s with EmptyString => "" | String c s' => String (lower_char c) (lower s') end.
(** [str.strip] of the characters [p] *)
Fixpoint lstrip (p : ascii -> bool) (s : string) : string :=
  match s with EmptyString => "" | String c s' => if p c then lstrip p s' else s end.
Fixpoint rstrip (p : ascii -> bool) (s : string) : string :=
  match s with
  | EmptyString => ""
  | String c s' => match rstrip p s' with EmptyString => if p c then "" else String c "" | r => String c r end
  end.
Definition strip (p : ascii -> bool) (s : string) : string := rstrip p (lstrip p s).
Definition among (cs : string) (c : ascii) : bool := existsb (Ascii.eqb c) (list_ascii_of_string cs).
(** [int(s)] *)
Definition is_whitespace (c : ascii) : bool := one_of [9; 10; 11; 12; 13; 28; 29; 30; 31; 32; 133; 160] c.
Fixpoint digits (acc : Z) (after_digit : bool) (s : string) : option Z :=
  match s with
  | EmptyString => if after_digit then Some acc else None
  | String c s' =>
    let n := nat_of_ascii c in
    if (48 <=? n) && (n <=? 57) then digits (10 * acc + Z.of_nat (n - 48))%Z true s'
    else if (n =? 95) && after_digit then digits acc false s' else None
  end.
Definition int_of_string (s : string) : option Z :=
  match strip is_whitespace s with
  | String "-" s' => option_map Z.opp (digits 0 false s')
  | String "+" s' => digits 0 false s'
  | s' => digits 0 false s'
  end.

(** ** csv.reader for one line without line breaks (Modules/_csv.c,
    parse_process_char with the default dialect) *)
Definition quotation_mark : ascii := ascii_of_nat 34.
Inductive csv_state := StartField | InField | InQuoted | QuoteInQuoted.
Definition add_char (field : string) (c : ascii) : string := (field ++ String c "")%string.
Fixpoint csv_fields (st : csv_state) (field : string) (s : string) : list string :=
  match s with
  | EmptyString => [field]
  | String c s' =>
    match st with
    | StartField =>
      if Ascii.eqb c quotation_mark then csv_fields InQuoted field s'
      else if Ascii.eqb c "," then field :: csv_fields StartField "" s'
      else csv_fields InField (add_char field c) s'
    | InField =>
      if Ascii.eqb c "," then field :: csv_fields StartField "" s'
      else csv_fields InField (add_char field c) s'
    | InQuoted =>
      if Ascii.eqb c quotation_mark then csv_fields QuoteInQuoted field s'
      else csv_fields InQuoted (add_char field c) s'
    | QuoteInQuoted =>
      if Ascii.eqb c quotation_mark then csv_fields InQuoted (add_char field c) s'
      else if Ascii.eqb c "," then field :: csv_fields StartField "" s'
      else csv_fields InField (add_char field c) s'
    end
  end.
Definition csv_row (s : string) : list string :=
  match s with EmptyString => [] | _ => csv_fields StartField "" s end.

(** ** writing *)
Definition quote (s : string) : string := String quotation_mark (s ++ String quotation_mark "").
Definition attribute_line (name type : string) : string := (newline ++ "@ATTRIBUTE " ++ quote name ++ " " ++ type)%string.
Definition category (values : list string) : string := ("{" ++ String.concat "," (map quote values) ++ "}")%string.

Section W.
  (** [show]: [str], [leb]: the order of [sorted]; values that cannot be
      compared (TypeError) are not modelled *)
  Context {I V T : Type} `{Eq I} `{Eq V}.
  Variable show : V -> string.
  Variable leb : V -> V -> bool.
  Notation heap := (heap I V T).
  Notation inst := (inst I V T).

  (** dataset.py 148-158 *)
  Definition attribute_definitions (d : dataset V) : result string :=
    do cs <- mapM (fun n => do x <- of_option KeyError (dict_get n (attrs d)) ;
                            Ok (attribute_line n (category (map show (stable_sort leb (auniq x)))))) (cats d) ;
    Ok (String.concat "" cs ++ String.concat "" (map (fun n => attribute_line n "NUMERIC") (nums d)))%string.
  (** dataset.py 160-171 *)
  Definition shown (x : inst) (names : list string) : result (list string) :=
    mapM (fun n => do v <- of_option KeyError (dict_get n (feats x)) ; Ok (show v)) names.
  Definition instance_line (d : dataset V) (x : inst) : result string :=
    do cs <- shown x (cats d) ;
    do ns <- shown x (nums d) ;
    Ok (newline ++ String.concat "," (map quote cs) ++
        (match cats d, nums d with _ :: _, _ :: _ => "," | _, _ => "" end) ++ String.concat "," ns)%string.
  (** dataset.py 121-146; [definitions] and [line] are what a subclass adds to
      the attributes and to the line of an instance *)
  Definition export_with (definitions : string) (line : inst -> string) (relation : string) (h : heap) (d : dataset V) (it : list nat) : result string :=
    do defs <- attribute_definitions d ;
    do rows <- mapM (fun a => do x <- of_option AttributeError (nth_error h a) ;
                              do r <- instance_line d x ; Ok (r ++ line x)%string) it ;
    Ok ("@RELATION " ++ quote relation ++ newline ++ defs ++ definitions ++ newline ++ newline ++ "@DATA" ++ String.concat "" rows)%string.
  Definition export_to_arff (relation : string) := export_with "" (fun _ => "") relation.
  (** dataset.py 304-305: [self == other]; both are exported with the default
      name of the relation *)
  Definition dataset_eq (h : heap) (d : dataset V) (it : list nat) (h' : heap) (d' : dataset V) (it' : list nat) : result bool :=
    do other <- export_to_arff "Nameless Dataset" h' d' it' ;
    do self <- export_to_arff "Nameless Dataset" h d it ;
    Ok (eqb other self).
End W.

(** classification_dataset.py 73-84 *)
Definition class_export {I V} `{Eq I} `{Eq V} (show : V -> string) leb (class_attribute_name relation : string)
    (h : heap I V string) (D : dataset V * counters V string) (it : list nat) : result string :=
  export_with show leb (attribute_line class_attribute_name (category (stable_sort String.leb (get_set_of_classes (snd D)))))
    (fun x => "," ++ quote (target x))%string relation h (fst D) it.
(** multilabel_dataset.py 37-50 *)
Definition label_export {I V} `{Eq I} `{Eq V} (show : V -> string) leb (label_prefix relation : string)
    (h : heap I V (list string)) (D : dataset V * list string) (it : list nat) : result string :=
  let labels := stable_sort String.leb (snd D) in
  export_with show leb (String.concat "" (map (fun l => attribute_line (label_prefix ++ l) "{0,1}") labels))
    (fun x => "," ++ String.concat "," (map (fun l => if mem l (target x) then "1" else "0") labels))%string relation h (fst D) it.
Definition str_nat (n : nat) : string := NilZero.string_of_uint (Nat.to_uint n).
(** multiset_dataset.py 41-54 *)
Definition multiset_export {I V} `{Eq I} `{Eq V} (show : V -> string) leb (class_prefix relation : string)
    (h : heap I V (dict string nat)) (D : dataset V * (dict string nat * dict string nat)) (it : list nat) : result string :=
  let classes := stable_sort String.leb (multiset_classes (snd D)) in
  export_with show leb (String.concat "" (map (fun l => attribute_line (class_prefix ++ l) "NUMERIC") classes))
    (fun x => "," ++ String.concat "," (map (fun l => str_nat (count_of l (target x))) classes))%string relation h (fst D) it.
(** tuples of strings are compared lexicographically *)
Fixpoint tuple_leb (s t : list string) : bool :=
  match s, t with
  | [], _ => true
  | _, [] => false
  | a :: s', b :: t' => if eqb a b then tuple_leb s' t' else String.leb a b
  end.
Definition sequence_text (separator : string) (s : list string) : string := ("[" ++ String.concat separator s ++ "]")%string.
(** target_sequence_dataset.py 49-63 *)
Definition sequence_export {I V} `{Eq I} `{Eq V} (show : V -> string) leb (sequence_attribute_name separator relation : string)
    (h : heap I V (list string)) (D : dataset V * list string) (it : list nat) : result string :=
  do unique <- compute_set_of_unique_sequences h it ;
  export_with show leb (attribute_line sequence_attribute_name (category (map (sequence_text separator) (stable_sort tuple_leb unique))))
    (fun x => "," ++ quote (sequence_text separator (target x)))%string relation h (fst D) it.

(** ** reading *)
(** what is read: text, or an int (sparse lines) *)
Inductive read_value := Text (s : string) | Number (z : Z).
Definition read_eqb (x y : read_value) : bool :=
  match x, y with
  | Text s, Text t => String.eqb s t
  | Number a, Number b => Z.eqb a b
  | _, _ => false
  end.
Lemma read_eqb_ok (x y : read_value) : reflect (x = y) (read_eqb x y).
Proof.
  destruct x as [s|a], y as [t|b]; cbn; try (constructor; congruence).
  - destruct (String.eqb_spec s t); constructor; congruence.
  - destruct (Z.eqb_spec a b); constructor; congruence.
Qed.
#[global] Instance Eq_read_value : Eq read_value := {| eqb := read_eqb; eqb_ok := read_eqb_ok |}.
Fixpoint name_fields (names fields : list string) (d : dict string read_value) : result (dict string read_value) :=
  match fields with
  | [] => Ok d
  | f :: fields' =>
    match names with
    | [] => Err IndexError
    | n :: names' => name_fields names' fields' (dict_set n (Text f) d)
    end
  end.
(** [l[i]] for an int [i] *)
Definition py_nth {X} (l : list X) (i : Z) : option X :=
  if (i <? 0)%Z then (if (0 <=? Z.of_nat (length l) + i)%Z then nth_error l (Z.to_nat (Z.of_nat (length l) + i)) else None)
  else nth_error l (Z.to_nat i).
(** dataset.py 344-358 *)
Definition parse_instance (line : string) (names : list string) : result (dict string read_value) :=
  if String.prefix "{" line then
    foldM (fun d field =>
      match split_at_char " " field with
      | [index; value] =>
        do v <- of_option ValueError (int_of_string value) ;
        do i <- of_option ValueError (int_of_string index) ;
        do n <- of_option IndexError (py_nth names i) ;
        Ok (dict_set n (Number v) d)
      | _ => Err ValueError
      end) (csv_row (strip (among "{}") line)) (fold_left (fun d n => dict_set n (Number 0) d) names [])
  else name_fields names (csv_row line) [].

Record arff_state := ArffState {
  all_names : list string; cat_names : list string; num_names : list string; started : bool;
  read_instances : list (dict string read_value) }.
(** dataset.py 318-333, one line *)
Definition read_line (st : arff_state) (line : string) : result arff_state :=
  if started st && negb (eqb line "") then
    do x <- parse_instance line (all_names st) ;
    Ok (ArffState (all_names st) (cat_names st) (num_names st) true (read_instances st ++ [x]))
  else if String.prefix "@attribute" (lower line) then
    match split_at_char " " line with
    | [_; name; type] =>
      let name := strip (among (String quotation_mark "")) name in
      if String.prefix "{" type then
        Ok (ArffState (all_names st ++ [name]) (cat_names st ++ [name]) (num_names st) (started st) (read_instances st))
      else if eqb (lower type) "numeric" then
        Ok (ArffState (all_names st ++ [name]) (cat_names st) (num_names st ++ [name]) (started st) (read_instances st))
      else Err NotImplementedError
    | _ => Err ValueError
    end
  else if String.prefix "@data" (lower line) then
    Ok (ArffState (all_names st) (cat_names st) (num_names st) true (read_instances st))
  else Ok st.
(** dataset.py 307-342 *)
Definition create_from_arff (arff : string) : result (heap nat read_value unit * dataset read_value) :=
  do st <- foldM read_line (splitlines arff) (ArffState [] [] [] false []) ;
  let h := map (fun '(i, x) => {| iid := i; feats := x; target := tt |})
             (combine (seq 0 (length (read_instances st))) (read_instances st)) in
  do d <- foldM (add_instance h) (seq 0 (length (read_instances st))) (new (cat_names st) (num_names st)) ;
  Ok (h, d).

(** the loop of the subclasses: [make] gives the features and the target of the
    new instance; [it] is the iteration order of the dataset that was read *)
Definition convert {T X} (x0 : X) (upd : T -> X -> X)
    (make : dict string read_value -> result (dict string read_value * T))
    (raw : heap nat read_value unit) (start : dataset read_value) (it : list nat)
    : result (heap nat read_value T * (dataset read_value * X)) :=
  foldM (fun '(h, D) a =>
    do x <- of_option AttributeError (nth_error raw a) ;
    do ft <- make (feats x) ;
    let h' := h ++ [{| iid := iid x; feats := fst ft; target := snd ft |}] in
    do D' <- sub_add upd h' D (length h) ;
    Ok (h', D')) it ([], (start, x0)).
Definition without (names : list string) (fs : dict string read_value) : dict string read_value :=
  filter (fun '(n, _) => negb (mem n names)) fs.
(** [list(set(names).difference(removed))] in the order [ord] *)
Definition difference (ord : list string -> list string) (names removed : list string) : list string :=
  ord (filter (fun n => negb (mem n removed)) (set_of names)).
(** multilabel_dataset.py 69-94 *)
Definition label_create (ord : list string -> list string) (it : list nat -> list nat) (label_attributes : list string) (arff : string)
    : result (heap nat read_value (list string) * (dataset read_value * list string)) :=
  do raw <- create_from_arff arff ;
  convert [] collect
    (fun fs => do ls <- mapM (fun l => do v <- of_option KeyError (dict_get l fs) ; Ok (l, eqb v (Number 1) || eqb v (Text "1"))) label_attributes ;
               Ok (without label_attributes fs, set_of (map fst (filter snd ls))))
    (fst raw) (new (difference ord (cats (snd raw)) label_attributes) (difference ord (nums (snd raw)) label_attributes))
    (it (insts (snd raw))).
(** [int(v)] of a value that was read *)
Definition int_of_value (v : read_value) : result Z :=
  match v with Text s => of_option ValueError (int_of_string s) | Number z => Ok z end.
(** multiset_dataset.py 73-101; negative counts are not modelled (they are read
    as zero) *)
Definition multiset_create (ord : list string -> list string) (it : list nat -> list nat) (label_attributes : list string) (arff : string)
    : result (heap nat read_value (dict string nat) * (dataset read_value * (dict string nat * dict string nat))) :=
  do raw <- create_from_arff arff ;
  convert no_multisets count_multiset
    (fun fs => do m <- foldM (fun m l => do v <- of_option KeyError (dict_get l fs) ; do z <- int_of_value v ; Ok (dict_set l (Z.to_nat z) m)) label_attributes [] ;
               Ok (without label_attributes fs, m))
    (fst raw) (new (difference ord (cats (snd raw)) label_attributes) (difference ord (nums (snd raw)) label_attributes))
    (it (insts (snd raw))).
(** target_sequence_dataset.py 65-83 *)
Definition sequence_create (it : list nat -> list nat) (sequence_attribute : string) (arff : string)
    : result (heap nat read_value (list string) * (dataset read_value * list string)) :=
  do raw <- create_from_arff arff ;
  match remove_attribute (I := nat) (T := unit) [] (new (cats (snd raw)) (nums (snd raw))) [] sequence_attribute with
  | (_, start, None) =>
    convert [] collect
      (fun fs => do v <- of_option KeyError (dict_get sequence_attribute fs) ;
                 match v with
                 | Text s => Ok (dict_del sequence_attribute fs, split_at_char "," (strip (among (String quotation_mark "[]")) s))
                 | Number _ => Err AttributeError
                 end)
      (fst raw) start (it (insts (snd raw)))
  | (_, _, Some e) => Err e
  end.
