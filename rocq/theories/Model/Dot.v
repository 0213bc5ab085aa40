(** The text that the library graphviz (version 0.20) makes of a drawing, as far as
    this project depends on it: directly-follows graphs are compared and printed
    by this text.  Taken from graphviz/quoting.py and graphviz/dot.py; characters have 8 bits. *)
From Coq Require Import String Ascii DecimalString ZArith.
From Verif.Model Require Import Base.
Open Scope string_scope.
Open Scope list_scope.
Open Scope nat_scope.

Definition backslash : ascii := "092".
Definition quotation : ascii := "034".
Definition linebreak : ascii := "010".
Definition between (a b : nat) (c : ascii) : bool := (a <=? nat_of_ascii c) && (nat_of_ascii c <=? b).
Definition is_digit : ascii -> bool := between 48 57.
(** [a-zA-Z_] *)
Definition is_alpha (c : ascii) : bool := between 97 122 c || between 65 90 c || (c =? "_")%char.
Definition is_blank (c : ascii) : bool := between 9 13 c || between 28 32 c || (c =? "133")%char || (c =? "160")%char.
Fixpoint drop (p : ascii -> bool) (l : list ascii) : list ascii :=
  match l with c :: r => if p c then drop p r else l | [] => [] end.
(** quoting.py HTML_STRING: [^\s*<.*>\s*$] *)
Definition is_html_string (s : string) : bool :=
  match drop is_blank (list_ascii_of_string s) with
  | c :: r => (c =? "<")%char && match drop is_blank (rev r) with d :: _ => (d =? ">")%char | [] => false end
  | [] => false
  end.
(** [$] also matches before a line break at the end *)
Definition chop (l : list ascii) : list ascii :=
  match rev l with c :: r => if (c =? linebreak)%char then rev r else l | [] => [] end.
(** digits, with at most one dot, but not a dot alone *)
Definition is_number (l : list ascii) : bool :=
  match l with
  | c :: r =>
    if (c =? ".")%char then negb (length r =? 0) && forallb is_digit r
    else is_digit c && match drop is_digit r with [] => true | d :: r' => (d =? ".")%char && forallb is_digit r' end
  | [] => false
  end.
(** quoting.py ID *)
Definition is_valid_id (s : string) : bool :=
  match chop (list_ascii_of_string s) with
  | c :: r =>
    (is_alpha c && forallb (fun c => is_alpha c || is_digit c) r)
    || is_number (if (c =? "-")%char then r else c :: r)
  | [] => false
  end.
(** [.lower()] *)
Definition lower (c : ascii) : ascii := if between 65 90 c then ascii_of_nat (nat_of_ascii c + 32) else c.
Definition is_keyword (s : string) : bool :=
  existsb (String.eqb (string_of_list_ascii (map lower (list_ascii_of_string s)))) ["node"; "edge"; "graph"; "digraph"; "subgraph"; "strict"].
(** quoting.py ESCAPE_UNESCAPED_QUOTES; [odd]: an odd number of backslashes stands before *)
Fixpoint escape (odd : bool) (s : string) : string :=
  match s with
  | EmptyString => EmptyString
  | String c r =>
    if (c =? backslash)%char then String c (escape (negb odd) r)
    else if (c =? quotation)%char then (if odd then String c (escape false r) else String backslash (String c (escape false r)))
    else String c (escape false r)
  end.
(** quoting.py quote *)
Definition quote (s : string) : string :=
  if is_html_string s then s
  else if negb (is_valid_id s) || is_keyword s then (String quotation (escape false s) ++ String quotation EmptyString)%string
  else s.
(** [s.partition(':')] *)
Fixpoint partition (s : string) : string * string :=
  match s with
  | EmptyString => (EmptyString, EmptyString)
  | String c r => if (c =? ":")%char then (EmptyString, r) else let (a, b) := partition r in (String c a, b)
  end.
(** quoting.py quote_edge *)
Definition quote_edge (s : string) : string :=
  let (node, rest) := partition s in
  if String.eqb rest "" then quote node else
  let (port, compass) := partition rest in
  if String.eqb compass "" then (quote node ++ ":" ++ quote port)%string else (quote node ++ ":" ++ quote port ++ ":" ++ compass)%string.

(** what is handed over: [graph.node(name, label, **attrs)] and [graph.edge(tail, head, label, **attrs)]; attributes are sorted *)
Inductive statement :=
| NodeStatement (name : string) (label : option string) (attrs : list (string * string))
| EdgeStatement (tail head : string) (label : option string) (attrs : list (string * string)).
(** quoting.py a_list, attr_list *)
Definition attr_list (label : option string) (attrs : list (string * string)) : string :=
  let l := match label with Some s => ["label=" ++ quote s]%string | None => [] end ++ map (fun '(k, v) => quote k ++ "=" ++ quote v)%string attrs in
  match l with [] => "" | _ => (" [" ++ String.concat " " l ++ "]")%string end.
Definition tabulator : ascii := "009".
Definition newline : string := String linebreak EmptyString.
Definition line (s : statement) : string :=
  match s with
  | NodeStatement n l a => (String tabulator (quote n) ++ attr_list l a ++ newline)%string
  | EdgeStatement t h l a => (String tabulator (quote_edge t) ++ " -> " ++ quote_edge h ++ attr_list l a ++ newline)%string
  end.
(** dot.py: [graph.source] *)
Definition source (l : list statement) : string :=
  ("digraph {" ++ newline ++ String.concat "" (map line l) ++ "}" ++ newline)%string.
(** [str] of an int *)
Definition str (z : Z) : string := NilEmpty.string_of_int (Z.to_int z).
