(** Model of what data petri nets and event logs print:
    prolothar_common/models/data_petri_net.py 329-337, models/eventlog/trace.pyx
    69-72 and models/eventlog/eventlog.py 55-64.  Text is made of 8 bit
    characters (the unicode characters up to 255). *)
From Coq Require Import String Ascii ZArith.
From Verif.Model Require Import Base Dot EventLog PetriNet.
Open Scope string_scope.
Open Scope list_scope.
Open Scope nat_scope.

(** Python's [repr] of a string: in single quotes, or in double quotes if it
    has a single quote and no double quote; quotes, backslashes and characters
    that cannot be printed are escaped *)
Definition single_quote : ascii := "'".
Definition has_char (c : ascii) (s : string) : bool := existsb (Ascii.eqb c) (list_ascii_of_string s).
Definition repr_quote (s : string) : ascii :=
  if has_char single_quote s && negb (has_char quotation s) then quotation else single_quote.
Definition printable (c : ascii) : bool :=
  let n := nat_of_ascii c in (32 <=? n) && (n <? 127) || (161 <=? n) && negb (n =? 173).
Definition hex_digit (n : nat) : ascii := ascii_of_nat (if n <? 10 then 48 + n else 87 + n).
Definition repr_char (q c : ascii) : string :=
  if Ascii.eqb c q || Ascii.eqb c backslash then String backslash (String c "")
  else if Ascii.eqb c tabulator then String backslash "t"
  else if Ascii.eqb c linebreak then String backslash "n"
  else if Ascii.eqb c "013" then String backslash "r"
  else if printable c then String c ""
  else String backslash (String "x" (String (hex_digit (nat_of_ascii c / 16)) (String (hex_digit (nat_of_ascii c mod 16)) ""))).
Fixpoint repr_body (q : ascii) (s : string) : string :=
  match s with "" => "" | String c s' => (repr_char q c ++ repr_body q s')%string end.
Definition repr (s : string) : string := let q := repr_quote s in String q (repr_body q s ++ String q "")%string.

(** data_petri_net.py 329-337: the strings given to print_function, in order;
    [show] is [repr] of the value of a variable *)
Definition place_line (id : string) (p : place) : string :=
  String tabulator ("<id=" ++ repr id ++ ",label=" ++ repr (p_label p) ++ ",tokens=" ++ str (p_tokens p) ++ ">")%string.
Definition variable_line (show : val -> string) (name : string) (v : val) : string :=
  String tabulator ("<name=" ++ repr name ++ ",value=" ++ show v ++ ">")%string.
Definition print_state (show : val -> string) (st : store) (n : net) : list string :=
  "Places:" :: map (fun '(id, p) => place_line id p) (places n)
  ++ "Variables:" :: map (fun '(name, r) => variable_line show name (value st r)) (variables n).
(** [print]: a line break after each of them *)
Definition printed (lines : list string) : string := String.concat "" (map (fun l => l ++ newline)%string lines).

Section Logs.
  Context {V I : Type} (show_id : I -> string).
  (** trace.pyx 69-72; [show_id] is [str] of the id of a trace *)
  Definition list_repr (l : list string) : string := ("[" ++ String.concat ", " (map repr l) ++ "]")%string.
  Definition trace_repr (t : trace string V I) : string :=
    ("Trace(id=" ++ show_id (tid t) ++ ")" ++ list_repr (map activity (events t)))%string.
  (** eventlog.py 55-64 *)
  Definition log_repr (l : log string V I) : string :=
    ("==========" ++ newline ++ "EventLog with " ++ str (Z.of_nat (length l)) ++ " traces" ++ newline ++ "----------" ++ newline
     ++ printed (map trace_repr l) ++ "==========" ++ newline)%string.
End Logs.
