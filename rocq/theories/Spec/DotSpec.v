(** Specification vocabulary for drawings *)
From Coq Require Import String Ascii List.
From Verif.Model Require Import Dot.
Import ListNotations.
Open Scope list_scope.

(** a name without double quotes (034), backslashes (092), colons and line breaks
    (010), and not with both < and > *)
Definition ordinary (s : string) : Prop :=
  let l := list_ascii_of_string s in
  ~ In "034"%char l /\ ~ In "092"%char l /\ ~ In ":"%char l /\ ~ In "010"%char l /\ ~ (In "<"%char l /\ In ">"%char l).

(** the names that a drawing gives to its nodes *)
Definition node_names (l : list statement) : list string :=
  flat_map (fun s => match s with NodeStatement n _ _ => [n] | _ => [] end) l.
