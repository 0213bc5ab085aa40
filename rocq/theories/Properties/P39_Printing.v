(** Properties C146 and C147: what nets and logs print *)
From Coq Require Import String Ascii ZArith.
From Verif.Model Require Import Base Dot EventLog PetriNet Printing.
From Verif.Proofs Require PrintingA.
Open Scope string_scope.
Open Scope list_scope.
Open Scope nat_scope.

(** C146: The printed state of a net *)
Theorem C146_state : forall show st n st' n', (forall v, ~ In linebreak (list_ascii_of_string (show v))) ->
  printed (print_state show st n) = printed (print_state show st' n') <->
  map (fun '(id, p) => (id, p_label p, p_tokens p)) (places n) = map (fun '(id, p) => (id, p_label p, p_tokens p)) (places n') /\
  map (fun '(name, r) => (name, show (value st r))) (variables n) = map (fun '(name, r) => (name, show (value st' r))) (variables n').
Proof. exact @PrintingA.C146_state. Qed.
Print Assumptions C146_state.
Theorem C146_marking : forall show st n st' n', (forall v, ~ In linebreak (list_ascii_of_string (show v))) ->
  printed (print_state show st n) = printed (print_state show st' n') -> get_marking n = get_marking n'.
Proof. exact @PrintingA.C146_marking. Qed.
Print Assumptions C146_marking.
(** the lines in detail *)
Theorem C146_lines : forall show st n, length (print_state show st n) = 2 + length (places n) + length (variables n) /\
  nth_error (print_state show st n) 0 = Some "Places:" /\
  (forall i id p, nth_error (places n) i = Some (id, p) -> nth_error (print_state show st n) (1 + i) =
     Some (String tabulator ("<id=" ++ repr id ++ ",label=" ++ repr (p_label p) ++ ",tokens=" ++ str (p_tokens p) ++ ">"))%string) /\
  nth_error (print_state show st n) (1 + length (places n)) = Some "Variables:" /\
  (forall i name r, nth_error (variables n) i = Some (name, r) -> nth_error (print_state show st n) (2 + length (places n) + i) =
     Some (String tabulator ("<name=" ++ repr name ++ ",value=" ++ show (value st r) ++ ">"))%string).
Proof. exact @PrintingA.C146_lines. Qed.
Print Assumptions C146_lines.
Definition some_net : result net :=
  do n <- add_place "p" "it's" 2 new_net ; do n <- add_place "q" "" 0 n ; add_variable "x" 0 n.
Example C146_example : match some_net with
  | Ok n => let show v := match v with VBool true => "True" | _ => "?" end in
    (forall v, ~ In linebreak (list_ascii_of_string (show v))) /\
    print_state show [VBool true] n =
      ["Places:"; String tabulator "<id='p',label=""it's"",tokens=2>"; String tabulator "<id='q',label='',tokens=0>";
       "Variables:"; String tabulator "<name='x',value=True>"]
  | _ => False
  end.
Proof. split; [|vm_compute; reflexivity]. intros [|q|[]]; vm_compute; intuition discriminate. Qed.

(** C147: The printed form of a log *)
Theorem C147_log : forall {V I} (show_id : I -> string) (l m : log string V I),
  (forall t, In t l \/ In t m -> ~ In ")"%char (list_ascii_of_string (show_id (tid t)))) ->
  log_repr show_id l = log_repr show_id m <->
  map (fun t => (show_id (tid t), map activity (events t))) l = map (fun t => (show_id (tid t), map activity (events t))) m.
Proof. exact @PrintingA.C147_log. Qed.
Print Assumptions C147_log.
(** ids with parentheses and line breaks can make different logs look the same *)
Theorem C147_id_witness : exists l m : log string unit string, log_repr (fun i => i) l = log_repr (fun i => i) m /\
  map (fun t => map activity (events t)) l = [["a"]; ["c"]] /\ map (fun t => map activity (events t)) m = [["b"]; ["c"]].
Proof. exact @PrintingA.C147_id_witness. Qed.
Print Assumptions C147_id_witness.
Example C147_example : let l : log string unit Z := [Trace 1%Z [new_event "a"; new_event "b c"] []; Trace 12%Z [new_event "'"] []] in
  (forall t, In t l \/ In t [] -> ~ In ")"%char (list_ascii_of_string (str (tid t)))) /\
  log_repr str l = ("==========" ++ newline ++ "EventLog with 2 traces" ++ newline ++ "----------" ++ newline ++
    "Trace(id=1)['a', 'b c']" ++ newline ++ "Trace(id=12)[""'""]" ++ newline ++ "==========" ++ newline)%string.
Proof. split; [|vm_compute; reflexivity]. intros t [[<-|[<-|[]]]|[]]; vm_compute; intuition discriminate. Qed.
