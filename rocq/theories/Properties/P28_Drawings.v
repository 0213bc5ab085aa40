(** Properties C125 to C127: drawings of transition systems, prefix trees and petri nets *)
From Coq Require Import String Ascii Permutation ZArith.
From Verif.Model Require Import Base Dot Drawings Lts PrefixTree PetriNet.
From Verif.Spec Require Import DotSpec TreeSpec PetriSpec.
From Verif.Proofs Require DotC.
Open Scope string_scope.
Open Scope list_scope.
Open Scope nat_scope.

(** C125: Drawings of transition systems *)
Theorem C125_drawing : forall (A S : Type) (EA : Eq A) (ES : Eq S) sorted show_state show_event (m : lts A S),
  NoDup (states m) -> Permutation sorted (states m) ->
  (forall s e s', In (s, e, s') (transition_list m) -> In s (states m) /\ In s' (states m)) ->
  exists (name border : S -> string),
    (forall s s', In s (states m) -> In s' (states m) -> name s = name s' -> s = s') /\ (forall s, ordinary (name s)) /\
    (forall s, (In s (end_states m) -> border s = "2") /\ (~ In s (end_states m) -> border s = "1")) /\
    lts_plot sorted show_state show_event m = Ok (
      map (fun s => match show_state with
                    | None => NodeStatement (name s) (Some (name s)) [("peripheries", border s); ("shape", "circle")]
                    | Some f => NodeStatement (name s) (Some (f s)) [("peripheries", border s); ("shape", "rectangle")]
                    end) sorted
      ++ map (fun '(s, e, s') => EdgeStatement (name s) (name s') (Some (show_event e)) []) (transition_list m)).
Proof. exact @DotC.C125_drawing. Qed.
Print Assumptions C125_drawing.
(** the transition systems of sequences can be drawn, whatever represents the states *)
Theorem C125_sequences : forall (A S : Type) (EA : Eq A) (ES : Eq S) (f : list A -> S) (ls : list (list A)), let m := add_all f ls in
  NoDup (states m) /\ forall s e s', In (s, e, s') (transition_list m) -> In s (states m) /\ In s' (states m).
Proof. exact @DotC.C125_sequences. Qed.
Print Assumptions C125_sequences.
(** a transition from or to something that was not added as a state *)
Theorem C125_error : forall (A S : Type) (EA : Eq A) (ES : Eq S) sorted show_state show_event (m : lts A S),
  NoDup (states m) -> Permutation sorted (states m) ->
  (exists s e s', In (s, e, s') (transition_list m) /\ ~ (In s (states m) /\ In s' (states m))) ->
  lts_plot sorted show_state show_event m = Err KeyError.
Proof. exact @DotC.C125_error. Qed.
Print Assumptions C125_error.
Example C125_example : let m := add_all set_abstraction [["b"; "a"]; ["a"]] in
  lts_plot (states m) None (fun e => e) m = Ok [
    NodeStatement "s0" (Some "s0") [("peripheries", "1"); ("shape", "circle")];
    NodeStatement "s1" (Some "s1") [("peripheries", "1"); ("shape", "circle")];
    NodeStatement "s2" (Some "s2") [("peripheries", "2"); ("shape", "circle")];
    NodeStatement "s3" (Some "s3") [("peripheries", "2"); ("shape", "circle")];
    EdgeStatement "s0" "s1" (Some "b") []; EdgeStatement "s0" "s3" (Some "a") []; EdgeStatement "s1" "s2" (Some "a") []].
Proof. vm_compute. reflexivity. Qed.

(** C126: Drawings of prefix trees *)
Theorem C126_drawing : forall (A : Type) (EA : Eq A) (ltb : A -> A -> bool) show (ss : list (list A)) t, strict_total ltb -> append_all ltb ss = Ok t ->
  exists l, tree_plot show t = Ok l /\ NoDup (node_names l) /\ NoDup l /\
    (forall w w' u u', node_at t w u -> node_at t w' u' -> dotted (get_node_id u) = dotted (get_node_id u') -> w = w') /\
    (forall name label attrs, In (NodeStatement name label attrs) l <-> exists w x u, node_at t (w ++ [x]) u /\
       name = dotted (get_node_id u) /\ label = Some (show x ++ " | " ++ str (Z.of_nat (get_nr_of_sequences u)))%string /\ attrs = [("shape", "rectangle")]) /\
    forall tail head label attrs, In (EdgeStatement tail head label attrs) l <-> exists w x u c, w <> [] /\ node_at t w u /\ node_at t (w ++ [x]) c /\
       tail = dotted (get_node_id u) /\ head = dotted (get_node_id c) /\ label = Some (str (Z.of_nat (get_nr_of_sequences c))) /\ attrs = [].
Proof. exact @DotC.C126_drawing. Qed.
Print Assumptions C126_drawing.
Example C126_example : (do t <- append_all Nat.ltb [[1; 2]; [1]; [3]] ; tree_plot (fun k => str (Z.of_nat k)) t) = Ok [
  NodeStatement ".0" (Some "1 | 2") [("shape", "rectangle")]; EdgeStatement ".0" ".0.0" (Some "1") [];
  NodeStatement ".0.0" (Some "2 | 1") [("shape", "rectangle")]; NodeStatement ".1" (Some "3 | 1") [("shape", "rectangle")]].
Proof. vm_compute. reflexivity. Qed.

(** C127: Drawings of petri nets *)
Theorem C127_nodes : forall ord show_labels n, built n -> any_order ord ->
  NoDup (node_names (net_plot ord show_labels n)) /\
  forall name label attrs, In (NodeStatement name label attrs) (net_plot ord show_labels n) <->
    (exists p pl, dict_get p (places n) = Some pl /\ name = ("place_" ++ p)%string /\
       label = Some (if (tokens n p =? 0)%Z then "" else str (tokens n p)) /\ attrs = [("shape", "circle"); ("xlabel", p_label pl)]) \/
    (exists t tr, dict_get t (transitions n) = Some tr /\ name = ("transition_" ++ t)%string /\ label = Some (t_label tr) /\
       attrs = if t_visible tr then [("shape", "rectangle")]
               else if show_labels then [("shape", "rectangle"); ("style", "filled")]
               else [("fillcolor", "black"); ("shape", "rectangle"); ("style", "filled")]).
Proof. exact @DotC.C127_nodes. Qed.
Print Assumptions C127_nodes.
Theorem C127_edges : forall ord show_labels n, built n -> any_order ord ->
  NoDup (net_plot ord show_labels n) /\
  (forall tail head label attrs, In (EdgeStatement tail head label attrs) (net_plot ord show_labels n) <->
    label = None /\ attrs = [] /\ exists p t,
      (In p (starts n t) /\ tail = ("place_" ++ p)%string /\ head = ("transition_" ++ t)%string) \/
      (In p (ends n t) /\ tail = ("transition_" ++ t)%string /\ head = ("place_" ++ p)%string)) /\
  forall tail head label attrs, In (EdgeStatement tail head label attrs) (net_plot ord show_labels n) ->
    In tail (node_names (net_plot ord show_labels n)) /\ In head (node_names (net_plot ord show_labels n)).
Proof. exact @DotC.C127_edges. Qed.
Print Assumptions C127_edges.
(** in the text, an edge ends at the nodes that it is meant for, if ids are ordinary *)
Theorem C127_text : forall id, ordinary id ->
  quote_edge ("place_" ++ id) = quote ("place_" ++ id) /\ quote_edge ("transition_" ++ id) = quote ("transition_" ++ id).
Proof. exact @DotC.C127_text. Qed.
Print Assumptions C127_text.
(** what stands behind a colon is taken for a port of another node *)
Theorem C127_colon_witness : exists n1 n2 n3 n, add_place "p:1" "in" 1 new_net = Ok n1 /\ add_place "q" "out" 0 n1 = Ok n2 /\ add_transition "t" None true n2 = Ok n3 /\
  add_connection "p:1" "t" "q" n3 = Ok n /\
  Dot.source (net_plot (fun l => l) false n) = ("digraph {" ++ newline
    ++ String tabulator ("""place_p:1"" [label=1 shape=circle xlabel=in]" ++ newline)
    ++ String tabulator ("place_q [label="""" shape=circle xlabel=out]" ++ newline)
    ++ String tabulator ("transition_t [label=t shape=rectangle]" ++ newline)
    ++ String tabulator ("place_p:1 -> transition_t" ++ newline)
    ++ String tabulator ("transition_t -> place_q" ++ newline) ++ "}" ++ newline)%string.
Proof. exact @DotC.C127_colon_witness. Qed.
Print Assumptions C127_colon_witness.
Example C127_example : exists n, (do n <- add_place "x" "in" 2 new_net ; do n <- add_place "y" "out" 0 n ; do n <- add_transition "x" (Some "T") false n ; add_connection "x" "x" "y" n) = Ok n /\ built n /\
  net_plot (fun l => l) false n = [NodeStatement "place_x" (Some "2") [("shape", "circle"); ("xlabel", "in")]; NodeStatement "place_y" (Some "") [("shape", "circle"); ("xlabel", "out")];
    NodeStatement "transition_x" (Some "T") [("fillcolor", "black"); ("shape", "rectangle"); ("style", "filled")];
    EdgeStatement "place_x" "transition_x" None []; EdgeStatement "transition_x" "place_y" None []].
Proof.
  eexists. split; [vm_compute; reflexivity|]. split; [|vm_compute; reflexivity].
  assert (B1 := b_place "x" "in" 2 _ _ b_new eq_refl). assert (B2 := b_place "y" "out" 0 _ _ B1 eq_refl). assert (B3 := b_transition "x" (Some "T") false _ _ B2 eq_refl).
  exact (b_connection "x" "x" "y" _ _ B3 eq_refl).
Qed.
