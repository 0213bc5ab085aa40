(** What the public methods of a directly-follows graph show of it: [N] is its
    set of activities, [C] gives the count of every edge *)
From Verif.Model Require Import Base Dfg.
From Verif.Spec Require Import Graphs.

Record shows (g : graph) (N : string -> Prop) (C : string -> string -> option Z) : Prop := {
  sh_nodes : NoDup (activities g) /\ forall a, In a (activities g) <-> N a;
  sh_edges : NoDup (map fst (edge_list g)) /\ forall a b c, In (a, b, c) (edge_list g) <-> C a b = Some c;
  sh_count : forall a b, get_count a b g = match C a b with Some c => c | None => 0%Z end;
  sh_nr : get_nr_of_nodes g = length (activities g) /\ get_nr_of_edges g = length (edge_list g);
  sh_following : forall a, N a -> exists l, get_following g a = Ok l /\ NoDup l /\ forall b, In b l <-> edge_of C a b;
  sh_preceding : forall b, N b -> exists l, get_preceding g b = Ok l /\ NoDup l /\
    (forall a, In a l <-> edge_of C a b) /\ compute_indegree g b = Ok (length l);
  sh_unknown : forall a, ~ N a -> get_following g a = Err KeyError /\ get_preceding g a = Err KeyError /\
    compute_indegree g a = Err KeyError;
  sh_ends : forall a b, edge_of C a b -> N a /\ N b
}.
