(** The directly-follows graphs a program can build, and vocabulary for the
    statements about them *)
From Coq Require Import Permutation QArith.
From Verif.Model Require Import Base EventLog Dfg.
From Verif.Spec Require Import Lists Logs Graphs EventLogSpec DfgSpec.
Open Scope nat_scope.

(** [ord] is some iteration order of a set, [pop] some way of taking elements
    out of a set *)
Definition any_order (ord : list (string * string) -> list (string * string)) : Prop :=
  forall s, Permutation (ord s) s.
Definition any_pop (pop : nat -> list string -> string * list string) : Prop :=
  forall i s, s <> [] -> let (x, r) := pop i s in Permutation (x :: r) s.

(** [built g]: [g] results from some history of method calls.  Excluded are
    only: renaming to an activity that is already there, joining a graph that
    shares an edge, and the calls that raise. *)
Inductive built : graph -> Prop :=
| b_empty : built empty
| b_add_node a g : built g -> built (add_node a g)
| b_add_count a b c g g' : built g -> add_count a b c g = Ok g' -> built g'
| b_remove_edge k g g' r : built g -> remove_edge k g = Ok (g', r) -> built g'
| b_remove_node ord a conn g g' : any_order ord -> built g -> remove_node ord a conn g = Ok g' -> built g'
| b_rename old new g g' : built g -> ~ In new (activities g) -> rename_activity old new g = Ok g' -> built g'
| b_join g other g' : built g -> built other ->
    (forall a b c d, In (a, b, c) (edge_list g) -> ~ In (a, b, d) (edge_list other)) ->
    join g other = Ok g' -> built g'
| b_copy g g' : built g -> copy g = Ok g' -> built g'
| b_filter_absolute m g g' : built g -> filter_absolute m g = Ok g' -> built g'
| b_filter_local q keep g g' : built g ->
    (keep = true -> forall a b c, In (a, b, c) (edge_list g) -> (0 < c)%Z) ->
    filter_local q keep g = Ok g' -> built g'
| b_select ord acts g g' : any_order ord -> built g -> select_nodes ord acts g = Ok g' -> built g'
| b_largest ord pop g g' : any_order ord -> any_pop pop -> built g ->
    largest_component ord pop g = Ok g' -> built g'
| b_start ord allowed g g' : any_order ord -> built g ->
    remove_not_allowed_start_activities ord allowed g = Ok g' -> built g'
| b_end ord allowed g g' : any_order ord -> built g ->
    remove_not_allowed_end_activities ord allowed g = Ok g' -> built g'
| b_shortest a b forbidden g g' p : built g -> NoDup forbidden ->
    (forall x y, In (x, y) forbidden -> exists c, In (x, y, c) (edge_list g)) ->
    shortest_path a b forbidden g = Ok (p, g') -> built g'
| b_read {V I} (l : log string V I) g g' : built g -> read_counts_from_log l g = Ok g' -> built g'
| b_eventually {V I} (l : log string V I) g' : eventually_follows_graph l = Ok g' -> built g'.

Section Events.
  Context {V : Type}.
  (** the event at position [i] has activity [a], the one after it [b] *)
  Definition follows_at (es : list (event string V)) (a b : string) (i : nat) : Prop :=
    act es i = Some a /\ act es (S i) = Some b.
  (** the first [a] stands before the first [b] *)
  Definition starts_before (es : list (event string V)) (a b : string) : Prop :=
    exists i j, i < j /\ act es i = Some a /\ act es j = Some b /\
      (forall k, k < i -> act es k <> Some a) /\ (forall k, k < j -> act es k <> Some b).
End Events.

(** the edge from [a] to [b] has at least the share [q] of what leaves [a] *)
Definition has_share (C : string -> string -> option Z) (q : Q) (a b : string) : Prop :=
  exists c n, C a b = Some c /\ out_total C a n /\ (0 < n)%Z /\ (q <= inject_Z c / inject_Z n)%Q.

(** [K] is the largest set of activities of [N] such that each of them is
    allowed or has a different one of [K] [before] it *)
Definition supported (allowed : list string) (before : string -> string -> Prop) (K : string -> Prop) : Prop :=
  forall x, K x -> In x allowed \/ exists y, y <> x /\ K y /\ before y x.
Definition largest_supported (N : string -> Prop) allowed before (K : string -> Prop) : Prop :=
  (forall x, K x -> N x) /\ supported allowed before K /\
  forall K' : string -> Prop, (forall x, K' x -> N x) -> supported allowed before K' -> forall x, K' x -> K x.
