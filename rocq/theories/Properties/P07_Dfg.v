(** Properties C37 - C45, C71 - C75: directly-follows graphs *)
From Coq Require Import String Permutation QArith.
From Verif.Model Require Import Base EventLog Dfg.
From Verif.Spec Require Import Lists Logs Graphs EventLogSpec DfgSpec DfgBuilt.
From Verif.Proofs Require DfgJ DfgWalks.
Open Scope string_scope.
Open Scope list_scope.
Open Scope nat_scope.

(** A concrete graph for the examples; it is built, and by [C38_consistent]
    some [N] and [C] are shown *)
Definition graph_of (l : list (list string)) : graph :=
  match create_from_event_log (V:=nat) (match create_from_simple l with Ok l => l | Err _ => [] end) with
  | Ok g => g | Err _ => empty end.
Definition ex : graph := graph_of [["a"; "b"; "a"; "b"; "c"]; ["a"; "c"; "c"]; ["d"; "e"]].
Example ex_built : built ex.
Proof.
  unfold ex, graph_of, create_from_event_log. destruct (read_counts_from_log _ empty) eqn:E; [|constructor].
  eapply b_read; [apply b_empty|exact E].
Qed.
Definition rev_ord (s : list (string * string)) := rev s.
Example rev_ord_ok : any_order rev_ord.
Proof. intros s. symmetry. apply Permutation_rev. Qed.
Definition pop_last (i : nat) (s : list string) : string * list string :=
  match rev s with x :: r => (x, rev r) | [] => ("", []) end.
Example pop_last_ok : any_pop pop_last.
Proof.
  intros i s Hs. unfold pop_last. destruct (rev s) as [|x r] eqn:E.
  - now apply (f_equal (@rev string)) in E; rewrite rev_involutive in E.
  - apply (f_equal (@rev string)) in E. rewrite rev_involutive in E. rewrite E. cbn [rev].
    apply Permutation_cons_append.
Qed.
Definition seen (r : result graph) : list string * list (string * string * Z) :=
  match r with Ok g => (activities g, edge_list g) | Err _ => ([], []) end.

(** C37: Directly-follows counts *)
Theorem C37_directly_follows_counts :
  forall {V I} (l : log string V I), exists g C, create_from_event_log l = Ok g /\ built g /\
    shows g (occurs l) C /\
    forall a b, exists n,
      has_size (fun '(k, i) => exists t, nth_error l k = Some t /\ follows_at (events t) a b i) n /\
      C a b = if n =? 0 then None else Some (Z.of_nat n).
Proof. exact @DfgJ.C37_directly_follows_counts. Qed.
Print Assumptions C37_directly_follows_counts.
Theorem C37_counts_accumulate :
  forall {V I} (l : log string V I) g N C, built g -> shows g N C ->
    exists g' C', read_counts_from_log l g = Ok g' /\ built g' /\
      shows g' (fun a => N a \/ occurs l a) C' /\
      forall a b, exists n,
        has_size (fun '(k, i) => exists t, nth_error l k = Some t /\ follows_at (events t) a b i) n /\
        C' a b = if n =? 0 then C a b else Some (match C a b with Some m => m | None => 0 end + Z.of_nat n)%Z.
Proof. exact @DfgJ.C37_counts_accumulate. Qed.
Print Assumptions C37_counts_accumulate.
Example C37_example : seen (Ok ex) =
  (["a"; "b"; "c"; "d"; "e"],
   [("a", "b", 2%Z); ("b", "a", 1%Z); ("b", "c", 1%Z); ("a", "c", 1%Z); ("c", "c", 1%Z); ("d", "e", 1%Z)]).
Proof. vm_compute. reflexivity. Qed.

(** C38: Every history of calls leaves a consistent graph *)
Theorem C38_consistent : forall g, built g -> exists N C, shows g N C.
Proof. exact @DfgJ.C38_consistent. Qed.
Print Assumptions C38_consistent.
(** the effect of the elementary operations *)
Theorem C38_add_node : forall a g N C, built g -> shows g N C ->
  built (add_node a g) /\ shows (add_node a g) (fun x => x = a \/ N x) C.
Proof. exact @DfgJ.C38_add_node. Qed.
Print Assumptions C38_add_node.
Theorem C38_add_count : forall a b c g N C, built g -> shows g N C ->
  exists g', add_count a b c g = Ok g' /\ built g' /\
    shows g' (fun x => x = a \/ x = b \/ N x)
      (fun x y => if eqb x a && eqb y b
                  then Some (match C a b with Some n => n | None => 0 end + c)%Z else C x y).
Proof. exact @DfgJ.C38_add_count. Qed.
Print Assumptions C38_add_count.
Theorem C38_remove_edge : forall a b g N C, built g -> shows g N C ->
  exists g' r, remove_edge (a, b) g = Ok (g', r) /\ built g' /\
    shows g' N (fun x y => if eqb x a && eqb y b then None else C x y).
Proof. exact @DfgJ.C38_remove_edge. Qed.
Print Assumptions C38_remove_edge.
Theorem C38_remove_node : forall ord a g N C, any_order ord -> built g -> shows g N C -> N a ->
  exists g', remove_node ord a false g = Ok g' /\ built g' /\
    shows g' (fun x => N x /\ x <> a) (fun x y => if eqb x a || eqb y a then None else C x y).
Proof. exact @DfgJ.C38_remove_node. Qed.
Print Assumptions C38_remove_node.
Theorem C38_copy : forall g N C, built g -> shows g N C ->
  exists g', copy g = Ok g' /\ built g' /\ shows g' N C.
Proof. exact @DfgJ.C38_copy. Qed.
Print Assumptions C38_copy.
Example C38_example : exists N C, shows ex N C.
Proof. exact (C38_consistent ex ex_built). Qed.

(** C39: Removing a node with connections *)
Theorem C39_reachability_kept : forall ord a g N C, any_order ord -> built g -> shows g N C -> N a ->
  exists g' C', remove_node ord a true g = Ok g' /\ built g' /\ shows g' (fun x => N x /\ x <> a) C' /\
    forall x y, x <> a -> y <> a -> connected (edge_of C') x y <-> connected (edge_of C) x y.
Proof. exact @DfgJ.C39_reachability_kept. Qed.
Print Assumptions C39_reachability_kept.
Theorem C39_new_counts : forall ord a g N C, any_order ord -> built g -> shows g N C -> N a ->
  exists g', remove_node ord a true g = Ok g' /\
    shows g' (fun x => N x /\ x <> a)
      (fun x y => if eqb x a || eqb y a then None else
         match C x a, C a y with
         | Some _, Some _ => Some (match C x y with Some n => n | None => 0 end + 1)%Z
         | _, _ => C x y
         end).
Proof. exact @DfgJ.C39_new_counts. Qed.
Print Assumptions C39_new_counts.
Theorem C39_unknown_activity : forall ord a conn g N C, built g -> shows g N C -> ~ N a ->
  remove_node ord a conn g = Err KeyError.
Proof. exact @DfgJ.C39_unknown_activity. Qed.
Print Assumptions C39_unknown_activity.
Example C39_example : seen (remove_node rev_ord "b" true ex) =
  (["a"; "c"; "d"; "e"], [("a", "c", 2%Z); ("c", "c", 1%Z); ("d", "e", 1%Z); ("a", "a", 1%Z)]).
Proof. vm_compute. reflexivity. Qed.

(** C40: Shortest paths *)
Theorem C40_shortest_path : forall a b forbidden g N C, built g -> shows g N C -> N a -> a <> b ->
  NoDup forbidden -> (forall x y, In (x, y) forbidden -> edge_of C x y) ->
  let usable x y := edge_of C x y /\ ~ In (x, y) forbidden in
  exists p g', shortest_path a b forbidden g = Ok (p, g') /\ built g' /\ shows g' N C /\
    ((p = [] /\ forall l, ~ path usable a b l) \/ shortest usable a b p).
Proof. exact @DfgJ.C40_shortest_path. Qed.
Print Assumptions C40_shortest_path.
Theorem C40_same_activity : forall a forbidden g N C, built g -> shows g N C -> N a ->
  shortest_path a a forbidden g = Ok ([], g).
Proof. exact @DfgJ.C40_same_activity. Qed.
Print Assumptions C40_same_activity.
Theorem C40_unknown_start : forall a b forbidden g N C, built g -> shows g N C -> ~ N a ->
  shortest_path a b forbidden g = Err ValueError.
Proof. exact @DfgJ.C40_unknown_start. Qed.
Print Assumptions C40_unknown_start.
Theorem C40_shortest_path_to_one_of : forall a ends g N C, built g -> shows g N C -> N a -> ~ In a ends ->
  exists p, shortest_path_to_one_of a ends g = Ok p /\
    ((p = [] /\ forall b l, In b ends -> ~ path (edge_of C) a b l) \/
     exists b, In b ends /\ path (edge_of C) a b p /\
       forall b' l, In b' ends -> path (edge_of C) a b' l -> length p <= length l).
Proof. exact @DfgJ.C40_shortest_path_to_one_of. Qed.
Print Assumptions C40_shortest_path_to_one_of.
Example C40_example :
  match shortest_path "a" "c" [("a", "c")] ex with Ok (p, g) => (p, graph_eqb g ex) | Err _ => ([], false) end
    = (["a"; "b"; "c"], true) /\
  match shortest_path "a" "d" [] ex with Ok (p, _) => p | Err _ => ["error"] end = [] /\
  shortest_path_to_one_of "b" ["d"; "c"] ex = Ok ["b"; "c"].
Proof. vm_compute. auto. Qed.

(** C41: Reachability queries *)
Theorem C41_reachable : forall pop a g N C, any_pop pop -> built g -> shows g N C -> N a ->
  exists l, get_reachable_activities pop g a = Ok l /\ NoDup l /\
    forall x, In x l <-> connected (edge_of C) a x.
Proof. exact @DfgJ.C41_reachable. Qed.
Print Assumptions C41_reachable.
Theorem C41_reaching : forall pop a g N C, any_pop pop -> built g -> shows g N C -> N a ->
  exists l, get_activities_that_reach pop g a = Ok l /\ NoDup l /\
    forall x, In x l <-> connected (edge_of C) x a.
Proof. exact @DfgJ.C41_reaching. Qed.
Print Assumptions C41_reaching.
Example C41_example : get_reachable_activities pop_last ex "b" = Ok ["c"; "a"; "b"] /\
  get_activities_that_reach pop_last ex "c" = Ok ["c"; "a"; "b"].
Proof. vm_compute. auto. Qed.

(** C42: Weakly connected components *)
Theorem C42_components : forall pop g N C, any_pop pop -> built g -> shows g N C ->
  let linked x y := edge_of C x y \/ edge_of C y x in
  exists cs, get_weakly_connected_components pop g = Ok cs /\ NoDup (concat cs) /\
    (forall x, In x (concat cs) <-> N x) /\
    forall c, In c cs -> c <> [] /\ forall x y, In x c -> In y c <-> connected0 linked x y.
Proof. exact @DfgJ.C42_components. Qed.
Print Assumptions C42_components.
Theorem C42_largest_component : forall ord pop g N C, any_order ord -> any_pop pop -> built g -> shows g N C ->
  exists g' cs best C', get_weakly_connected_components pop g = Ok cs /\
    largest_component ord pop g = Ok g' /\ built g' /\ shows g' (fun x => In x best) C' /\
    (In best cs \/ (cs = [] /\ best = [])) /\ (forall c, In c cs -> length c <= length best) /\
    forall x y c, C' x y = Some c <-> C x y = Some c /\ In x best /\ In y best.
Proof. exact @DfgJ.C42_largest_component. Qed.
Print Assumptions C42_largest_component.
Example C42_example : get_weakly_connected_components pop_last ex = Ok [["e"; "d"]; ["c"; "a"; "b"]] /\
  fst (seen (largest_component rev_ord pop_last ex)) = ["a"; "b"; "c"].
Proof. vm_compute. auto. Qed.

(** C43: Edge filters *)
Theorem C43_absolute : forall m g N C, built g -> shows g N C ->
  exists g' C', filter_absolute m g = Ok g' /\ built g' /\ shows g' N C' /\
    forall a b c, C' a b = Some c <-> C a b = Some c /\ (m <= c)%Z.
Proof. exact @DfgJ.C43_absolute. Qed.
Print Assumptions C43_absolute.
Theorem C43_local : forall q g N C, built g -> shows g N C ->
  exists g' C', filter_local q false g = Ok g' /\ built g' /\ shows g' N C' /\
    forall a b c, C' a b = Some c <-> C a b = Some c /\ has_share C q a b.
Proof. exact @DfgJ.C43_local. Qed.
Print Assumptions C43_local.
Theorem C43_local_keep_one : forall q g N C, built g -> shows g N C ->
  (forall a b c, C a b = Some c -> (0 < c)%Z) ->
  exists g' C', filter_local q true g = Ok g' /\ built g' /\ shows g' N C' /\
    (forall a b c, C' a b = Some c -> C a b = Some c) /\
    forall a,
      ((exists b, has_share C q a b) -> forall b, edge_of C' a b <-> has_share C q a b) /\
      ((forall b, ~ has_share C q a b) -> (exists b, edge_of C a b) ->
        exists b c, C' a b = Some c /\ (forall b' c', C a b' = Some c' -> (c' <= c)%Z) /\
          forall b', edge_of C' a b' -> b' = b).
Proof. exact @DfgJ.C43_local_keep_one. Qed.
Print Assumptions C43_local_keep_one.
Example C43_example :
  snd (seen (filter_absolute 2 ex)) = [("a", "b", 2%Z)] /\
  snd (seen (filter_local (2 # 3) false ex)) = [("a", "b", 2%Z); ("c", "c", 1%Z); ("d", "e", 1%Z)] /\
  snd (seen (filter_local (2 # 3) true ex)) =
    [("a", "b", 2%Z); ("c", "c", 1%Z); ("d", "e", 1%Z); ("b", "a", 1%Z)].
Proof. vm_compute. auto. Qed.

(** C44: Renaming an activity *)
Theorem C44_rename_to_fresh : forall old new g N C, built g -> shows g N C -> N old -> ~ N new ->
  let renamed x := if eqb x old then new else x in
  exists g' C', rename_activity old new g = Ok g' /\ built g' /\
    shows g' (fun y => exists x, N x /\ y = renamed x) C' /\
    (forall x y, N x -> N y -> C' (renamed x) (renamed y) = C x y).
Proof. exact @DfgJ.C44_rename_to_fresh. Qed.
Print Assumptions C44_rename_to_fresh.
Theorem C44_rename_to_itself_refuted : exists g g', built g /\ In "a" (activities g) /\
  rename_activity "a" "a" g = Ok g' /\ ~ In "a" (activities g') /\ get_count "a" "b" g' = 1%Z.
Proof. exact @DfgJ.C44_rename_to_itself_refuted. Qed.
Print Assumptions C44_rename_to_itself_refuted.
Theorem C44_rename_onto_existing_refuted : exists g g', built g /\ In "a" (activities g) /\ In "c" (activities g) /\
  rename_activity "a" "c" g = Ok g' /\ get_count "b" "c" g' = 1%Z /\ get_preceding g' "c" = Ok [].
Proof. exact @DfgJ.C44_rename_onto_existing_refuted. Qed.
Print Assumptions C44_rename_onto_existing_refuted.
Example C44_example : seen (rename_activity "c" "x" ex) =
  (["a"; "b"; "d"; "e"; "x"],
   [("a", "b", 2%Z); ("b", "a", 1%Z); ("d", "e", 1%Z); ("b", "x", 1%Z); ("a", "x", 1%Z); ("x", "x", 1%Z)]).
Proof. vm_compute. reflexivity. Qed.

(** C45: Joining graphs *)
Theorem C45_disjoint_join : forall g other N C M D, built g -> shows g N C -> built other -> shows other M D ->
  (forall a b, edge_of C a b -> ~ edge_of D a b) ->
  exists g', join g other = Ok g' /\ built g' /\
    shows g' (fun x => N x \/ M x) (fun a b => match C a b with Some c => Some c | None => D a b end).
Proof. exact @DfgJ.C45_disjoint_join. Qed.
Print Assumptions C45_disjoint_join.
(** in general the counts of the other graph replace those of this one *)
Theorem C45_join_overwrites : forall g other N C M D, built g -> shows g N C -> built other -> shows other M D ->
  exists g', join g other = Ok g' /\
    (forall x, In x (activities g') <-> N x \/ M x) /\
    forall a b, get_count a b g' = match D a b with Some d => d | None => match C a b with Some c => c | None => 0 end end%Z.
Proof. exact @DfgJ.C45_join_overwrites. Qed.
Print Assumptions C45_join_overwrites.
Theorem C45_sum_of_counts_refuted : exists g h g', built g /\ built h /\ join g h = Ok g' /\
  get_count "a" "b" g = 1%Z /\ get_count "a" "b" h = 1%Z /\ get_count "a" "b" g' = 1%Z /\
  get_following g' "a" = Ok ["b"; "b"].
Proof. exact @DfgJ.C45_sum_of_counts_refuted. Qed.
Print Assumptions C45_sum_of_counts_refuted.
Example C45_example : seen (join (graph_of [["a"; "b"]]) (graph_of [["b"; "a"; "c"]])) =
  (["a"; "b"; "c"], [("a", "b", 1%Z); ("b", "a", 1%Z); ("a", "c", 1%Z)]).
Proof. vm_compute. reflexivity. Qed.

(** C71: Allowed start and end activities *)
Theorem C71_allowed_starts : forall ord allowed g N C, any_order ord -> built g -> shows g N C ->
  exists g' K C', remove_not_allowed_start_activities ord allowed g = Ok g' /\ built g' /\ shows g' K C' /\
    largest_supported N allowed (fun y x => edge_of C y x) K /\
    forall x y c, C' x y = Some c <-> C x y = Some c /\ K x /\ K y.
Proof. exact @DfgJ.C71_allowed_starts. Qed.
Print Assumptions C71_allowed_starts.
Theorem C71_allowed_ends : forall ord allowed g N C, any_order ord -> built g -> shows g N C ->
  exists g' K C', remove_not_allowed_end_activities ord allowed g = Ok g' /\ built g' /\ shows g' K C' /\
    largest_supported N allowed (fun y x => edge_of C x y) K /\
    forall x y c, C' x y = Some c <-> C x y = Some c /\ K x /\ K y.
Proof. exact @DfgJ.C71_allowed_ends. Qed.
Print Assumptions C71_allowed_ends.
Example C71_example :
  fst (seen (remove_not_allowed_start_activities rev_ord ["d"] ex)) = ["a"; "b"; "c"; "d"; "e"] /\
  fst (seen (remove_not_allowed_start_activities rev_ord ["a"] ex)) = ["a"; "b"; "c"] /\
  fst (seen (remove_not_allowed_end_activities rev_ord ["e"] ex)) = ["a"; "b"; "d"; "e"].
Proof. vm_compute. auto. Qed.

(** C72: Generated logs *)
Theorem C72_generated_traces : forall {V} fuel choice g N C nr starts ends (l : log string V nat),
  (forall i s, s <> [] -> In (choice i s) s) -> built g -> shows g N C ->
  generate_log fuel choice g nr starts ends = Ok l ->
  let is_start x := match starts with Some s => In x s | None => N x /\ forall p, edge_of C p x -> p = x end in
  let is_end x := match ends with Some s => In x s | None => N x /\ forall s, edge_of C x s -> s = x end in
  length l = nr /\
  Forall (fun t => exists a b w, is_start a /\ is_end b /\
      map activity (events t) = w ++ [b] /\ path (edge_of C) a b (w ++ [b]) /\
      Forall N (w ++ [b]) /\ forall y, In y w -> ~ is_end y) l.
Proof. exact @DfgJ.C72_generated_traces. Qed.
Print Assumptions C72_generated_traces.
(** Every list of such walks is generated, for some outcomes of the random
    choices; the traces are numbered from 0. *)
Theorem C72_every_walk : forall {V} g N C starts ends (ws : list (list string)), built g -> shows g N C ->
  let is_start x := match starts with Some s => In x s | None => N x /\ forall p, edge_of C p x -> p = x end in
  let is_end x := match ends with Some s => In x s | None => N x /\ forall s, edge_of C x s -> s = x end in
  ws <> [] ->
  Forall (fun t => exists a b w, is_start a /\ is_end b /\ t = w ++ [b] /\ path (edge_of C) a b t /\
      Forall N t /\ forall y, In y w -> ~ is_end y) ws ->
  exists fuel choice (l : log string V nat), (forall i s, s <> [] -> In (choice i s) s) /\
    generate_log fuel choice g (length ws) starts ends = Ok l /\
    map (fun t => map activity (events t)) l = ws /\ map tid l = seq 0 (length ws).
Proof. exact @DfgWalks.C72_every_walk. Qed.
Print Assumptions C72_every_walk.
(** Generating fails only if there are no start or end activities, if a start
    activity is unknown, or if a walk runs into a dead end before it has seen an
    end activity (or it goes on for ever). *)
Theorem C72_failures : forall {V} fuel choice g N C nr starts ends, 
  (forall i s, s <> [] -> In (choice i s) s) -> built g -> shows g N C ->
  let is_start x := match starts with Some s => In x s | None => N x /\ forall p, edge_of C p x -> p = x end in
  let is_end x := match ends with Some s => In x s | None => N x /\ forall s, edge_of C x s -> s = x end in
  (((forall x, ~ is_start x) \/ (forall x, ~ is_end x)) -> generate_log (V := V) fuel choice g nr starts ends = Err ValueError) /\
  forall e, generate_log (V := V) fuel choice g nr starts ends = Err e -> e <> OutOfFuel ->
    (e = ValueError /\ ((forall x, ~ is_start x) \/ (forall x, ~ is_end x))) \/
    (e = KeyError /\ exists a, is_start a /\ ~ N a) \/
    (e = IndexError /\ exists a b w, is_start a /\ path (edge_of C) a b w /\ Forall N w /\ (forall y, In y w -> ~ is_end y) /\ forall y, ~ edge_of C b y).
Proof. exact @DfgWalks.C72_failures. Qed.
Print Assumptions C72_failures.
Definition first_choice (i : nat) (s : list string) : string := match s with x :: _ => x | [] => "" end.
Example C72_example : (forall i s, s <> [] -> In (first_choice i s) s) /\
  match generate_log (V:=nat) 9 first_choice ex 2 (Some ["b"]) (Some ["b"; "e"]) with
  | Ok l => map to_activity_list l | Err _ => [] end = [["b"]; ["b"]] /\
  match generate_log (V:=nat) 9 first_choice ex 1 None None with
  | Ok l => map to_activity_list l | Err _ => [] end = [["d"; "e"]].
Proof. split; [|vm_compute; auto]. intros i [|x s] H; [contradiction|now left]. Qed.
Example C72_example_failures :
  generate_log (V:=nat) 9 first_choice ex 1 (Some ["x"]) None = Err KeyError /\
  generate_log (V:=nat) 9 first_choice ex 1 (Some ["d"]) (Some ["a"]) = Err IndexError /\
  generate_log (V:=nat) 9 first_choice ex 1 None (Some []) = Err ValueError /\
  generate_log (V:=nat) 9 first_choice ex 1 (Some ["a"]) (Some ["e"]) = Err OutOfFuel.
Proof. vm_compute. auto. Qed.

(** C73: Eventually-follows graph *)
Theorem C73_eventually_follows : forall {V I} (l : log string V I), (forall t, In t l -> events t <> []) ->
  exists g C, eventually_follows_graph l = Ok g /\ built g /\
    shows g (fun x => exists t, In t l /\ exists y, starts_before (events t) x y \/ starts_before (events t) y x) C /\
    forall a b, exists n,
      has_size (fun k => exists t, nth_error l k = Some t /\ starts_before (events t) a b) n /\
      C a b = if n =? 0 then None else Some (Z.of_nat n).
Proof. exact @DfgJ.C73_eventually_follows. Qed.
Print Assumptions C73_eventually_follows.
Theorem C73_empty_trace : forall {V I} (l : log string V I) t, In t l -> events t = [] -> eventually_follows_graph l = Err ValueError.
Proof. exact @DfgJ.C73_empty_trace. Qed.
Print Assumptions C73_empty_trace.
Example C73_example :
  seen (eventually_follows_graph (V:=nat)
    (match create_from_simple [["a"; "b"; "a"; "c"]; ["c"; "a"]; ["d"; "d"]] with Ok l => l | Err _ => [] end)) =
  (["a"; "b"; "c"], [("a", "b", 1%Z); ("a", "c", 1%Z); ("b", "c", 1%Z); ("c", "a", 1%Z)]).
Proof. vm_compute. reflexivity. Qed.

(** C74: Comparing graphs *)
Theorem C74_equality : forall g h N C M D, built g -> shows g N C -> built h -> shows h M D ->
  graph_eqb g h = true <-> (forall a, N a <-> M a) /\ (forall a b, C a b = D a b).
Proof. exact @DfgJ.C74_equality. Qed.
Print Assumptions C74_equality.
Example C74_example : graph_eqb (graph_of [["a"; "b"]; ["b"; "c"]]) (graph_of [["b"; "c"]; ["a"; "b"]]) = true /\
  graph_eqb (graph_of [["a"; "b"]; ["a"; "b"]]) (graph_of [["a"; "b"]]) = false.
Proof. vm_compute. auto. Qed.

(** C75: Selecting nodes, sources and sinks *)
Theorem C75_select_nodes : forall ord acts g N C, any_order ord -> built g -> shows g N C ->
  exists g' C', select_nodes ord acts g = Ok g' /\ built g' /\ shows g' (fun x => N x /\ In x acts) C' /\
    forall x y c, C' x y = Some c <-> C x y = Some c /\ In x acts /\ In y acts.
Proof. exact @DfgJ.C75_select_nodes. Qed.
Print Assumptions C75_select_nodes.
Theorem C75_sources_and_sinks : forall g N C, built g -> shows g N C ->
  (NoDup (get_source_activities g) /\
   forall a, In a (get_source_activities g) <-> N a /\ forall p, edge_of C p a -> p = a) /\
  (NoDup (get_sink_activities g) /\
   forall a, In a (get_sink_activities g) <-> N a /\ forall s, edge_of C a s -> s = a).
Proof. exact @DfgJ.C75_sources_and_sinks. Qed.
Print Assumptions C75_sources_and_sinks.
Example C75_example : fst (seen (select_nodes rev_ord ["c"; "a"; "z"] ex)) = ["a"; "c"] /\
  get_source_activities ex = ["d"] /\ get_sink_activities ex = ["c"; "e"].
Proof. vm_compute. auto. Qed.
