(** Properties C122, C123, C124, C128 and C145: drawings of directly-follows graphs *)
From Coq Require Import String ZArith QArith Sorted.
From Verif.Model Require Import Base Dot Drawings Dfg Colors.
From Verif.Spec Require Import DotSpec Lists Graphs EventLogSpec DfgSpec DfgBuilt WalkSpec ColorSpec.
From Verif.Proofs Require DotA DotB DotD DotE ColorsA.
Open Scope string_scope.
Open Scope list_scope.
Open Scope nat_scope.
Definition counts_of (l : list (string * string * Z)) : result graph := foldM (fun g '(a, b, c) => add_count a b c g) l empty.

(** C122: Graphs are compared by their drawings *)
Theorem C122_equality : forall show g h N C M D, built g -> shows g N C -> built h -> shows h M D ->
  (forall a, N a \/ M a -> ordinary a) ->
  dfg_eq show g h = true <-> (forall a, N a <-> M a) /\ (forall a b, C a b = D a b).
Proof. exact @DotA.C122_equality. Qed.
Print Assumptions C122_equality.
(** whatever the names are, the same graph has the same text *)
Theorem C122_same : forall show g h N C M D, built g -> shows g N C -> built h -> shows h M D ->
  (forall a, N a <-> M a) -> (forall a b, C a b = D a b) -> dfg_repr show g = dfg_repr show h /\ dfg_eq show g h = true.
Proof. exact @DotA.C122_same. Qed.
Print Assumptions C122_same.
(** the end of an edge is only named up to the first colon *)
Theorem C122_colon_witness : forall show g h, (do g1 <- add_count "a" "b" 1 empty ; Ok (add_node "a:" g1)) = Ok g -> (do h1 <- add_count "a:" "b" 1 empty ; Ok (add_node "a" h1)) = Ok h ->
  dfg_eq show g h = true /\ get_count "a" "b" g = 1%Z /\ get_count "a" "b" h = 0%Z.
Proof. exact @DotA.C122_colon_witness. Qed.
Print Assumptions C122_colon_witness.
(** a quotation mark with a backslash before it is the same as one without *)
Theorem C122_quote_witness : forall show, let a := String quotation "" in let b := String backslash (String quotation "") in
  dfg_eq show (add_node a empty) (add_node b empty) = true /\ activities (add_node a empty) <> activities (add_node b empty).
Proof. exact @DotA.C122_quote_witness. Qed.
Print Assumptions C122_quote_witness.
Example C122_example : match counts_of [("a", "b", 2); ("b", "c d", 1)]%Z, counts_of [("b", "c d", 1); ("a", "b", 2)]%Z, counts_of [("a", "b", 2); ("b", "c d", 3)]%Z with
  | Ok g, Ok h, Ok k => let show (_ : Q) := "" in (dfg_eq show g h, dfg_eq show g k) = (true, false)
  | _, _, _ => False
  end.
Proof. vm_compute. reflexivity. Qed.
Example C122_ordinary : ordinary "c d" /\ ordinary "Ärger & <=" /\ ~ ordinary "a:b".
Proof. unfold ordinary. vm_compute. intuition discriminate. Qed.

(** C123: Drawings of directly-follows graphs *)
Theorem C123_statements : forall show show_counts weighted lo hi g N C, built g -> shows g N C ->
  exists acts es, dfg_plot show show_counts weighted lo hi g = map dfg_node acts ++ es /\ NoDup acts /\ (forall a, In a acts <-> N a) /\ length es = get_nr_of_edges g /\
    (forall a b c, C a b = Some c -> exists w, In (EdgeStatement a b (Some (if show_counts then str c else "")) [("penwidth", w)]) es) /\
    (forall s, In s es -> exists a b c w, s = EdgeStatement a b (Some (if show_counts then str c else "")) [("penwidth", w)] /\ C a b = Some c /\
       w = edge_weight show weighted lo hi c (minimum_count (map snd (edge_list g))) (maximum_count (map snd (edge_list g)))) /\
    (forall a b l w l' w' i j, nth_error es i = Some (EdgeStatement a b l w) -> nth_error es j = Some (EdgeStatement a b l' w') -> i = j).
Proof. exact @DotA.C123_statements. Qed.
Print Assumptions C123_statements.
(** the widths grow linearly with the counts from the least to the greatest *)
Theorem C123_weights : forall show lo hi counts c d, In c counts -> In d counts -> (lo <= hi)%Q ->
  let weight x := edge_weight show true lo hi x (minimum_count counts) (maximum_count counts) in
  (c <> d -> exists w, (forall x, In x counts -> weight x = show (w x)) /\
     (forall x, In x counts -> (lo <= w x <= hi)%Q) /\ (forall x y, In x counts -> In y counts -> (x <= y)%Z -> (w x <= w y)%Q) /\
     (forall x, (forall y, In y counts -> (x <= y)%Z) -> In x counts -> (w x == lo)%Q) /\ (forall x, (forall y, In y counts -> (y <= x)%Z) -> In x counts -> (w x == hi)%Q)) /\
  ((forall x, In x counts -> x = c) -> weight c = "1.0") /\
  (forall x, edge_weight show false lo hi x (minimum_count counts) (maximum_count counts) = "1.0").
Proof. exact @DotA.C123_weights. Qed.
Print Assumptions C123_weights.
(** an edge of an activity with a colon is drawn at another node *)
Theorem C123_colon_witness : forall show lo hi g, add_count "a:b" "c" 1 empty = Ok g ->
  map line (dfg_plot show true false lo hi g) = map (fun s => String tabulator s ++ newline)%string
    [String quotation ("a:b" ++ String quotation " [fillcolor=white fontcolor=black shape=rectangle style=filled]"); "c [fillcolor=white fontcolor=black shape=rectangle style=filled]";
     "a:b -> c [label=1 penwidth=1.0]"]%string.
Proof. exact @DotA.C123_colon_witness. Qed.
Print Assumptions C123_colon_witness.
Example C123_example : match counts_of [("b", "a", 5); ("a", "b", 1)]%Z with
  | Ok g => let show (q : Q) := if Qle_bool q 1 then "1.0" else "10.0" in
    dfg_plot show true true 1 10 g = [dfg_node "a"; dfg_node "b"; EdgeStatement "a" "b" (Some "1") [("penwidth", "1.0")]; EdgeStatement "b" "a" (Some "5") [("penwidth", "10.0")]]
  | _ => False
  end.
Proof. vm_compute. reflexivity. Qed.

(** C124: Rows of activities from the sources on *)
Theorem C124_rows : forall ord g N C, any_order ord -> built g -> shows g N C ->
  let first a := N a /\ forall p, edge_of C p a -> p = a in
  exists rows, topological_groups ord g = Ok rows /\
    (forall i r, nth_error rows i = Some r -> NoDup r /\ r <> []) /\
    forall i a, (exists r, nth_error rows i = Some r /\ In a r) <->
      (exists s l, first s /\ path (edge_of C) s a l /\ length l = S i) /\
      (forall s l, first s -> path (edge_of C) s a l -> S i <= length l).
Proof. exact @DotB.C124_rows. Qed.
Print Assumptions C124_rows.
(** every activity that some source leads to is in a row, and no other *)
Theorem C124_reachable : forall ord g N C rows, any_order ord -> built g -> shows g N C -> topological_groups ord g = Ok rows ->
  forall a, In a (concat rows) <-> exists s, (N s /\ forall p, edge_of C p s -> p = s) /\ connected0 (edge_of C) s a.
Proof. exact @DotB.C124_reachable. Qed.
Print Assumptions C124_reachable.
(** no activity of a loop that nothing leads into is in a row *)
Theorem C124_loop_witness : exists g, add_count "a" "b" 1 empty = Ok g /\ exists g', add_count "b" "a" 1 g = Ok g' /\
  forall ord, topological_groups ord g' = Ok [].
Proof. exact @DotB.C124_loop_witness. Qed.
Print Assumptions C124_loop_witness.
(** the drawing has one subgraph per row, with the nodes of the activities of the
    row in ascending order, and no other nodes; edges are drawn as without rows *)
Theorem C124_drawing : forall show show_counts weighted lo hi (concentrate : bool) ord g N C, any_order ord -> built g -> shows g N C ->
  let first a := N a /\ forall p, edge_of C p a -> p = a in
  exists rows acts es, dfg_draw show show_counts weighted lo hi concentrate None true ord g =
      Ok ((if concentrate then [GraphAttribute "concentrate" "true"] else []) ++ map (fun r => SameRank (map dfg_node r)) rows ++ map Single es) /\
    dfg_plot show show_counts weighted lo hi g = map dfg_node acts ++ es /\ length es = get_nr_of_edges g /\
    (forall r, In r rows -> r <> [] /\ StronglySorted (fun a b => String.leb a b = true /\ a <> b) r) /\
    forall i a, (exists r, nth_error rows i = Some r /\ In a r) <->
      (exists s l, first s /\ path (edge_of C) s a l /\ length l = S i) /\
      (forall s l, first s -> path (edge_of C) s a l -> S i <= length l).
Proof. exact @DotE.C124_drawing. Qed.
Print Assumptions C124_drawing.
(** without rows the drawing is the list of nodes and edges of C123; both kinds of
    rows cannot be asked for at the same time *)
Theorem C124_options : forall show show_counts weighted lo hi (concentrate : bool) ord w g,
  dfg_draw show show_counts weighted lo hi concentrate None false ord g =
    Ok ((if concentrate then [GraphAttribute "concentrate" "true"] else []) ++ map Single (dfg_plot show show_counts weighted lo hi g)) /\
  dfg_draw show show_counts weighted lo hi concentrate (Some w) true ord g = Err NotImplementedError.
Proof. exact @DotE.C124_options. Qed.
Print Assumptions C124_options.
Example C124_example : match counts_of [("s", "s", 1); ("s", "a", 1); ("a", "b", 1); ("b", "a", 1); ("b", "c", 1); ("t", "c", 1); ("x", "y", 1); ("y", "x", 1)]%Z with
  | Ok g => topological_groups (fun l => l) g = Ok [["s"; "t"]; ["a"; "c"]; ["b"]] /\
    (do l <- dfg_draw (fun _ => "") true false 1 10 true None true (fun l => l) g ; Ok (firstn 4 l)) =
      Ok [GraphAttribute "concentrate" "true"; SameRank [dfg_node "s"; dfg_node "t"]; SameRank [dfg_node "a"; dfg_node "c"]; SameRank [dfg_node "b"]]
  | _ => False
  end.
Proof. vm_compute. split; reflexivity. Qed.

(** C128: Rows by random walks *)
Theorem C128_rows : forall choose s e n g N C, (forall w i k, 0 < k -> choose w i k < k) -> built g -> shows g N C -> N s \/ n = 0 ->
  exists rows walks, walk_groups choose s e n g = Ok rows /\
    length walks = n /\ (forall w, In w walks -> is_walk (edge_of C) s e w) /\
    StronglySorted Z.lt (map fst rows) /\ (forall k r, In (k, r) rows -> NoDup r /\ r <> []) /\
    forall a k, (exists r, In (k, r) rows /\ In a r) <-> N a /\ nearest (average0 (steps walks a)) k.
Proof. exact @DotD.C128_rows. Qed.
Print Assumptions C128_rows.
Theorem C128_errors : forall choose s e n g N C, built g -> shows g N C -> ~ N s -> 0 < n -> walk_groups choose s e n g = Err KeyError.
Proof. exact @DotD.C128_errors. Qed.
Print Assumptions C128_errors.
(** the drawing has one subgraph per row, from the first to the last one, with its
    activities in ascending order; edges are drawn as without rows *)
Theorem C128_drawing : forall show show_counts weighted lo hi (concentrate : bool) ord choose s e n g N C,
  (forall w i k, 0 < k -> choose w i k < k) -> built g -> shows g N C -> N s \/ n = 0 ->
  exists (rows : list (Z * list string)) walks acts es, dfg_draw show show_counts weighted lo hi concentrate (Some (choose, s, e, n)) false ord g =
      Ok ((if concentrate then [GraphAttribute "concentrate" "true"] else []) ++ map (fun r => SameRank (map dfg_node (snd r))) rows ++ map Single es) /\
    dfg_plot show show_counts weighted lo hi g = map dfg_node acts ++ es /\ length es = get_nr_of_edges g /\
    length walks = n /\ (forall w, In w walks -> is_walk (edge_of C) s e w) /\
    StronglySorted Z.lt (map fst rows) /\
    (forall r, In r rows -> snd r <> [] /\ StronglySorted (fun a b => String.leb a b = true /\ a <> b) (snd r)) /\
    forall a k, (exists r, In (k, r) rows /\ In a r) <-> N a /\ nearest (average0 (steps walks a)) k.
Proof. exact @DotE.C128_drawing. Qed.
Print Assumptions C128_drawing.
(** an unknown start *)
Theorem C128_drawing_errors : forall show show_counts weighted lo hi concentrate ord choose s e n g N C, built g -> shows g N C -> ~ N s -> 0 < n ->
  dfg_draw show show_counts weighted lo hi concentrate (Some (choose, s, e, n)) false ord g = Err KeyError.
Proof. exact @DotE.C128_drawing_errors. Qed.
Print Assumptions C128_drawing_errors.
(** the first walk is s, a, e; the second is s, b, a, e *)
Example C128_example : match counts_of [("s", "a", 1); ("s", "b", 1); ("a", "e", 1); ("b", "a", 1); ("e", "s", 1)]%Z with
  | Ok g => walk_groups (fun w i k => if (i =? 1) && (w =? 1) then 1 else 0) "s" "e" 2 g = Ok [(0%Z, ["s"]); (1%Z, ["b"]); (2%Z, ["a"; "e"])]
  | _ => False
  end.
Proof. vm_compute. reflexivity. Qed.

(** C145: Colors of activities *)
Theorem C145_colors : forall show show_counts weighted lo hi g c F, painted g c F ->
  built g /\ (forall a, In a (activities g) <-> F a <> None) /\
  colored_plot show show_counts weighted lo hi g c = map (paint F) (dfg_plot show show_counts weighted lo hi g).
Proof. exact @ColorsA.C145_colors. Qed.
Print Assumptions C145_colors.
Theorem C145_equality : forall show g c F N C h d G M D, painted g c F -> shows g N C -> painted h d G -> shows h M D ->
  (forall a, N a \/ M a -> ordinary a) -> (forall a p, F a = Some p \/ G a = Some p -> ordinary (fst p) /\ ordinary (snd p)) ->
  colored_eq show g c h d = true <-> (forall a, F a = G a) /\ (forall a b, C a b = D a b).
Proof. exact @ColorsA.C145_equality. Qed.
Print Assumptions C145_equality.
(** a copy has none of the colors *)
Theorem C145_copy : forall show g c F, painted g c F -> (forall a, In a (activities g) -> ordinary a) -> (forall a p, F a = Some p -> ordinary (fst p) /\ ordinary (snd p)) ->
  exists g', copy g = Ok g' /\ (colored_eq show g c g' new_colors = true <-> forall a p, F a = Some p -> p = ("white", "black")).
Proof. exact @ColorsA.C145_copy. Qed.
Print Assumptions C145_copy.
(** without painting, drawings and comparisons are those of uncolored graphs *)
Theorem C145_white : forall show show_counts weighted lo hi g h,
  built g -> built h -> colored_plot show show_counts weighted lo hi g new_colors = dfg_plot show show_counts weighted lo hi g /\
  colored_eq show g new_colors h new_colors = dfg_eq show g h.
Proof. exact @ColorsA.C145_white. Qed.
Print Assumptions C145_white.
(** painting an activity that is not in the graph raises *)
Theorem C145_raises : forall a x g c, built g -> ~ In a (activities g) -> set_color a x g c = Err KeyError /\ set_fontcolor a x g c = Err KeyError.
Proof. exact @ColorsA.C145_raises. Qed.
Print Assumptions C145_raises.
(** a becomes red and is renamed to c; b gets blue letters, is removed and comes back *)
Definition the {X} (x : X) (r : result X) : X := match r with Ok y => y | Err _ => x end.
Definition g1 := the empty (add_count "a" "b" 1 empty).
Definition c1 := the new_colors (set_color "a" "red" g1 new_colors).
Definition c2 := the new_colors (set_fontcolor "b" "blue" g1 c1).
Definition g2 := the empty (rename_activity "a" "c" g1).
Definition g3 := the empty (remove_node (fun s => s) "b" false g2).
Definition g4 := add_node "a" (add_node "b" g3).
Example C145_example : exists F, painted g4 c2 F /\
  map F ["a"; "b"; "c"; "d"] = [Some ("white", "black"); Some ("white", "black"); Some ("red", "black"); None] /\
  colored_eq (fun _ => "") g4 c2 (the empty (copy g4)) new_colors = false.
Proof.
  eexists. split; [|split; [|vm_compute; reflexivity]].
  - eapply p_change; [eapply (p_change g3)|apply ch_add_node]; [|apply ch_add_node].
    eapply (p_change g2 c2 _ g3); [|eapply (ch_remove_node (fun s => s) "b" false); [intros s; apply Permutation.Permutation_refl|vm_compute; reflexivity]].
    eapply (p_rename "a" "c" g1); [|vm_compute; intuition discriminate|vm_compute; reflexivity].
    eapply (p_fontcolor "b" "blue" g1 c1); [|vm_compute; reflexivity]. eapply (p_color "a" "red" g1 new_colors); [|vm_compute; reflexivity].
    apply p_new. eapply (b_add_count "a" "b" 1 empty g1); [apply b_empty|vm_compute; reflexivity].
  - vm_compute. reflexivity.
Qed.
