(** Drawings of directly-follows graphs with rows *)
From Coq Require Import String Permutation QArith Sorted Lia.
From Verif.Model Require Import Base Sort Dot Drawings Dfg.
From Verif.Spec Require Import DotSpec Lists Graphs EventLogSpec DfgSpec DfgBuilt WalkSpec.
From Verif.Lib Require Import ListLib SortLib StrLib.
From Verif.Proofs Require DotA DotB DotD.
Open Scope string_scope.
Open Scope list_scope.
Open Scope nat_scope.

Definition ascending : list string -> Prop := StronglySorted (fun a b => String.leb a b = true /\ a <> b).
Lemma sort_ascending r : NoDup r -> ascending (stable_sort String.leb r).
Proof.
  intros N. assert (N' : NoDup (stable_sort String.leb r)) by (eapply Permutation_NoDup; [symmetry; apply sort_perm|auto]).
  pose proof (sort_sorted String.leb String.leb_total str_leb_trans r) as S. unfold ascending. induction S as [|a l S IH F]; [constructor|].
  apply NoDup_cons_iff in N' as [X N']. constructor; [auto|]. rewrite Forall_forall in *. intros b Hb. split; [auto|congruence].
Qed.
Lemma edges_split show sc wt lo hi g N C : built g -> shows g N C ->
  exists acts, dfg_plot show sc wt lo hi g = map dfg_node acts ++ dfg_edges show sc wt lo hi g /\ length (dfg_edges show sc wt lo hi g) = get_nr_of_edges g.
Proof.
  intros B S. eexists. split; [reflexivity|]. unfold dfg_edges. rewrite map_length, (Permutation_length (sort_perm edge_leb (edge_list g))). symmetry. apply (sh_nr _ _ _ S).
Qed.

(*P C124 Rows of activities from the sources on *)
(** the drawing has one subgraph per row, with the nodes of the activities of the
    row in ascending order, and no other nodes; edges are drawn as without rows *)
Lemma C124_drawing : forall show show_counts weighted lo hi (concentrate : bool) ord g N C, any_order ord -> built g -> shows g N C ->
  let first a := N a /\ forall p, edge_of C p a -> p = a in
  exists rows acts es, dfg_draw show show_counts weighted lo hi concentrate None true ord g =
      Ok ((if concentrate then [GraphAttribute "concentrate" "true"] else []) ++ map (fun r => SameRank (map dfg_node r)) rows ++ map Single es) /\
    dfg_plot show show_counts weighted lo hi g = map dfg_node acts ++ es /\ length es = get_nr_of_edges g /\
    (forall r, In r rows -> r <> [] /\ StronglySorted (fun a b => String.leb a b = true /\ a <> b) r) /\
    forall i a, (exists r, nth_error rows i = Some r /\ In a r) <->
      (exists s l, first s /\ path (edge_of C) s a l /\ length l = S i) /\
      (forall s l, first s -> path (edge_of C) s a l -> S i <= length l).
Proof.
  intros show sc wt lo hi conc ord g N C O B S. cbv zeta. destruct (DotB.C124_rows ord g N C O B S) as (rows & E & R1 & R2). destruct (edges_split show sc wt lo hi g N C B S) as (acts & A1 & A2).
  exists (map (stable_sort String.leb) rows), acts, (dfg_edges show sc wt lo hi g). split; [|split; [exact A1|split; [exact A2|split]]].
  - unfold dfg_draw, plot_nodes. rewrite E. cbn [bind]. unfold add_node_groups. rewrite map_map. reflexivity.
  - intros r Hr. apply in_map_iff in Hr as (r0 & <- & Hr). apply In_nth_error in Hr as [i Hr]. destruct (R1 i r0 Hr) as [N1 N2]. split; [|apply sort_ascending; auto].
    intros Z. apply N2. apply Permutation_nil. rewrite <- Z. apply sort_perm.
  - intros i a. rewrite <- R2. split.
    + intros (r & Hr & Ha). rewrite nth_error_map in Hr. destruct (nth_error rows i) as [r0|]; [|discriminate]. injection Hr as <-. exists r0. split; [auto|]. apply sort_In in Ha. auto.
    + intros (r & Hr & Ha). exists (stable_sort String.leb r). rewrite nth_error_map, Hr. split; [auto|]. apply sort_In. auto.
Qed.
(** without rows the drawing is the list of nodes and edges of C123; both kinds of
    rows cannot be asked for at the same time *)
Lemma C124_options : forall show show_counts weighted lo hi (concentrate : bool) ord w g,
  dfg_draw show show_counts weighted lo hi concentrate None false ord g =
    Ok ((if concentrate then [GraphAttribute "concentrate" "true"] else []) ++ map Single (dfg_plot show show_counts weighted lo hi g)) /\
  dfg_draw show show_counts weighted lo hi concentrate (Some w) true ord g = Err NotImplementedError.
Proof.
  intros. destruct w as [[[ch s] e] n]. split; [|reflexivity]. unfold dfg_draw, plot_nodes, dfg_plot. cbn [bind]. rewrite map_app, map_map. reflexivity.
Qed.
(*P C128 Rows by random walks *)
(** the drawing has one subgraph per row, from the first to the last one, with its
    activities in ascending order; edges are drawn as without rows *)
Lemma C128_drawing : forall show show_counts weighted lo hi (concentrate : bool) ord choose s e n g N C,
  (forall w i k, 0 < k -> choose w i k < k) -> built g -> shows g N C -> N s \/ n = 0 ->
  exists (rows : list (Z * list string)) walks acts es, dfg_draw show show_counts weighted lo hi concentrate (Some (choose, s, e, n)) false ord g =
      Ok ((if concentrate then [GraphAttribute "concentrate" "true"] else []) ++ map (fun r => SameRank (map dfg_node (snd r))) rows ++ map Single es) /\
    dfg_plot show show_counts weighted lo hi g = map dfg_node acts ++ es /\ length es = get_nr_of_edges g /\
    length walks = n /\ (forall w, In w walks -> is_walk (edge_of C) s e w) /\
    StronglySorted Z.lt (map fst rows) /\
    (forall r, In r rows -> snd r <> [] /\ StronglySorted (fun a b => String.leb a b = true /\ a <> b) (snd r)) /\
    forall a k, (exists r, In (k, r) rows /\ In a r) <-> N a /\ nearest (average0 (steps walks a)) k.
Proof.
  intros show sc wt lo hi conc ord choose s e n g N C Hch B S Hs. destruct (DotD.C128_rows choose s e n g N C Hch B S Hs) as (rows & walks & E & W1 & W2 & R1 & R2 & R3).
  destruct (edges_split show sc wt lo hi g N C B S) as (acts & A1 & A2).
  exists (map (fun r => (fst r, stable_sort String.leb (snd r))) rows), walks, acts, (dfg_edges show sc wt lo hi g).
  split; [|split; [exact A1|split; [exact A2|split; [exact W1|split; [exact W2|split; [|split]]]]]].
  - unfold dfg_draw, plot_nodes. rewrite E. cbn [bind]. unfold add_node_groups. rewrite !map_map. reflexivity.
  - rewrite map_map. exact R1.
  - intros r Hr. apply in_map_iff in Hr as ([k r0] & <- & Hr). cbn [fst snd]. destruct (R2 k r0 Hr) as [N1 N2]. split; [|apply sort_ascending; auto].
    intros Z. apply N2. apply Permutation_nil. rewrite <- Z. apply sort_perm.
  - intros a k. rewrite <- R3. split.
    + intros (r & Hr & Ha). apply in_map_iff in Hr as ([k0 r0] & X & Hr). injection X as <- <-. exists r0. split; [auto|]. apply sort_In in Ha. auto.
    + intros (r & Hr & Ha). exists (stable_sort String.leb r). split; [apply in_map_iff; exists (k, r); auto|]. apply sort_In. auto.
Qed.
(** an unknown start *)
Lemma C128_drawing_errors : forall show show_counts weighted lo hi concentrate ord choose s e n g N C, built g -> shows g N C -> ~ N s -> 0 < n ->
  dfg_draw show show_counts weighted lo hi concentrate (Some (choose, s, e, n)) false ord g = Err KeyError.
Proof. intros. unfold dfg_draw, plot_nodes. rewrite (DotD.C128_errors choose s e n g N C) by auto. reflexivity. Qed.
