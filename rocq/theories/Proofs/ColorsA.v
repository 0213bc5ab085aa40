(** Colors of the nodes of directly-follows graphs *)
From Coq Require Import String Ascii QArith.
From Verif.Model Require Import Base Sort Dot Drawings EventLog Dfg Colors.
From Verif.Spec Require Import DotSpec Graphs EventLogSpec DfgSpec DfgBuilt ColorSpec.
From Verif.Lib Require Import ListLib DictLib.
From Verif.Proofs Require Import DfgA DfgJ DotA.
From Verif.Proofs Require RcB.
Open Scope string_scope.
Open Scope list_scope.
Open Scope nat_scope.

(** nodes are only added, or only removed *)
Definition grows g g' : Prop := (NoDup (keys (nodes g)) -> NoDup (keys (nodes g'))) /\ nn g <= nn g' /\ (forall a n, dict_get a (nodes g) = Some n -> dict_get a (nodes g') = Some n) /\
  forall a n, dict_get a (nodes g') = Some n -> dict_get a (nodes g) = Some n \/ nn g <= n.
Definition shrinks g g' : Prop := nn g <= nn g' /\ (NoDup (keys (nodes g)) -> NoDup (keys (nodes g'))) /\
  (NoDup (keys (nodes g)) -> forall a n, dict_get a (nodes g') = Some n -> dict_get a (nodes g) = Some n).
Lemma grows_refl g : grows g g. Proof. repeat split; auto. Qed.
Lemma shrinks_refl g : shrinks g g. Proof. repeat split; auto. Qed.
Lemma grows_trans g h k : grows g h -> grows h k -> grows g k.
Proof.
  intros (A0 & A1 & A2 & A3) (B0 & B1 & B2 & B3). split; [auto|]. split; [lia|]. split; [auto|]. intros a n E. destruct (B3 a n E) as [E1|E1]; [|right; lia]. apply A3; auto.
Qed.
Lemma shrinks_trans g h k : shrinks g h -> shrinks h k -> shrinks g k.
Proof. intros (A1 & A2 & A3) (B1 & B2 & B3). split; [lia|]. split; [auto|]. intros W a n E. apply A3; auto. Qed.
Lemma grows_eq g g' : nn g' = nn g -> nodes g' = nodes g -> grows g g'.
Proof. intros E1 E2. unfold grows. rewrite E1, E2. repeat split; auto. Qed.
Lemma shrinks_eq g g' : nn g' = nn g -> nodes g' = nodes g -> shrinks g g'.
Proof. intros E1 E2. unfold shrinks. rewrite E1, E2. repeat split; auto. Qed.
Lemma foldM_rel {X S} (R : S -> S -> Prop) (f : S -> X -> result S) : (forall s, R s s) -> (forall a b c, R a b -> R b c -> R a c) ->
  (forall s x s', f s x = Ok s' -> R s s') -> forall l s s', foldM f l s = Ok s' -> R s s'.
Proof.
  intros R0 RT H. induction l as [|x l IH]; intros s s' E; cbn in E; [injection E as <-; auto|].
  destruct (f s x) as [s1|e] eqn:E1; [|discriminate]. cbn in E. apply RT with s1; [eapply H; exact E1|auto].
Qed.
Lemma add_node_grows a g : grows g (add_node a g).
Proof.
  unfold add_node. destruct (dict_has a (nodes g)) eqn:E; [apply grows_refl|]. split; [apply keys_dict_set_NoDup|]. split; [cbn; lia|].
  assert (N : dict_get a (nodes g) = None) by (apply dict_get_None; rewrite <- dict_has_In; congruence).
  split; intros b n; cbn [nodes]; rewrite dict_get_set; destruct (eqb_ok b a) as [->|]; auto; [congruence|]. intros [= <-]. auto.
Qed.
Ltac step E := match type of E with (do _ <- ?r ; _) = Ok _ => let x := fresh "x" in let Ex := fresh "Ex" in destruct r as [x|] eqn:Ex; [|discriminate E]; cbn [bind] in E end.
Lemma add_count_grows a b c g g' : add_count a b c g = Ok g' -> grows g g'.
Proof.
  unfold add_count. intros E. apply grows_trans with (add_node b (add_node a g)); [eapply grows_trans; apply add_node_grows|].
  set (g1 := add_node b (add_node a g)) in *. step E. step E. injection E as <-.
  assert (grows g1 x). { destruct (dict_has (a, b) (edges g1)); [injection Ex as <-; apply grows_refl|]. step Ex. step Ex. injection Ex as <-. apply grows_eq; auto. }
  eapply grows_trans; [eauto|]. apply grows_eq; auto.
Qed.
Lemma remove_edge_same k g g' r : remove_edge k g = Ok (g', r) -> nn g' = nn g /\ nodes g' = nodes g.
Proof.
  unfold remove_edge. destruct (dict_get k (edges g)) as [e|]; [|intros [= <- <-]; auto]. intros E. step E. step E. injection E as <- <-. auto.
Qed.
Lemma remove_edges_same ks g g' : remove_edges ks g = Ok g' -> nn g' = nn g /\ nodes g' = nodes g.
Proof.
  apply (foldM_rel (fun g g' => nn g' = nn g /\ nodes g' = nodes g)); [auto|intros a b c [A1 A2] [B1 B2]; split; congruence|].
  intros s k s' E. step E. destruct x as [x o]. injection E as <-. eapply remove_edge_same; eauto.
Qed.
Lemma connect_grows a g g' : connect a g = Ok g' -> grows g g'.
Proof.
  unfold connect. intros E. step E. revert E. apply (foldM_rel grows); [apply grows_refl|apply grows_trans|]. intros s p s' E. step E. revert E.
  apply (foldM_rel grows); [apply grows_refl|apply grows_trans|]. intros s0 f s0' E. eapply add_count_grows; eauto.
Qed.
Lemma del_shrinks a g : shrinks g (set_nodes g (dict_del a (nodes g))).
Proof.
  split; [cbn; auto|]. split; [cbn; apply keys_dict_del_NoDup|]. intros W b n. cbn [nodes set_nodes]. rewrite dict_get_del by auto. destruct (eqb b a); [discriminate|auto].
Qed.
Lemma remove_node_split ord a conn g g' : remove_node ord a conn g = Ok g' -> exists m, grows g m /\ shrinks m g' /\ (conn = false -> m = g).
Proof.
  unfold remove_node. intros E. step E. exists x. split; [destruct conn; [eapply connect_grows; eauto|injection Ex as <-; apply grows_refl]|]. split; [|intros ->; injection Ex as <-; auto].
  step E. eapply shrinks_trans; [apply (del_shrinks a)|]. destruct (remove_edges_same _ _ _ E). apply shrinks_eq; auto.
Qed.
Lemma join_grows g other g' : join g other = Ok g' -> grows g g'.
Proof.
  unfold join. intros E. apply grows_trans with (fold_left (fun g n => add_node (n_act (nh other n)) g) (values (nodes other)) g).
  { clear E. generalize (values (nodes other)). intros l. revert g. induction l as [|n l IH]; intros g; cbn; [apply grows_refl|]. eapply grows_trans; [apply add_node_grows|apply IH]. }
  step E. step E. apply grows_trans with x; [|apply grows_trans with x0].
  - revert Ex. apply (foldM_rel grows); [apply grows_refl|apply grows_trans|]. intros s [k e] s' E'. step E'. step E'. injection E' as <-. apply grows_eq; auto.
  - revert Ex0. apply (foldM_rel grows); [apply grows_refl|apply grows_trans|]. intros s [k e] s' E'. step E'. step E'. injection E' as <-. apply grows_eq; auto.
  - revert E. apply (foldM_rel grows); [apply grows_refl|apply grows_trans|]. intros s [k e] s' E'. step E'. step E'. injection E' as <-. apply grows_eq; auto.
Qed.
Lemma not_allowed_shrinks ord ext allowed : forall fuel g g', remove_not_allowed fuel ord ext allowed g = Ok g' -> shrinks g g'.
Proof.
  induction fuel as [|fuel IH]; intros g g' E; cbn [remove_not_allowed] in E; destruct (filter _ (ext g)) as [|b bad]; try discriminate; try (injection E as <-; apply shrinks_refl).
  step E. apply shrinks_trans with x; [|eauto]. revert Ex. apply (foldM_rel shrinks); [apply shrinks_refl|apply shrinks_trans|].
  intros s a s' E'. destruct (remove_node_split _ _ _ _ _ E') as (m & _ & S & Em). rewrite (Em eq_refl) in S. auto.
Qed.
Lemma shortest_grows a b f g p g' : shortest_path a b f g = Ok (p, g') -> grows g g'.
Proof.
  unfold shortest_path. destruct (dict_has a (nodes g)); cbn [negb]; [|discriminate]. destruct (eqb a b); [intros [= <- <-]; apply grows_refl|].
  intros E. step E. destruct x as [g1 removed]. step E. step E. injection E as <- <-. apply grows_trans with g1.
  - unfold remove_forbidden in Ex. assert (G : grows (fst (g, @nil (option nat))) (fst (g1, removed))); [|exact G]. revert Ex. generalize (g1, removed). generalize (g, @nil (option nat)). intros s s' E.
    revert E. apply (foldM_rel (fun s s' => grows (fst s) (fst s'))); [intros; apply grows_refl|intros; eapply grows_trans; eauto|]. intros [u r] k s1 E. step E. injection E as <-. destruct x1 as [u' o]. cbn [fst].
    match goal with H : remove_edge _ _ = Ok _ |- _ => destruct (remove_edge_same _ _ _ _ H) end. apply grows_eq; auto.
  - revert Ex1. apply (foldM_rel grows); [apply grows_refl|apply grows_trans|]. intros s o s' E. step E. eapply add_count_grows; eauto.
Qed.
Lemma read_grows {V I} (l : log string V I) g g' : read_counts_from_log l g = Ok g' -> grows g g'.
Proof.
  unfold read_counts_from_log. apply (foldM_rel grows); [apply grows_refl|apply grows_trans|]. intros s t s' E. unfold read_trace in E.
  assert (R : forall (es : list (event string V)) g g', read_events es g = Ok g' -> grows g g').
  { clear. induction es as [|e es IH]; intros g g' E; cbn in E; [injection E as <-; apply grows_refl|]. destruct es as [|f es]; [injection E as <-; apply grows_refl|].
    step E. apply grows_trans with x; [|apply IH; auto]. eapply grows_trans; [apply add_node_grows|eapply add_count_grows; eauto]. }
  eapply grows_trans; [|eapply R; exact E]. destruct (events t); [apply grows_refl|apply add_node_grows].
Qed.
Lemma changes_split g g' : changes g g' -> exists m, grows g m /\ shrinks m g'.
Proof.
  intros H. destruct H.
  - exists (add_node a g). split; [apply add_node_grows|apply shrinks_refl].
  - exists g'. split; [eapply add_count_grows; eauto|apply shrinks_refl].
  - exists g. destruct (remove_edge_same _ _ _ _ H). split; [apply grows_refl|apply shrinks_eq; auto].
  - destruct (remove_node_split _ _ _ _ _ H0) as (m & A & B & _). eauto.
  - exists g'. split; [eapply join_grows; eauto|apply shrinks_refl].
  - exists g. split; [apply grows_refl|eapply not_allowed_shrinks; eauto].
  - exists g. split; [apply grows_refl|eapply not_allowed_shrinks; eauto].
  - exists g'. split; [eapply shortest_grows; eauto|apply shrinks_refl].
  - exists g'. split; [eapply read_grows; eauto|apply shrinks_refl].
Qed.
Lemma changes_built g g' : built g -> changes g g' -> built g'.
Proof. intros B H. destruct H; [eapply b_add_node|eapply b_add_count|eapply b_remove_edge|eapply b_remove_node|apply (b_join g other)|eapply b_start|eapply b_end|eapply b_shortest|eapply b_read]; try eassumption; eauto. Qed.
Lemma rename_nodes old new g g' : rename_activity old new g = Ok g' -> exists n, dict_get old (nodes g) = Some n /\ nn g' = nn g /\ nodes g' = dict_del old (dict_set new n (nodes g)).
Proof.
  unfold rename_activity, node_id. destruct (dict_get old (nodes g)) as [n|]; [|discriminate]. cbn [of_option bind]. intros E. exists n. split; [auto|].
  set (R := fun g g' : graph => nn g' = nn g /\ nodes g' = nodes g).
  assert (R0 : forall s, R s s) by (split; auto). assert (RT : forall a b c, R a b -> R b c -> R a c) by (intros a b c [A1 A2] [B1 B2]; split; congruence).
  step E. match type of E with foldM ?f ?l ?s = _ => assert (B : R s g') end.
  { revert E. apply (foldM_rel R); auto. intros s e s' H. destruct (is_self_loop s e); [injection H as <-; auto|]. step H. injection H as <-. split; auto. }
  match type of Ex with foldM ?f ?l ?s = _ => assert (A : R s x) end.
  { revert Ex. apply (foldM_rel R); auto. intros s e s' H. step H. injection H as <-. split; auto. }
  destruct (RT _ _ _ A B). auto.
Qed.
Lemma painted_inv g c F : painted g c F -> built g /\ (forall a, F a = option_map c (dict_get a (nodes g))) /\ (forall n, nn g <= n -> c n = ("white", "black")).
Proof.
  induction 1 as [g B|a x g c F c' P (B & IF & IC) E|a x g c F c' P (B & IF & IC) E|old new g c F g' P (B & IF & IC) N E|g c F g' P (B & IF & IC) E].
  - split; [auto|]. split; [|auto]. intros a. pose proof (act_has g a (built_wf g B)) as A. rewrite has_get in A. destruct (mem a (activities g)) eqn:M.
    + apply mem_In in M. apply A in M. destruct M as [n ->]. auto.
    + apply mem_not_In in M. destruct (dict_get a (nodes g)); [exfalso; apply M, A; eauto|auto].
  - unfold set_color, node_id in E. destruct (dict_get a (nodes g)) as [n|] eqn:G; [|discriminate]. injection E as <-. pose proof (built_wf g B) as W. destruct (w_n g W a n G) as [L A].
    split; [auto|]. split.
    + intros b. rewrite IF. destruct (eqb_ok b a) as [->|Hb].
      * rewrite G. cbn. unfold upd. rewrite Nat.eqb_refl. auto.
      * destruct (dict_get b (nodes g)) as [m|] eqn:Gb; [|auto]. cbn. unfold upd. destruct (Nat.eqb_spec m n) as [->|]; [|auto]. exfalso. apply Hb. destruct (w_n g W b n Gb). congruence.
    + intros m Hm. unfold upd. destruct (Nat.eqb_spec m n) as [->|]; [lia|auto].
  - unfold set_fontcolor, node_id in E. destruct (dict_get a (nodes g)) as [n|] eqn:G; [|discriminate]. injection E as <-. pose proof (built_wf g B) as W. destruct (w_n g W a n G) as [L A].
    split; [auto|]. split.
    + intros b. rewrite IF. destruct (eqb_ok b a) as [->|Hb].
      * rewrite G. cbn. unfold upd. rewrite Nat.eqb_refl. auto.
      * destruct (dict_get b (nodes g)) as [m|] eqn:Gb; [|auto]. cbn. unfold upd. destruct (Nat.eqb_spec m n) as [->|]; [|auto]. exfalso. apply Hb. destruct (w_n g W b n Gb). congruence.
    + intros m Hm. unfold upd. destruct (Nat.eqb_spec m n) as [->|]; [lia|auto].
  - split; [eapply b_rename; eauto|]. pose proof (built_wf g B) as W. destruct (rename_nodes _ _ _ _ E) as (n & G & E1 & E2). rewrite E1, E2. split; [|auto].
    assert (old <> new) by (intros ->; apply N; apply act_has; auto; apply has_get; eauto).
    intros b. rewrite dict_get_del by (apply keys_dict_set_NoDup, W). rewrite dict_get_set. destruct (eqb_ok b new) as [->|Hn].
    + rewrite (proj2 (eqb_neq new old)) by auto. rewrite IF, G. auto.
    + destruct (eqb_ok b old); [auto|]. apply IF.
  - assert (B' : built g') by (eapply changes_built; eauto). split; [auto|]. pose proof (built_wf g B) as W. pose proof (built_wf g' B') as W'. destruct (changes_split _ _ E) as (m & (G0 & G1 & G2 & G3) & S1 & S2 & S3).
    split; [|intros n Hn; apply IC; lia]. intros b. pose proof (act_has g' b W') as A. rewrite has_get in A. destruct (mem b (activities g')) eqn:M.
    + apply mem_In in M. apply A in M. destruct M as [n Gn]. rewrite Gn. rewrite IF. pose proof (S3 (G0 (w_nk g W)) b n Gn) as Gm. destruct (dict_get b (nodes g)) as [k|] eqn:Gk.
      * apply G2 in Gk. cbn. congruence.
      * destruct (G3 b n Gm) as [X|X]; [congruence|]. cbn. rewrite IC by auto. auto.
    + apply mem_not_In in M. destruct (dict_get b (nodes g')); [exfalso; apply M, A; eauto|auto].
Qed.

Section T.
  Variable show : Q -> string.
  Definition cnode '((a, p) : string * (string * string)) : statement :=
    NodeStatement a None [("fillcolor", fst p); ("fontcolor", snd p); ("shape", "rectangle"); ("style", "filled")].
  Definition color_of (F : string -> option (string * string)) a := match F a with Some p => p | None => ("white", "black") end.
  Definition cnodes F g : list (string * (string * string)) := map (fun a => (a, color_of F a)) (fst (plot g)).
  Lemma colored_nodes g c F : painted g c F ->
    map (colored_node g c) (stable_sort (fun m n => String.leb (n_act (nh g m)) (n_act (nh g n))) (values (nodes g))) = map cnode (cnodes F g).
  Proof.
    intros P. destruct (painted_inv g c F P) as (B & IF & _). pose proof (built_wf g B) as W. unfold cnodes, plot, activities. cbn [fst].
    rewrite (RcB.sort_map (fun n => n_act (nh g n)) (fun m n => String.leb (n_act (nh g m)) (n_act (nh g n))) String.leb) by auto. rewrite !map_map. apply map_ext_in. intros n Hn.
    apply (proj1 (SortLib.sort_In _ _ _)) in Hn. unfold values in Hn. apply in_map_iff in Hn. destruct Hn as ([a n'] & E & Hn). cbn in E. subst n'. apply dict_In_get in Hn; [|apply W]. destruct (w_n g W a n Hn) as [_ A].
    unfold colored_node, cnode, color_of. rewrite A, IF, Hn. auto.
  Qed.
  Lemma cnode_paint F a : (exists p, F a = Some p) -> cnode (a, color_of F a) = paint F (dfg_node a).
  Proof. intros [p E]. unfold cnode, color_of, paint, dfg_node. rewrite E. destruct p. reflexivity. Qed.
  Definition cnode_rest : list ascii := chars ("shape=rectangle style=filled]" ++ newline)%string.
  Lemma cnode_line a p : chars (line (cnode (a, p))) = tabulator :: chars (quote a) ++ " "%char :: chars "[fillcolor=" ++ chars (quote (fst p)) ++ " "%char :: chars "fontcolor=" ++ chars (quote (snd p)) ++ " "%char :: cnode_rest.
  Proof.
    unfold line, cnode. change (String tabulator (quote a) ++ ?x)%string with (String tabulator (quote a ++ x)). change (chars (String tabulator ?x)) with (tabulator :: chars x). unfold attr_list. cbn [map app].
    assert (P1 : quote "fillcolor" = "fillcolor") by reflexivity. assert (P2 : quote "fontcolor" = "fontcolor") by reflexivity.
    assert (P3 : (quote "shape" ++ "=" ++ quote "rectangle")%string = "shape=rectangle") by reflexivity. assert (P4 : (quote "style" ++ "=" ++ quote "filled")%string = "style=filled") by reflexivity.
    rewrite P1, P2, P3, P4. cbn [String.concat]. rewrite !chars_app. repeat (rewrite <- ?app_assoc; cbn [app]). reflexivity.
  Qed.
  Definition fine '((a, p) : string * (string * string)) : Prop := ordinary a /\ ordinary (fst p) /\ ordinary (snd p).
  Lemma colored_decode : forall ns ns' es es', (forall x, In x ns \/ In x ns' -> fine x) -> (forall a b c, In (a, b, c) es \/ In (a, b, c) es' -> ordinary a /\ ordinary b) ->
    cat (map line (map cnode ns)) ++ cat (map line (map eline es)) ++ closing = cat (map line (map cnode ns')) ++ cat (map line (map eline es')) ++ closing -> ns = ns' /\ es = es'.
  Proof.
    assert (M : forall n ns es es', fine n -> (forall a b c, In (a, b, c) es -> ordinary a /\ ordinary b) -> cat (map line (map cnode (n :: ns))) ++ es' = cat (map line (map eline es)) ++ closing -> False).
    { intros [n p] ns es es' (N & _) O E. cbn [map] in E. unfold cat in E. cbn [map concat] in E. rewrite cnode_line in E. destruct es as [|[[a b] c] es]; [discriminate E|]. cbn [map concat] in E. destruct (O a b c) as [A B]; [left; auto|]. rewrite edge_line in E by auto.
      rewrite <- ?app_assoc in E. cbn [app] in E. assert (E1 := f_equal (@tl _) E). cbn [tl] in E1. rewrite <- ?app_assoc in E1. cbn [app] in E1. apply quote_decode in E1; [|auto|auto]. destruct E1 as [-> E1]. discriminate E1. }
    induction ns as [|[n p] ns IH]; intros [|[n' p'] ns'] es es' N O E.
    - split; [auto|]. apply edges_decode; auto.
    - exfalso. symmetry in E. apply (M _ _ _ _ (N (n', p') (or_intror (or_introl eq_refl))) (fun a b c H => O a b c (or_introl H)) E).
    - exfalso. apply (M _ _ _ _ (N (n, p) (or_introl (or_introl eq_refl))) (fun a b c H => O a b c (or_intror H)) E).
    - destruct (N (n, p)) as (A1 & A2 & A3); [left; left; auto|]. destruct (N (n', p')) as (B1 & B2 & B3); [right; left; auto|].
      cbn [map] in E. unfold cat in E. cbn [map concat] in E. rewrite !cnode_line in E. rewrite <- ?app_assoc in E. cbn [app] in E. assert (E1 := f_equal (@tl _) E). cbn [tl] in E1. rewrite <- ?app_assoc in E1. cbn [app] in E1.
      apply quote_decode in E1; [|auto|auto]. destruct E1 as [-> E1]. rewrite <- ?app_assoc in E1. apply app_inv_head in E1. rewrite <- ?app_assoc in E1. cbn [app] in E1.
      apply quote_decode in E1; [|auto|auto]. destruct E1 as [F1 E1]. rewrite <- ?app_assoc in E1. apply app_inv_head in E1. rewrite <- ?app_assoc in E1. cbn [app] in E1.
      apply quote_decode in E1; [|auto|auto]. destruct E1 as [F2 E1]. apply app_inv_head in E1. destruct (IH ns' es es') as [-> ->]; auto; [intros x [H|H]; apply N; [left|right]; right; auto|].
      split; [|auto]. destruct p, p'. cbn in *. congruence.
  Qed.
  Lemma colored_chars g c F : painted g c F -> chars (colored_repr show g c) = chars ("digraph {" ++ newline)%string ++ cat (map line (map cnode (cnodes F g))) ++ cat (map line (map eline (snd (plot g)))) ++ closing.
  Proof.
    intros P. unfold colored_repr, source, colored_plot. rewrite (colored_nodes g c F P). change (dfg_edges show true false 1 10 g) with (map eline (snd (plot g))).
    rewrite !chars_app, chars_concat. rewrite <- !app_assoc. do 2 f_equal. rewrite map_app. unfold cat. rewrite map_app, concat_app, <- app_assoc. do 2 f_equal.
  Qed.
End T.
Lemma painted_dom g c F : painted g c F -> forall a, In a (activities g) <-> F a <> None.
Proof.
  intros P a. destruct (painted_inv g c F P) as (B & IF & _). rewrite act_has by (apply built_wf; auto). rewrite has_get, IF. destruct (dict_get a (nodes g)) as [n|]; cbn; split; try congruence; eauto. intros [n [=]].
Qed.

(*P C145 Colors of activities *)
Lemma C145_colors : forall show show_counts weighted lo hi g c F, painted g c F ->
  built g /\ (forall a, In a (activities g) <-> F a <> None) /\
  colored_plot show show_counts weighted lo hi g c = map (paint F) (dfg_plot show show_counts weighted lo hi g).
Proof.
  intros show sc w lo hi g c F P. split; [apply (painted_inv g c F P)|]. split; [apply (painted_dom g c F P)|]. unfold colored_plot, dfg_plot. rewrite (colored_nodes g c F P), map_app. f_equal.
  - unfold cnodes. rewrite !map_map. apply map_ext_in. intros a Ha. apply cnode_paint. apply (proj1 (SortLib.sort_In String.leb _ _)) in Ha. apply (painted_dom g c F P) in Ha. destruct (F a); [eauto|congruence].
  - unfold dfg_edges. rewrite map_map. apply map_ext. intros [[a b] n]. auto.
Qed.
Lemma C145_equality : forall show g c F N C h d G M D, painted g c F -> shows g N C -> painted h d G -> shows h M D ->
  (forall a, N a \/ M a -> ordinary a) -> (forall a p, F a = Some p \/ G a = Some p -> ordinary (fst p) /\ ordinary (snd p)) ->
  colored_eq show g c h d = true <-> (forall a, F a = G a) /\ (forall a b, C a b = D a b).
Proof.
  intros show g c F N C h d G M D P S P2 S2 O OC. pose proof (proj1 (painted_inv _ _ _ P)) as B. pose proof (proj1 (painted_inv _ _ _ P2)) as B2.
  assert (E1 : forall a, In a (fst (plot g)) <-> N a) by (intros a; rewrite <- (proj2 (sh_nodes _ _ _ S)); apply (SortLib.sort_In String.leb _ _)).
  assert (E2 : forall a, In a (fst (plot h)) <-> M a) by (intros a; rewrite <- (proj2 (sh_nodes _ _ _ S2)); apply (SortLib.sort_In String.leb _ _)).
  assert (E3 : forall a b c, In (a, b, c) (snd (plot g)) -> N a /\ N b) by (intros a b n Ha; apply (sh_ends _ _ _ S); unfold edge_of; apply (proj1 (SortLib.sort_In edge_leb _ _)) in Ha; apply (proj2 (sh_edges _ _ _ S)) in Ha; congruence).
  assert (E4 : forall a b c, In (a, b, c) (snd (plot h)) -> M a /\ M b) by (intros a b n Ha; apply (sh_ends _ _ _ S2); unfold edge_of; apply (proj1 (SortLib.sort_In edge_leb _ _)) in Ha; apply (proj2 (sh_edges _ _ _ S2)) in Ha; congruence).
  assert (F1 : forall a, N a <-> F a <> None) by (intros a; rewrite <- (painted_dom g c F P); symmetry; apply (proj2 (sh_nodes _ _ _ S))).
  assert (F2 : forall a, M a <-> G a <> None) by (intros a; rewrite <- (painted_dom h d G P2); symmetry; apply (proj2 (sh_nodes _ _ _ S2))).
  assert (K : graph_eqb g h = true <-> plot g = plot h) by (unfold graph_eqb; destruct (eqb_ok (plot g) (plot h)); split; congruence).
  rewrite (C74_equality g h N C M D B S B2 S2) in K. unfold colored_eq. rewrite String.eqb_eq. split.
  - intros Q. apply (f_equal chars) in Q. rewrite (colored_chars show g c F P), (colored_chars show h d G P2) in Q. apply app_inv_head in Q.
    destruct (colored_decode (cnodes F g) (cnodes G h) (snd (plot g)) (snd (plot h))) as [P3 P4]; [| |exact Q|].
    + intros x [H|H]; unfold cnodes in H; apply in_map_iff in H; destruct H as (a & <- & H); [apply E1 in H|apply E2 in H]; (split; [apply O; auto|]); unfold color_of.
      * apply F1 in H. destruct (F a) eqn:Fa; [eapply OC; eauto|congruence].
      * apply F2 in H. destruct (G a) eqn:Fa; [eapply OC; eauto|congruence].
    + intros a b n [H|H]; [apply E3 in H|apply E4 in H]; split; apply O; tauto.
    + assert (P5 : fst (plot g) = fst (plot h)). { apply (f_equal (map fst)) in P3. unfold cnodes in P3. rewrite !map_map in P3. cbn in P3. rewrite !map_id in P3. auto. }
      destruct (proj2 K) as [K1 K2]; [destruct (plot g), (plot h); cbn in *; congruence|]. split; [|auto]. intros a. destruct (F a) as [p|] eqn:Fa.
      * assert (Na : N a) by (apply F1; congruence). assert (I : In (a, color_of F a) (cnodes G h)) by (rewrite <- P3; apply in_map_iff; exists a; split; [auto|apply E1; auto]).
        apply in_map_iff in I. destruct I as (a' & I & _). unfold color_of in I. rewrite Fa in I. injection I as -> I. destruct (G a) eqn:Ga; [congruence|]. apply K1, F2 in Na. congruence.
      * destruct (G a) eqn:Ga; [|auto]. exfalso. assert (M a) by (apply F2; congruence). apply K1, F1 in H. auto.
  - intros [Q1 Q2]. assert (Q : plot g = plot h) by (apply K; split; [intros a; rewrite F1, F2, Q1; tauto|auto]). apply chars_inj. rewrite (colored_chars show g c F P), (colored_chars show h d G P2), <- Q.
    replace (cnodes G h) with (cnodes F g); [auto|]. unfold cnodes. rewrite <- Q. apply map_ext. intros a. unfold color_of. rewrite Q1. auto.
Qed.
(** a copy has none of the colors *)
Lemma C145_copy : forall show g c F, painted g c F -> (forall a, In a (activities g) -> ordinary a) -> (forall a p, F a = Some p -> ordinary (fst p) /\ ordinary (snd p)) ->
  exists g', copy g = Ok g' /\ (colored_eq show g c g' new_colors = true <-> forall a p, F a = Some p -> p = ("white", "black")).
Proof.
  intros show g c F P O OC. pose proof (proj1 (painted_inv _ _ _ P)) as B. destruct (C38_consistent g B) as (N & C & S). destruct (C38_copy g N C B S) as (g' & E & B' & S'). exists g'. split; [exact E|].
  pose proof (p_new g' B') as P'. assert (HN : forall a, In a (activities g) <-> N a) by apply (proj2 (sh_nodes _ _ _ S)). assert (HN' : forall a, In a (activities g') <-> N a) by apply (proj2 (sh_nodes _ _ _ S')).
  rewrite (C145_equality show g c F N C g' new_colors _ N C P S P' S').
  - split.
    + intros [Q _] a p Fa. rewrite Q in Fa. destruct (mem a (activities g')); congruence.
    + intros Q. split; [|auto]. intros a. pose proof (painted_dom g c F P a) as D. destruct (mem a (activities g')) eqn:Ma.
      * apply mem_In in Ma. apply HN', HN, D in Ma. destruct (F a) as [p|] eqn:Fa; [|congruence]. rewrite (Q a p Fa). auto.
      * apply mem_not_In in Ma. destruct (F a) eqn:Fa; [|auto]. exfalso. apply Ma, HN', HN, D. congruence.
  - intros a H. apply O, HN. tauto.
  - intros a p [H|H]; [eauto|]. destruct (mem a (activities g')); [|discriminate]. injection H as <-. cbn [fst snd].
    split; unfold ordinary; cbn; intuition discriminate.
Qed.
(** without painting, drawings and comparisons are those of uncolored graphs *)
Lemma C145_white : forall show show_counts weighted lo hi g h,
  built g -> built h -> colored_plot show show_counts weighted lo hi g new_colors = dfg_plot show show_counts weighted lo hi g /\
  colored_eq show g new_colors h new_colors = dfg_eq show g h.
Proof.
  assert (K : forall show sc w lo hi g, built g -> colored_plot show sc w lo hi g new_colors = dfg_plot show sc w lo hi g).
  { intros show sc w lo hi g B. destruct (C145_colors show sc w lo hi g _ _ (p_new g B)) as (_ & _ & ->). unfold dfg_plot. rewrite map_app. f_equal.
    - rewrite map_map. apply map_ext. intros a. unfold paint, dfg_node. destruct (mem a (activities g)); reflexivity.
    - unfold dfg_edges. rewrite map_map. apply map_ext. intros [[a b] n]. auto. }
  intros show sc w lo hi g h B B2. split; [auto|]. unfold colored_eq, dfg_eq, colored_repr, dfg_repr. rewrite !K by auto. auto.
Qed.
(** painting an activity that is not in the graph raises *)
Lemma C145_raises : forall a x g c, built g -> ~ In a (activities g) -> set_color a x g c = Err KeyError /\ set_fontcolor a x g c = Err KeyError.
Proof.
  intros a x g c B N. rewrite act_has in N by (apply built_wf; auto). rewrite has_get in N. unfold set_color, set_fontcolor, node_id. destruct (dict_get a (nodes g)) as [n|]; [exfalso; apply N; eauto|auto].
Qed.
