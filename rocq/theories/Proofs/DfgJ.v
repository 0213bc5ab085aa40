(** The properties of directly-follows graphs, for every graph that can be built *)
From Coq Require Import String Permutation QArith Relations.
From Verif.Model Require Import Base Sort EventLog Dfg.
From Verif.Lib Require Import ListLib DictLib.
From Verif.Spec Require Import Lists Logs Graphs EventLogSpec DfgSpec DfgBuilt.
From Verif.Proofs Require Import Selection EventLogA DfgA DfgB DfgC DfgD DfgE DfgF DfgG DfgH DfgI.
Open Scope nat_scope.

Lemma edge_list_cnt g a b : wf g -> (exists c, In (a, b, c) (edge_list g)) <-> cnt g a b <> None.
Proof.
  intros W. split.
  - intros [c Hc]. apply (edge_list_In g W) in Hc. congruence.
  - intros Hc. destruct (cnt g a b) as [c|] eqn:E; [|contradiction]. exists c. now apply (edge_list_In g W).
Qed.
Lemma act_has g a : wf g -> In a (activities g) <-> has g a.
Proof. intros W. now rewrite activities_keys. Qed.

Ltac known L := let H := fresh in pose proof L as H.
Lemma built_wf g : built g -> wf g.
Proof.
  induction 1.
  - apply wf_empty.
  - now apply add_node_ok.
  - destruct (add_count_ok a b c g IHbuilt) as (h & E & W & _). congruence.
  - destruct k as [a b]. destruct (remove_edge_ok a b g IHbuilt) as (h & E & W & _). congruence.
  - destruct (has_dec g a) as [Ha|Ha].
    + destruct conn.
      * destruct (remove_connect_ok ord H a g IHbuilt Ha) as (h & E & W & _). congruence.
      * destruct (remove_plain_ok ord H a g IHbuilt Ha) as (h & E & W & _). congruence.
    + rewrite (remove_absent ord a conn g IHbuilt Ha) in H1. discriminate.
  - destruct (has_dec g old) as [Ha|Ha].
    + destruct (rename_ok g old new IHbuilt Ha) as (h & E & W & _); [|congruence].
      now rewrite <- act_has.
    + unfold rename_activity, node_id in H1. destruct (dict_get old (nodes g)) eqn:E; [|discriminate].
      exfalso. apply Ha, has_get. eauto.
  - destruct (join_phases other IHbuilt2 g IHbuilt1) as (h & E & _ & _ & _ & W).
    replace g' with h by congruence. apply W. intros x y Hxy. apply edge_list_cnt in Hxy; [|auto]. destruct Hxy as [c Hc].
    destruct (cnt g x y) as [d|] eqn:Ed; [|auto]. apply edge_list_In in Ed; [|auto]. exfalso. now apply (H1 _ _ _ c Ed).
  - destruct (copy_ok g IHbuilt) as (h & E & W & _). congruence.
  - destruct (filter_absolute_ok m g IHbuilt) as (h & E & W & _). congruence.
  - destruct (filter_local_ok q keep g IHbuilt) as (h & E & W & _); [|congruence].
    intros Hk a b c Hc. apply (H0 Hk a b). now apply edge_list_In.
  - destruct (select_nodes_ok ord H acts g IHbuilt) as (h & E & W & _). congruence.
  - destruct (largest_component_ok g IHbuilt pop H0 ord H) as (h & cs & best & _ & E & W & _). congruence.
  - destruct (allowed_start_ok ord H allowed g IHbuilt) as (h & E & W & _). congruence.
  - destruct (allowed_end_ok ord H allowed g IHbuilt) as (h & E & W & _). congruence.
  - unfold shortest_path in H2. destruct (dict_has a (nodes g)) eqn:Ed; [|discriminate]. cbn [negb] in H2.
    destruct (eqb_ok a b) as [->|Hab]; [congruence|].
    destruct (shortest_path_ok a b forbidden g IHbuilt) as (p' & h & E & W & _); auto.
    + now apply dict_has_In in Ed.
    + intros x y Hxy. apply edge_list_cnt; auto.
    + unfold shortest_path in E. rewrite Ed, (proj2 (eqb_neq a b) Hab) in E. cbn [negb] in E. congruence.
  - destruct (read_counts_ok l g IHbuilt) as (h & E & W & _). congruence.
  - match goal with E : eventually_follows_graph l = Ok _ |- _ => unfold eventually_follows_graph in E; destruct (forallb non_empty l) eqn:Hne; [|discriminate] end.
    destruct (eventually_ok l Hne) as (h & E & W & _). unfold eventually_follows_graph in E. rewrite Hne in E. congruence.
Qed.

(** from [wf] statements to [shows] statements *)
Lemma to_shows g' (N : string -> Prop) C : wf g' -> (forall x, has g' x <-> N x) -> (forall x y, cnt g' x y = C x y) ->
  shows g' N C.
Proof. intros W Hn Hc. exact (shows_ext g' (has g') (cnt g') N C Hn Hc (wf_shows g' W)). Qed.
Lemma from_shows g N C : built g -> shows g N C -> wf g /\ (forall a, N a <-> has g a) /\ (forall a b, C a b = cnt g a b).
Proof. intros B S. apply built_wf in B as W. destruct (shows_wf g N C W S). auto. Qed.
Ltac open B S W HN HC := destruct (from_shows _ _ _ B S) as (W & HN & HC).

(*P C37 Directly-follows counts *)
Lemma C37_directly_follows_counts :
  forall {V I} (l : log string V I), exists g C, create_from_event_log l = Ok g /\ built g /\
    shows g (occurs l) C /\
    forall a b, exists n,
      has_size (fun '(k, i) => exists t, nth_error l k = Some t /\ follows_at (events t) a b i) n /\
      C a b = if n =? 0 then None else Some (Z.of_nat n).
Proof.
  intros V I l. destruct (read_counts_ok l empty wf_empty) as (g & E & W & Hh & Hc).
  exists g, (cnt g). split; [auto|]. split; [eapply b_read; [apply b_empty|exact E]|]. split.
  - apply to_shows; auto. intros x. rewrite Hh. cbn. tauto.
  - intros a b. destruct (Hc a b) as (n & Hn & En). exists n. split; [exact Hn|]. rewrite En. now destruct n.
Qed.
Lemma C37_counts_accumulate :
  forall {V I} (l : log string V I) g N C, built g -> shows g N C ->
    exists g' C', read_counts_from_log l g = Ok g' /\ built g' /\
      shows g' (fun a => N a \/ occurs l a) C' /\
      forall a b, exists n,
        has_size (fun '(k, i) => exists t, nth_error l k = Some t /\ follows_at (events t) a b i) n /\
        C' a b = if n =? 0 then C a b else Some (match C a b with Some m => m | None => 0 end + Z.of_nat n)%Z.
Proof.
  intros V I l g N C B S. open B S W HN HC.
  destruct (read_counts_ok l g W) as (g' & E & W' & Hh & Hc).
  exists g', (cnt g'). split; [auto|]. split; [eapply b_read; [exact B|exact E]|]. split.
  - apply to_shows; auto. intros x. now rewrite Hh, HN.
  - intros a b. destruct (Hc a b) as (n & Hn & En). exists n. split; [exact Hn|]. rewrite En, HC. now destruct n.
Qed.

(*P C38 Every history of calls leaves a consistent graph *)
Lemma C38_consistent : forall g, built g -> exists N C, shows g N C.
Proof. intros g B. exists (has g), (cnt g). now apply wf_shows, built_wf. Qed.
(** the effect of the elementary operations *)
Lemma C38_add_node : forall a g N C, built g -> shows g N C ->
  built (add_node a g) /\ shows (add_node a g) (fun x => x = a \/ N x) C.
Proof.
  intros a g N C B S. open B S W HN HC. split; [now constructor|].
  apply to_shows; [now apply add_node_ok| |].
  - intros x. rewrite HN. now apply add_node_ok.
  - intros x y. rewrite HC. now apply add_node_cnt.
Qed.
Lemma C38_add_count : forall a b c g N C, built g -> shows g N C ->
  exists g', add_count a b c g = Ok g' /\ built g' /\
    shows g' (fun x => x = a \/ x = b \/ N x)
      (fun x y => if eqb x a && eqb y b
                  then Some (match C a b with Some n => n | None => 0 end + c)%Z else C x y).
Proof.
  intros a b c g N C B S. open B S W HN HC.
  destruct (add_count_ok a b c g W) as (g' & E & W' & Hh & Hc). exists g'.
  split; [auto|]. split; [eapply b_add_count; eauto|]. apply to_shows; [auto| |].
  - intros x. now rewrite HN, Hh.
  - intros x y. now rewrite Hc, !HC.
Qed.
Lemma C38_remove_edge : forall a b g N C, built g -> shows g N C ->
  exists g' r, remove_edge (a, b) g = Ok (g', r) /\ built g' /\
    shows g' N (fun x y => if eqb x a && eqb y b then None else C x y).
Proof.
  intros a b g N C B S. open B S W HN HC.
  destruct (remove_edge_ok a b g W) as (g' & E & W' & Hn & _ & _ & _ & _ & Hc).
  exists g', (dict_get (a, b) (edges g)). split; [auto|]. split; [eapply b_remove_edge; eauto|].
  apply to_shows; [auto| |].
  - intros x. rewrite HN. unfold has. now rewrite Hn.
  - intros x y. now rewrite Hc, HC.
Qed.
Lemma C38_remove_node : forall ord a g N C, any_order ord -> built g -> shows g N C -> N a ->
  exists g', remove_node ord a false g = Ok g' /\ built g' /\
    shows g' (fun x => N x /\ x <> a) (fun x y => if eqb x a || eqb y a then None else C x y).
Proof.
  intros ord a g N C Ho B S Ha. open B S W HN HC.
  destruct (remove_plain_ok ord Ho a g W) as (g' & E & W' & Hh & Hc); [now apply HN|].
  exists g'. split; [auto|]. split; [eapply b_remove_node; eauto|]. apply to_shows; [auto| |].
  - intros x. now rewrite HN, Hh.
  - intros x y. now rewrite Hc, HC.
Qed.
Lemma C38_copy : forall g N C, built g -> shows g N C ->
  exists g', copy g = Ok g' /\ built g' /\ shows g' N C.
Proof.
  intros g N C B S. open B S W HN HC. destruct (copy_ok g W) as (g' & E & W' & Hh & Hc).
  exists g'. split; [auto|]. split; [eapply b_copy; eauto|]. apply to_shows; [auto| |].
  - intros x. now rewrite HN, Hh.
  - intros x y. now rewrite Hc, HC.
Qed.

(*P C39 Removing a node with connections *)
Lemma C39_reachability_kept : forall ord a g N C, any_order ord -> built g -> shows g N C -> N a ->
  exists g' C', remove_node ord a true g = Ok g' /\ built g' /\ shows g' (fun x => N x /\ x <> a) C' /\
    forall x y, x <> a -> y <> a -> connected (edge_of C') x y <-> connected (edge_of C) x y.
Proof.
  intros ord a g N C Ho B S Ha. open B S W HN HC.
  destruct (remove_connect_ok ord Ho a g W) as (g' & E & W' & Hh & Hc); [now apply HN|].
  exists g', (cnt g'). split; [auto|]. split; [eapply b_remove_node; eauto|]. split.
  - apply to_shows; [auto| |auto]. intros x. now rewrite HN, Hh.
  - apply (bypass_connected (edge_of C) (edge_of (cnt g')) a).
    + intros x. destruct (eqb_ok x a); auto.
    + intros x y. unfold edge_of. rewrite Hc, !HC. destruct (eqb_ok x a) as [->|Hx]; cbn [orb]; [tauto|].
      destruct (eqb_ok y a) as [->|Hy]; cbn [orb]; [tauto|].
      destruct (cnt g x a), (cnt g a y), (cnt g x y); split; intros; try (do 2 (split; [auto|])); try discriminate;
        intuition discriminate.
Qed.
Lemma C39_new_counts : forall ord a g N C, any_order ord -> built g -> shows g N C -> N a ->
  exists g', remove_node ord a true g = Ok g' /\
    shows g' (fun x => N x /\ x <> a)
      (fun x y => if eqb x a || eqb y a then None else
         match C x a, C a y with
         | Some _, Some _ => Some (match C x y with Some n => n | None => 0 end + 1)%Z
         | _, _ => C x y
         end).
Proof.
  intros ord a g N C Ho B S Ha. open B S W HN HC.
  destruct (remove_connect_ok ord Ho a g W) as (g' & E & W' & Hh & Hc); [now apply HN|].
  exists g'. split; [auto|]. apply to_shows; [auto| |].
  - intros x. now rewrite HN, Hh.
  - intros x y. now rewrite Hc, !HC.
Qed.
Lemma C39_unknown_activity : forall ord a conn g N C, built g -> shows g N C -> ~ N a ->
  remove_node ord a conn g = Err KeyError.
Proof.
  intros ord a conn g N C B S Ha. open B S W HN HC. apply remove_absent; [auto|]. now rewrite <- HN.
Qed.

(*P C40 Shortest paths *)
Lemma path_ext {X} (E E' : X -> X -> Prop) a b l : (forall x y, E x y <-> E' x y) -> path E a b l <-> path E' a b l.
Proof.
  intros HE. unfold path. assert (Hch : forall l, chained E l <-> chained E' l); [|rewrite Hch; tauto].
  induction l0 as [|x [|z l0] IH]; cbn [chained]; try tauto. rewrite HE, IH. tauto.
Qed.
Lemma shortest_ext {X} (E E' : X -> X -> Prop) a b l : (forall x y, E x y <-> E' x y) -> shortest E a b l <-> shortest E' a b l.
Proof.
  intros HE. unfold shortest. rewrite (path_ext E E' a b l HE). split; intros [H1 H2]; (split; [auto|]); intros l' H'; apply H2;
    revert H'; apply path_ext; auto. intros x y. symmetry. apply HE.
Qed.
Lemma C40_shortest_path : forall a b forbidden g N C, built g -> shows g N C -> N a -> a <> b ->
  NoDup forbidden -> (forall x y, In (x, y) forbidden -> edge_of C x y) ->
  let usable x y := edge_of C x y /\ ~ In (x, y) forbidden in
  exists p g', shortest_path a b forbidden g = Ok (p, g') /\ built g' /\ shows g' N C /\
    ((p = [] /\ forall l, ~ path usable a b l) \/ shortest usable a b p).
Proof.
  intros a b L g N C B S Ha Hab HD HL usable. open B S W HN HC.
  destruct (shortest_path_ok a b L g W) as (p & g' & E & W' & [Hh Hc] & Hp); auto.
  - now apply HN. - intros x y Hxy. apply HL in Hxy. unfold edge_of in Hxy. now rewrite HC in Hxy.
  - cbv zeta in Hp. exists p, g'. split; [auto|].
    assert (HE : forall x y, (edge_of (cnt g) x y /\ ~ In (x, y) L) <-> usable x y).
    { intros x y. unfold usable, edge_of. now rewrite HC. }
    split; [|split].
    + eapply b_shortest; [exact B|exact HD| |exact E]. intros x y Hxy. apply edge_list_cnt; [auto|].
      apply HL in Hxy. unfold edge_of in Hxy. now rewrite HC in Hxy.
    + apply to_shows; [auto| |]; [intros x; now rewrite Hh, HN|intros x y; now rewrite Hc, HC].
    + destruct Hp as [[-> Hp]|Hp]; [left|right; now apply (shortest_ext _ _ a b p HE)].
      split; [auto|]. intros l Hl. apply (Hp l). now apply (path_ext _ _ a b l HE).
Qed.
Lemma C40_same_activity : forall a forbidden g N C, built g -> shows g N C -> N a ->
  shortest_path a a forbidden g = Ok ([], g).
Proof.
  intros a L g N C B S Ha. open B S W HN HC. unfold shortest_path. apply HN in Ha.
  now rewrite (proj2 (dict_has_In (nodes g) a) Ha), eqb_refl.
Qed.
Lemma C40_unknown_start : forall a b forbidden g N C, built g -> shows g N C -> ~ N a ->
  shortest_path a b forbidden g = Err ValueError.
Proof.
  intros a b L g N C B S Ha. open B S W HN HC. unfold shortest_path. rewrite HN in Ha.
  destruct (dict_has a (nodes g)) eqn:E; [|auto]. apply dict_has_In in E. contradiction.
Qed.
Lemma C40_shortest_path_to_one_of : forall a ends g N C, built g -> shows g N C -> N a -> ~ In a ends ->
  exists p, shortest_path_to_one_of a ends g = Ok p /\
    ((p = [] /\ forall b l, In b ends -> ~ path (edge_of C) a b l) \/
     exists b, In b ends /\ path (edge_of C) a b p /\
       forall b' l, In b' ends -> path (edge_of C) a b' l -> length p <= length l).
Proof.
  intros a ends g N C B S Ha He. open B S W HN HC.
  destruct (shortest_one_ok a ends g W) as (p & E & Hp); auto; [now apply HN|].
  assert (HE : forall x y, edge_of (cnt g) x y <-> edge_of C x y) by (intros; unfold edge_of; now rewrite HC).
  exists p. split; [auto|]. cbv zeta in Hp. destruct Hp as [[-> Hp]|(b & Hb & Hp & Hm)]; [left|right].
  - split; [auto|]. intros b l Hb Hl. apply (Hp b l Hb). now apply (path_ext _ _ a b l HE).
  - exists b. split; [auto|]. split; [now apply (path_ext _ _ a b p HE)|]. intros b' l Hb' Hl. apply (Hm b' l Hb').
    now apply (path_ext _ _ a b' l HE).
Qed.

(*P C41 Reachability queries *)
Lemma connected_ext {X} (E E' : X -> X -> Prop) a b : (forall x y, E x y <-> E' x y) -> connected E a b <-> connected E' a b.
Proof. intros HE. unfold connected. split; intros (l & Hl & Hn); exists l; (split; [|auto]); now apply (path_ext E E' a b l HE). Qed.
Lemma connected0_ext {X} (E E' : X -> X -> Prop) a b : (forall x y, E x y <-> E' x y) -> connected0 E a b <-> connected0 E' a b.
Proof. intros HE. unfold connected0. split; intros (l & Hl); exists l; now apply (path_ext E E' a b l HE). Qed.
Lemma C41_reachable : forall pop a g N C, any_pop pop -> built g -> shows g N C -> N a ->
  exists l, get_reachable_activities pop g a = Ok l /\ NoDup l /\
    forall x, In x l <-> connected (edge_of C) a x.
Proof.
  intros pop a g N C Hp B S Ha. open B S W HN HC.
  destruct (reachable_ok pop g a Hp W) as (l & E & Hd & Hl); [now apply HN|].
  exists l. split; [auto|]. split; [auto|]. intros x. rewrite Hl. apply connected_ext.
  intros; unfold edge_of; now rewrite HC.
Qed.
Lemma C41_reaching : forall pop a g N C, any_pop pop -> built g -> shows g N C -> N a ->
  exists l, get_activities_that_reach pop g a = Ok l /\ NoDup l /\
    forall x, In x l <-> connected (edge_of C) x a.
Proof.
  intros pop a g N C Hp B S Ha. open B S W HN HC.
  destruct (reaching_ok pop g a Hp W) as (l & E & Hd & Hl); [now apply HN|].
  exists l. split; [auto|]. split; [auto|]. intros x. rewrite Hl. apply connected_ext.
  intros; unfold edge_of; now rewrite HC.
Qed.

(*P C42 Weakly connected components *)
Lemma C42_components : forall pop g N C, any_pop pop -> built g -> shows g N C ->
  let linked x y := edge_of C x y \/ edge_of C y x in
  exists cs, get_weakly_connected_components pop g = Ok cs /\ NoDup (concat cs) /\
    (forall x, In x (concat cs) <-> N x) /\
    forall c, In c cs -> c <> [] /\ forall x y, In x c -> In y c <-> connected0 linked x y.
Proof.
  intros pop g N C Hp B S linked. open B S W HN HC.
  destruct (weak_components_ok g W pop Hp) as (cs & E & Hd & Hi & Hc).
  exists cs. split; [auto|]. split; [auto|]. split; [intros x; now rewrite Hi, HN|].
  intros c Hin. destruct (Hc c Hin) as [H1 H2]. split; [auto|]. intros x y Hx. rewrite (H2 x y Hx).
  apply connected0_ext. intros u v. unfold adj, linked, edge_of. now rewrite !HC.
Qed.
Lemma C42_largest_component : forall ord pop g N C, any_order ord -> any_pop pop -> built g -> shows g N C ->
  exists g' cs best C', get_weakly_connected_components pop g = Ok cs /\
    largest_component ord pop g = Ok g' /\ built g' /\ shows g' (fun x => In x best) C' /\
    (In best cs \/ (cs = [] /\ best = [])) /\ (forall c, In c cs -> length c <= length best) /\
    forall x y c, C' x y = Some c <-> C x y = Some c /\ In x best /\ In y best.
Proof.
  intros ord pop g N C Ho Hp B S. open B S W HN HC.
  destruct (largest_component_ok g W pop Hp ord Ho) as (g' & cs & best & E1 & E2 & W' & H1 & H2 & H3 & H4).
  exists g', cs, best, (cnt g'). split; [auto|]. split; [auto|]. split; [eapply b_largest; eauto|].
  split; [now apply to_shows|]. split; [auto|]. split; [auto|]. intros x y c. now rewrite H4, HC.
Qed.

(*P C43 Edge filters *)
Lemma C43_absolute : forall m g N C, built g -> shows g N C ->
  exists g' C', filter_absolute m g = Ok g' /\ built g' /\ shows g' N C' /\
    forall a b c, C' a b = Some c <-> C a b = Some c /\ (m <= c)%Z.
Proof.
  intros m g N C B S. open B S W HN HC.
  destruct (filter_absolute_ok m g W) as (g' & E & W' & Hh & Hc). exists g', (cnt g').
  split; [auto|]. split; [eapply b_filter_absolute; eauto|]. split.
  - apply to_shows; auto. intros x. now rewrite Hh, HN.
  - intros a b c. now rewrite Hc, HC.
Qed.
Lemma share_ext C C' q a b : (forall a b, C a b = C' a b) -> has_share C q a b -> has_share C' q a b.
Proof.
  intros HC (c & n & H1 & (l & Hd & Hl & Hn) & H3). exists c, n. split; [now rewrite <- HC|]. split; [|auto].
  exists l. split; [auto|]. split; [intros x; rewrite Hl; unfold edge_of; now rewrite HC|]. rewrite Hn. f_equal.
  apply map_ext. intros x. now rewrite HC.
Qed.
Lemma C43_local : forall q g N C, built g -> shows g N C ->
  exists g' C', filter_local q false g = Ok g' /\ built g' /\ shows g' N C' /\
    forall a b c, C' a b = Some c <-> C a b = Some c /\ has_share C q a b.
Proof.
  intros q g N C B S. open B S W HN HC.
  destruct (filter_local_ok q false g W) as (g' & E & W' & Hh & H1 & H2 & H3 & _); [discriminate|].
  exists g', (cnt g'). split; [auto|]. split; [eapply b_filter_local; [exact B| |exact E]; discriminate|]. split.
  - apply to_shows; auto. intros x. now rewrite Hh, HN.
  - intros a b c. rewrite HC. split.
    + intros Hc. split; [auto|]. apply (share_ext (cnt g)); [auto|]. apply H3; [auto|congruence].
    + intros [Hc Hs]. rewrite H2; [auto|]. now apply (share_ext C).
Qed.
Lemma C43_local_keep_one : forall q g N C, built g -> shows g N C ->
  (forall a b c, C a b = Some c -> (0 < c)%Z) ->
  exists g' C', filter_local q true g = Ok g' /\ built g' /\ shows g' N C' /\
    (forall a b c, C' a b = Some c -> C a b = Some c) /\
    forall a,
      ((exists b, has_share C q a b) -> forall b, edge_of C' a b <-> has_share C q a b) /\
      ((forall b, ~ has_share C q a b) -> (exists b, edge_of C a b) ->
        exists b c, C' a b = Some c /\ (forall b' c', C a b' = Some c' -> (c' <= c)%Z) /\
          forall b', edge_of C' a b' -> b' = b).
Proof.
  intros q g N C B S Hpos. open B S W HN HC.
  destruct (filter_local_ok q true g W) as (g' & E & W' & Hh & H1 & H2 & H3 & H4).
  { intros _ a b c. rewrite <- HC. apply Hpos. }
  exists g', (cnt g'). split; [auto|]. split.
  { eapply b_filter_local; [exact B| |exact E]. intros _ a b c Hc. apply (Hpos a b). rewrite HC. now apply (edge_list_In g W). }
  split; [apply to_shows; auto; intros x; now rewrite Hh, HN|]. split; [intros a b c; rewrite HC; auto|].
  assert (HS : forall a b, has_share C q a b <-> frequent (cnt g) q a b).
  { intros a b. split; apply share_ext; auto. }
  intros a. split.
  - intros [b0 Hb0] b. split.
    + intros Hb. apply HS. apply H3; [right; exists b0; now apply HS|exact Hb].
    + intros Hb. apply HS in Hb as Hf. unfold edge_of. rewrite (H2 a b Hf).
      destruct Hf as (c & n & Ec & _). congruence.
  - intros Hno [b Hb]. destruct (H4 a eq_refl) as (b1 & c1 & E1 & Hm & Hu).
    + intros b' Hb'. apply (Hno b'). now apply HS.
    + exists b. unfold edge_of in Hb. now rewrite HC in Hb.
    + exists b1, c1. split; [auto|]. split; [|auto]. intros b' c'. rewrite HC. apply Hm.
Qed.

(*P C44 Renaming an activity *)
Lemma C44_rename_to_fresh : forall old new g N C, built g -> shows g N C -> N old -> ~ N new ->
  let renamed x := if eqb x old then new else x in
  exists g' C', rename_activity old new g = Ok g' /\ built g' /\
    shows g' (fun y => exists x, N x /\ y = renamed x) C' /\
    (forall x y, N x -> N y -> C' (renamed x) (renamed y) = C x y).
Proof.
  intros old new g N C B S Ho Hn renamed. open B S W HN HC.
  assert (Ho' := proj1 (HN old) Ho). assert (Hn' : ~ has g new) by (rewrite <- HN; auto).
  destruct (rename_ok g old new W Ho' Hn') as (g' & E & W' & Hh & Hc).
  exists g', (cnt g'). split; [auto|]. split.
  { eapply b_rename; [exact B| |exact E]. rewrite act_has; auto. }
  split.
  - apply to_shows; auto. intros y. rewrite Hh. unfold renamed. split.
    + intros [->|[Hy Hne]].
      * exists old. split; [auto|]. now rewrite eqb_refl.
      * exists y. split; [now apply HN|]. now rewrite (proj2 (eqb_neq y old)).
    + intros (x & Hx & ->). destruct (eqb_ok x old) as [->|Hne]; [auto|]. right. split; [now apply HN|auto].
  - intros x y Hx Hy. apply HN in Hx, Hy. rewrite Hc, HC.
    assert (Hr : forall z, renamed z <> old).
    { intros z. unfold renamed. destruct (eqb_ok z old) as [->|Hz]; [intros ->; contradiction|auto]. }
    rewrite !(proj2 (eqb_neq _ old) (Hr _)). cbn [orb].
    change (renamed x) with (ren old new x). change (renamed y) with (ren old new y).
    now rewrite !(back_ren g old new Hn').
Qed.

(*P C45 Joining graphs *)
Lemma C45_disjoint_join : forall g other N C M D, built g -> shows g N C -> built other -> shows other M D ->
  (forall a b, edge_of C a b -> ~ edge_of D a b) ->
  exists g', join g other = Ok g' /\ built g' /\
    shows g' (fun x => N x \/ M x) (fun a b => match C a b with Some c => Some c | None => D a b end).
Proof.
  intros g h N C M D B S B2 S2 Hdis. open B S W HN HC. open B2 S2 W2 HM HD.
  destruct (join_phases h W2 g W) as (g' & E & _ & Hh & Hc & Hw). exists g'. split; [auto|].
  assert (Hx : forall a b, cnt g a b <> None -> cnt h a b = None).
  { intros a b Ha. destruct (cnt h a b) eqn:E2; [|auto]. exfalso. apply (Hdis a b); unfold edge_of; rewrite ?HC, ?HD; congruence. }
  split; [|].
  - eapply b_join; [exact B|exact B2| |exact E]. intros a b c d Hi Hj. apply edge_list_In in Hi, Hj; auto.
    rewrite (Hx a b) in Hj; congruence.
  - apply to_shows.
    + apply Hw. intros x y Hxy. destruct (cnt g x y) eqn:E1; [|auto]. rewrite (Hx x y) in Hxy; congruence.
    + intros x. now rewrite Hh, HN, HM.
    + intros x y. rewrite Hc, HC, HD. destruct (cnt g x y) eqn:E1; [|now destruct (cnt h x y)].
      rewrite Hx; congruence.
Qed.
(** in general the counts of the other graph replace those of this one *)
Lemma C45_join_overwrites : forall g other N C M D, built g -> shows g N C -> built other -> shows other M D ->
  exists g', join g other = Ok g' /\
    (forall x, In x (activities g') <-> N x \/ M x) /\
    forall a b, get_count a b g' = match D a b with Some d => d | None => match C a b with Some c => c | None => 0 end end%Z.
Proof.
  intros g h N C M D B S B2 S2. open B S W HN HC. open B2 S2 W2 HM HD.
  destruct (join_phases h W2 g W) as (g' & E & Ha & Hh & Hc & _). exists g'. split; [auto|]. split.
  - intros x. rewrite Ha, HN, HM. apply Hh.
  - intros a b. rewrite HC, HD. specialize (Hc a b). unfold cnt in Hc at 1. unfold get_count.
    destruct (dict_get (a, b) (edges g')); cbn in Hc; destruct (cnt h a b); [| |discriminate|]; try congruence.
    + rewrite <- Hc. auto.
    + rewrite <- Hc. auto.
Qed.

(*P C71 Allowed start and end activities *)
Lemma C71_allowed_starts : forall ord allowed g N C, any_order ord -> built g -> shows g N C ->
  exists g' K C', remove_not_allowed_start_activities ord allowed g = Ok g' /\ built g' /\ shows g' K C' /\
    largest_supported N allowed (fun y x => edge_of C y x) K /\
    forall x y c, C' x y = Some c <-> C x y = Some c /\ K x /\ K y.
Proof.
  intros ord al g N C Ho B S. open B S W HN HC.
  destruct (allowed_start_ok ord Ho al g W) as (g' & E & W' & H1 & H2 & H3 & H4).
  exists g', (has g'), (cnt g'). split; [auto|]. split; [eapply b_start; eauto|]. split; [now apply wf_shows|].
  split; [|intros x y c; now rewrite H2, HC].
  split; [intros x; rewrite HN; auto|]. split.
  - intros x Hx. destruct (H3 x Hx) as [|(y & Hy & Hk & Hb)]; [auto|]. right. exists y. split; [auto|]. split; [auto|].
    unfold edge_of. now rewrite HC.
  - intros K' HK1 HK2. apply H4; [intros x; rewrite <- HN; auto|]. intros x Hx.
    destruct (HK2 x Hx) as [|(y & Hy & Hk & Hb)]; [auto|]. right. exists y. split; [auto|]. split; [auto|].
    unfold edge_of in Hb. now rewrite HC in Hb.
Qed.
Lemma C71_allowed_ends : forall ord allowed g N C, any_order ord -> built g -> shows g N C ->
  exists g' K C', remove_not_allowed_end_activities ord allowed g = Ok g' /\ built g' /\ shows g' K C' /\
    largest_supported N allowed (fun y x => edge_of C x y) K /\
    forall x y c, C' x y = Some c <-> C x y = Some c /\ K x /\ K y.
Proof.
  intros ord al g N C Ho B S. open B S W HN HC.
  destruct (allowed_end_ok ord Ho al g W) as (g' & E & W' & H1 & H2 & H3 & H4).
  exists g', (has g'), (cnt g'). split; [auto|]. split; [eapply b_end; eauto|]. split; [now apply wf_shows|].
  split; [|intros x y c; now rewrite H2, HC].
  split; [intros x; rewrite HN; auto|]. split.
  - intros x Hx. destruct (H3 x Hx) as [|(y & Hy & Hk & Hb)]; [auto|]. right. exists y. split; [auto|]. split; [auto|].
    unfold edge_of. now rewrite HC.
  - intros K' HK1 HK2. apply H4; [intros x; rewrite <- HN; auto|]. intros x Hx.
    destruct (HK2 x Hx) as [|(y & Hy & Hk & Hb)]; [auto|]. right. exists y. split; [auto|]. split; [auto|].
    unfold edge_of in Hb. now rewrite HC in Hb.
Qed.

(*P C72 Generated logs *)
Lemma C72_generated_traces : forall {V} fuel choice g N C nr starts ends (l : log string V nat),
  (forall i s, s <> [] -> In (choice i s) s) -> built g -> shows g N C ->
  generate_log fuel choice g nr starts ends = Ok l ->
  let is_start x := match starts with Some s => In x s | None => N x /\ forall p, edge_of C p x -> p = x end in
  let is_end x := match ends with Some s => In x s | None => N x /\ forall s, edge_of C x s -> s = x end in
  length l = nr /\
  Forall (fun t => exists a b w, is_start a /\ is_end b /\
      map activity (events t) = w ++ [b] /\ path (edge_of C) a b (w ++ [b]) /\
      Forall N (w ++ [b]) /\ forall y, In y w -> ~ is_end y) l.
Proof.
  intros V fuel choice g N C nr starts ends l Hch B S Hg is_start is_end. open B S W HN HC.
  unfold generate_log in Hg.
  set (s := match starts with Some s => s | None => get_source_activities g end) in Hg.
  set (e := match ends with Some e => e | None => get_sink_activities g end) in Hg.
  assert (Hs : forall x, In x s <-> is_start x).
  { intros x. unfold s, is_start. destruct starts; [tauto|]. rewrite (proj2 (sources_ok g W) x), HN. unfold edge_of.
    split; intros [H1 H2]; (split; [auto|]); intros p; [rewrite HC|rewrite <- HC]; auto. }
  assert (He : forall x, In x e <-> is_end x).
  { intros x. unfold e, is_end. destruct ends; [tauto|]. rewrite (proj2 (sinks_ok g W) x), HN. unfold edge_of.
    split; intros [H1 H2]; (split; [auto|]); intros p; [rewrite HC|rewrite <- HC]; auto. }
  destruct s as [|s0 s']; [discriminate|]. destruct e as [|e0 e']; [discriminate|].
  destruct (walks fuel choice g 0 (s0 :: s') (e0 :: e') nr) as [ws|] eqn:Ew; [|discriminate]. cbn [bind] in Hg.
  apply (walks_ok choice Hch g W) in Ew as [Hl Hw].
  destruct (create_from_simple_ok (V:=V) ws) as (l' & El & Ha & _ & _).
  { eapply Forall_impl; [|exact Hw]. intros w (a & b & u & _ & _ & _ & _ & -> & _). now destruct u. }
  rewrite El in Hg. injection Hg as <-. unfold to_simple_activity_log in Ha. rewrite <- Ha in Hw, Hl. rewrite map_length in Hl.
  split; [auto|]. rewrite Forall_map in Hw. eapply Forall_impl; [|exact Hw].
  intros t (a & b & u & H1 & H2 & H3 & H4 & H5 & H6). unfold to_activity_list in *. exists a, b, u.
  rewrite H5 in *. split; [now apply Hs|]. split; [now apply He|]. split; [auto|]. split; [|split].
  - revert H3. apply path_ext. intros x y. unfold edge_of. now rewrite HC.
  - eapply Forall_impl; [|exact H4]. intros x. apply HN.
  - intros y Hy Hn. apply (H6 y Hy). now apply He.
Qed.

(*P C73 Eventually-follows graph *)
Lemma C73_eventually_follows : forall {V I} (l : log string V I), (forall t, In t l -> events t <> []) ->
  exists g C, eventually_follows_graph l = Ok g /\ built g /\
    shows g (fun x => exists t, In t l /\ exists y, starts_before (events t) x y \/ starts_before (events t) y x) C /\
    forall a b, exists n,
      has_size (fun k => exists t, nth_error l k = Some t /\ starts_before (events t) a b) n /\
      C a b = if n =? 0 then None else Some (Z.of_nat n).
Proof.
  intros V I l Hl. assert (Hne : forallb non_empty l = true).
  { apply forallb_forall. intros t Ht. specialize (Hl t Ht). unfold non_empty. destruct (events t); [contradiction|auto]. }
  destruct (eventually_ok l Hne) as (g & E & W & Hh & Hc). exists g, (cnt g). split; [auto|].
  split; [eapply b_eventually; exact E|]. split; [apply to_shows; auto|].
  intros a b. destruct (Hc a b) as (n & Hn & En). exists n. split; [exact Hn|]. rewrite En. now destruct n.
Qed.
Lemma C73_empty_trace : forall {V I} (l : log string V I) t, In t l -> events t = [] -> eventually_follows_graph l = Err ValueError.
Proof.
  intros V I l t Ht E. unfold eventually_follows_graph. destruct (forallb non_empty l) eqn:Hne; auto.
  apply (proj1 (forallb_forall _ _)) with (x := t) in Hne; auto. unfold non_empty in Hne. rewrite E in Hne. discriminate.
Qed.

(*P C74 Comparing graphs *)
Lemma C74_equality : forall g h N C M D, built g -> shows g N C -> built h -> shows h M D ->
  graph_eqb g h = true <-> (forall a, N a <-> M a) /\ (forall a b, C a b = D a b).
Proof.
  intros g h N C M D B S B2 S2. open B S W HN HC. open B2 S2 W2 HM HD. rewrite (graph_eqb_ok g h W W2).
  unfold same_graph. split; intros [H1 H2]; split; intros.
  - now rewrite HN, HM. - now rewrite HC, HD. - now rewrite <- HN, <- HM. - now rewrite <- HC, <- HD.
Qed.

(*P C75 Selecting nodes, sources and sinks *)
Lemma C75_select_nodes : forall ord acts g N C, any_order ord -> built g -> shows g N C ->
  exists g' C', select_nodes ord acts g = Ok g' /\ built g' /\ shows g' (fun x => N x /\ In x acts) C' /\
    forall x y c, C' x y = Some c <-> C x y = Some c /\ In x acts /\ In y acts.
Proof.
  intros ord acts g N C Ho B S. open B S W HN HC.
  destruct (select_nodes_ok ord Ho acts g W) as (g' & E & W' & Hh & Hc). exists g', (cnt g').
  split; [auto|]. split; [eapply b_select; eauto|]. split.
  - apply to_shows; auto. intros x. now rewrite Hh, HN.
  - intros x y c. now rewrite Hc, HC.
Qed.
Lemma C75_sources_and_sinks : forall g N C, built g -> shows g N C ->
  (NoDup (get_source_activities g) /\
   forall a, In a (get_source_activities g) <-> N a /\ forall p, edge_of C p a -> p = a) /\
  (NoDup (get_sink_activities g) /\
   forall a, In a (get_sink_activities g) <-> N a /\ forall s, edge_of C a s -> s = a).
Proof.
  intros g N C B S. open B S W HN HC. split; (split; [now (apply sources_ok || apply sinks_ok)|]); intros a.
  - rewrite (proj2 (sources_ok g W) a), HN. unfold edge_of.
    split; intros [H1 H2]; (split; [auto|]); intros p; [rewrite HC|rewrite <- HC]; auto.
  - rewrite (proj2 (sinks_ok g W) a), HN. unfold edge_of.
    split; intros [H1 H2]; (split; [auto|]); intros p; [rewrite HC|rewrite <- HC]; auto.
Qed.

(** *** behaviour outside the proved cases *)
Open Scope string_scope.
Definition chain (l : list string) : graph :=
  match create_from_event_log (V:=nat) (match create_from_simple [l] with Ok l => l | Err _ => [] end) with
  | Ok g => g | Err _ => empty end.
Lemma chain_built l : built (chain l).
Proof.
  unfold chain, create_from_event_log. destruct (read_counts_from_log _ empty) eqn:E; [|constructor].
  eapply b_read; [apply b_empty|exact E].
Qed.
Lemma C44_rename_to_itself_refuted : exists g g', built g /\ In "a" (activities g) /\
  rename_activity "a" "a" g = Ok g' /\ ~ In "a" (activities g') /\ get_count "a" "b" g' = 1%Z.
Proof.
  exists (chain ["a"; "b"]). eexists. split; [apply chain_built|]. split; [vm_compute; auto|].
  split; [vm_compute; reflexivity|]. split; [vm_compute; intros [|[]]; discriminate|vm_compute; auto].
Qed.
Lemma C44_rename_onto_existing_refuted : exists g g', built g /\ In "a" (activities g) /\ In "c" (activities g) /\
  rename_activity "a" "c" g = Ok g' /\ get_count "b" "c" g' = 1%Z /\ get_preceding g' "c" = Ok [].
Proof.
  exists (chain ["a"; "b"; "c"]). eexists. split; [apply chain_built|]. split; [vm_compute; auto|]. split; [vm_compute; auto|].
  split; [vm_compute; reflexivity|]. split; vm_compute; auto.
Qed.
Lemma C45_sum_of_counts_refuted : exists g h g', built g /\ built h /\ join g h = Ok g' /\
  get_count "a" "b" g = 1%Z /\ get_count "a" "b" h = 1%Z /\ get_count "a" "b" g' = 1%Z /\
  get_following g' "a" = Ok ["b"; "b"].
Proof.
  exists (chain ["a"; "b"]), (chain ["a"; "b"]). eexists. split; [apply chain_built|]. split; [apply chain_built|].
  split; [vm_compute; reflexivity|]. repeat split; vm_compute; auto.
Qed.
