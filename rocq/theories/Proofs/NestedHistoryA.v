(** Nested graphs after a history of changes (C135) *)
From Coq Require Import Permutation.
From Verif.Model Require Import Base NestedGraph.
From Verif.Spec Require Import NestedSpec NestedHistory.
From Verif.Lib Require Import ListLib DictLib.
From Verif.Proofs Require Import NestedGraphA NestedGraphB.

Lemma snoc_split {X} (h b l : list X) c x : h ++ [c] = b ++ x :: l <->
  (l = [] /\ h = b /\ c = x) \/ exists l', l = l' ++ [c] /\ h = b ++ x :: l'.
Proof.
  split.
  - destruct l as [|y l' _] using rev_ind; intros E.
    + apply app_inj_tail in E. left. intuition.
    + rewrite app_comm_cons, app_assoc in E. apply app_inj_tail in E. destruct E as [-> ->]. right. exists l'. auto.
  - intros [(-> & -> & ->)|(l' & -> & ->)]; auto. rewrite <- app_assoc. auto.
Qed.
Lemma In_snoc {X} (h : list X) c x : In x (h ++ [c]) <-> In x h \/ c = x.
Proof. rewrite in_app_iff. cbn. intuition. Qed.

Lemma NoDup_map_inj {X Y} (f : X -> Y) l x y : NoDup (map f l) -> In x l -> In y l -> f x = f y -> x = y.
Proof.
  induction l as [|z l IH]; cbn [map]; [intros _ []|]. intros Hn Hx Hy E. apply NoDup_cons_iff in Hn. destruct Hn as [Hz Hn].
  destruct Hx as [->|Hx], Hy as [->|Hy]; auto.
  - exfalso. apply Hz. rewrite E. apply in_map. auto.
  - exfalso. apply Hz. rewrite <- E. apply in_map. auto.
Qed.
Lemma same_edge_sym {V} (e f : edge V) : same_edge e f -> same_edge f e.
Proof. unfold same_edge. intuition congruence. Qed.
Lemma same_edge_trans {V} (e f k : edge V) : same_edge e f -> same_edge f k -> same_edge e k.
Proof. unfold same_edge. intros (A & B & C & D) (A' & B' & C' & D'). repeat split; congruence. Qed.

Section G.
  Context {V : Type} `{HV : Eq V}.
  Implicit Types (g : graph V) (n : node V) (e f : edge V) (h : list (call V)).
  Definition proper_calls h := forall c, In c h -> proper_call c.
  Lemma proper_calls_snoc h c : proper_calls (h ++ [c]) -> proper_calls h /\ proper_call c.
  Proof. intros Hp. split; [intros d Hd|]; apply Hp; apply In_snoc; auto. Qed.
  Lemma after_snoc h c : after (h ++ [c]) = do_call (after h) c.
  Proof. unfold after. apply fold_left_app. Qed.

  Lemma after_proper h : proper_calls h -> proper (after h).
  Proof.
    induction h as [|c h IH] using rev_ind; intros Hp.
    - apply (NestedGraphB.C65_proper V HV).
    - apply proper_calls_snoc in Hp. destruct Hp as [Hp Hc]. specialize (IH Hp). rewrite after_snoc.
      destruct (NestedGraphB.C65_proper V HV) as (_ & H1 & H2 & H3). destruct c as [n|e|e]; cbn [do_call proper_call] in *; auto.
      destruct (remove_edge e (after h)) as [g'|] eqn:E; auto. eapply H3; eauto.
  Qed.
  Lemma after_edge_wf h e : proper_calls h -> has_edge (after h) e -> NoDup (keys (e_attributes e)).
  Proof. intros Hp. apply after_proper in Hp. destruct Hp as (_ & _ & _ & Ha & _). auto. Qed.

  (** nodes *)
  Lemma last_added_snoc h c n : last_added (h ++ [c]) n <-> c = AddNode n \/ (last_added h n /\ forall m, c = AddNode m -> id m <> id n).
  Proof.
    unfold last_added. split.
    - intros (b & l & E & Hl). apply snoc_split in E. destruct E as [(-> & -> & ->)|(l' & -> & ->)]; auto.
      right. split.
      + exists b, l'. split; auto. intros m Hm. apply Hl, In_snoc. auto.
      + intros m ->. apply Hl, In_snoc. auto.
    - intros [->|[(b & l & -> & Hl) Hc]].
      + exists h, []. split; [auto|intros m []].
      + exists b, (l ++ [c]). split; [rewrite <- app_assoc; auto|]. intros m Hm. apply In_snoc in Hm. destruct Hm as [Hm| ->]; auto.
  Qed.
  Lemma has_node_get g n : proper g -> has_node g n <-> dict_get (id n) (nodes g) = Some n.
  Proof.
    intros (Hk & Hid & _). unfold has_node, values. rewrite in_map_iff. split.
    - intros ([k n'] & <- & Hin). cbn [snd]. rewrite (Hid _ _ Hin). apply dict_In_get; auto.
    - intros E. apply dict_get_In in E. exists (id n, n). auto.
  Qed.
  Lemma nodes_after h n : proper_calls h -> has_node (after h) n <-> last_added h n.
  Proof.
    induction h as [|c h IH] using rev_ind; intros Hp.
    - split; [intros []|]. intros (b & l & E & _). destruct b; discriminate.
    - pose proof (after_proper _ Hp) as Hq. apply proper_calls_snoc in Hp. destruct Hp as [Hp Hc]. specialize (IH Hp).
      pose proof (after_proper _ Hp) as Hq'.
      rewrite last_added_snoc, <- IH, !has_node_get by auto. rewrite after_snoc. destruct c as [m|e|e]; cbn [do_call].
      + cbn [add_node nodes]. rewrite dict_get_set. destruct (eqb_ok (id n) (id m)) as [E|E].
        * split; [intros [= ->]; auto|]. intros [[= ->]|[_ Hm]]; auto. exfalso. apply (Hm m); auto.
        * split; [intros; right; split; auto; intros m' [= <-]; congruence|]. intros [[= ->]|[? _]]; auto. congruence.
      + cbn [add_edge nodes]. split; [intros; right; split; auto; discriminate|]. intros [|[]]; [discriminate|auto].
      + assert (En : nodes (match remove_edge e (after h) with Ok g' => g' | Err _ => after h end) = nodes (after h)).
        { unfold remove_edge. destruct (existsb _ _); auto. }
        rewrite En. split; [intros; right; split; auto; discriminate|]. intros [|[]]; [discriminate|auto].
  Qed.

  (** edges *)
  Definition cleared h e := forall h1 f h2, h = h1 ++ AddEdge f :: h2 -> same_edge e f -> exists r, In (RemoveEdge r) h2 /\ same_edge e r.
  Definition wf e := NoDup (keys (e_attributes e)).
  Lemma same_dec e f : wf e -> wf f -> reflect (same_edge e f) (edge_eqb e f).
  Proof. intros He Hf. apply iff_reflect. symmetry. apply edge_eqb_iff; auto. Qed.
  Lemma cleared_snoc h c e : wf e -> proper_call c -> cleared (h ++ [c]) e <->
    match c with AddNode _ => cleared h e | AddEdge f => cleared h e /\ ~ same_edge e f | RemoveEdge r => same_edge e r \/ cleared h e end.
  Proof.
    intros We Wc. unfold cleared. destruct c as [n|f|r].
    - split; intros Hc h1 f h2 E Hs.
      + subst h. destruct (Hc h1 f (h2 ++ [AddNode n])) as (r & Hr & Hs'); auto; [rewrite <- app_assoc; auto|].
        apply In_snoc in Hr. destruct Hr as [Hr|]; [eauto|discriminate].
      + apply snoc_split in E. destruct E as [(_ & _ & [=])|(l' & -> & ->)].
        destruct (Hc h1 f l') as (r & Hr & Hs'); auto. exists r. split; auto. apply In_snoc. auto.
    - split.
      + intros Hc. split.
        * intros h1 f' h2 E Hs. subst h. destruct (Hc h1 f' (h2 ++ [AddEdge f])) as (r & Hr & Hs'); auto; [rewrite <- app_assoc; auto|].
          apply In_snoc in Hr. destruct Hr as [Hr|]; [eauto|discriminate].
        * intros Hs. destruct (Hc h f []) as (r & [] & _); auto.
      + intros [Hc Hn] h1 f' h2 E Hs. apply snoc_split in E. destruct E as [(_ & _ & [= ->])|(l' & -> & ->)]; [contradiction|].
        destruct (Hc h1 f' l') as (r & Hr & Hs'); auto. exists r. split; auto. apply In_snoc. auto.
    - destruct (same_dec e r We Wc) as [Hr|Hr].
      + split; [auto|]. intros _ h1 f h2 E Hs. apply snoc_split in E. destruct E as [(_ & _ & [=])|(l' & -> & ->)].
        exists r. split; auto. apply In_snoc. auto.
      + split.
        * intros Hc. right. intros h1 f h2 E Hs. subst h. destruct (Hc h1 f (h2 ++ [RemoveEdge r])) as (r' & Hr' & Hs'); auto; [rewrite <- app_assoc; auto|].
          apply In_snoc in Hr'. destruct Hr' as [Hr'|[= ->]]; [eauto|contradiction].
        * intros [|Hc]; [contradiction|]. intros h1 f h2 E Hs. apply snoc_split in E. destruct E as [(_ & _ & [=])|(l' & -> & ->)].
          destruct (Hc h1 f l') as (r' & Hr' & Hs'); auto. exists r'. split; auto. apply In_snoc. auto.
  Qed.
  (** the edges of the graph after one more call *)
  Lemma edges_call g c f : (forall e, In e (edges g) -> wf e) -> proper_call c -> In f (edges (do_call g c)) <->
    match c with
    | AddNode _ => In f (edges g)
    | AddEdge e => In f (edges g) \/ (f = e /\ forall k, In k (edges g) -> ~ same_edge e k)
    | RemoveEdge r => In f (edges g) /\ ~ same_edge f r
    end.
  Proof.
    intros Hw Hc. destruct c as [n|e|r]; cbn [do_call]; [reflexivity| |].
    - cbn [add_edge edges]. unfold edge_set_add. destruct (existsb (edge_eqb e) (edges g)) eqn:E.
      + split; [auto|]. intros [|[_ Hn]]; auto. exfalso. apply existsb_exists in E. destruct E as (k & Hk & E).
        apply (Hn k Hk). destruct (same_dec e k Hc (Hw _ Hk)); [auto|discriminate].
      + rewrite In_snoc. split; intros [|Hf]; auto; [|destruct Hf; auto]. right. split; auto. intros k Hk Hs.
        assert (T : existsb (edge_eqb e) (edges g) = true); [|congruence]. apply existsb_exists. exists k. split; auto.
        destruct (same_dec e k Hc (Hw _ Hk)); [auto|contradiction].
    - assert (R : In f (edges g) -> negb (edge_eqb r f) = true <-> ~ same_edge f r).
      { intros Hf. rewrite negb_true_iff. destruct (same_dec r f Hc (Hw _ Hf)) as [Hs|Hs]; split; auto; [discriminate| |].
        - intros Hn. exfalso. apply Hn, same_edge_sym. auto.
        - intros _ Hn. apply Hs, same_edge_sym. auto. }
      unfold remove_edge. destruct (existsb (edge_eqb r) (edges g)) eqn:E.
      + cbn [edges]. rewrite filter_In. split; intros [Hf Hx]; (split; [auto|apply R; auto]).
      + split; [|tauto]. intros Hf. split; auto. apply R; auto. destruct (edge_eqb r f) eqn:Er; auto.
        assert (T : existsb (edge_eqb r) (edges g) = true); [|congruence]. apply existsb_exists. eauto.
  Qed.
  Lemma cleared_after h e : proper_calls h -> wf e -> cleared h e <-> forall f, has_edge (after h) f -> ~ same_edge e f.
  Proof.
    intros Hp We. revert Hp. induction h as [|c h IH] using rev_ind; intros Hp.
    - split; [intros _ f []|]. intros _ h1 f h2 E. destruct h1; discriminate.
    - apply proper_calls_snoc in Hp. destruct Hp as [Hp Hc]. specialize (IH Hp).
      assert (Hw : forall e, In e (edges (after h)) -> wf e) by (intros k; apply after_edge_wf; auto).
      rewrite cleared_snoc by auto. rewrite after_snoc. unfold has_edge.
      setoid_rewrite (edges_call (after h) c); auto. unfold has_edge in IH. destruct c as [n|k|r]; [auto| |].
      + rewrite IH. split.
        * intros [H1 H2] f [Hf|[-> _]]; auto.
        * intros Hx. assert (H1 : forall f, In f (edges (after h)) -> ~ same_edge e f) by auto. split; auto.
          intros Hs. apply (Hx k); auto. right. split; auto. intros f Hf Hs'. apply (H1 f Hf). eapply same_edge_trans; eauto.
      + rewrite IH. split.
        * intros [Hs|Hn] f [Hf Hx] Hs'; [|apply (Hn f); auto]. apply Hx. eapply same_edge_trans; [apply same_edge_sym|]; eauto.
        * intros Hx. destruct (same_dec e r We Hc) as [Hs|Hs]; auto. right. intros f Hf Hs'. apply (Hx f); auto. split; auto.
          intros Hr. apply Hs. eapply same_edge_trans; eauto.
  Qed.
  Lemma still_there_snoc h c e : still_there (h ++ [c]) e <->
    (c = AddEdge e /\ cleared h e) \/ (still_there h e /\ forall f, c = RemoveEdge f -> ~ same_edge e f).
  Proof.
    unfold still_there. fold (cleared h e). split.
    - intros (b & l & E & Hl & Hb). apply snoc_split in E. destruct E as [(-> & -> & ->)|(l' & -> & ->)]; auto.
      right. split.
      + exists b, l'. split; auto. split; auto. intros f Hf. apply Hl, In_snoc. auto.
      + intros f ->. apply Hl, In_snoc. auto.
    - intros [[-> Hc]|[(b & l & -> & Hl & Hb) Hc]].
      + exists h, []. split; [auto|]. split; [intros f []|auto].
      + exists b, (l ++ [c]). split; [rewrite <- app_assoc; auto|]. split; auto. intros f Hf. apply In_snoc in Hf. destruct Hf as [Hf| ->]; auto.
  Qed.
  Lemma edges_after h e : proper_calls h -> has_edge (after h) e <-> still_there h e.
  Proof.
    induction h as [|c h IH] using rev_ind; intros Hp.
    - split; [intros []|]. intros (b & l & E & _). destruct b; discriminate.
    - apply proper_calls_snoc in Hp. destruct Hp as [Hp Hc]. specialize (IH Hp).
      assert (Hw : forall e, In e (edges (after h)) -> wf e) by (intros k; apply after_edge_wf; auto).
      rewrite still_there_snoc, <- IH, after_snoc. unfold has_edge at 1. rewrite (edges_call (after h) c) by auto. fold (has_edge (after h) e).
      destruct c as [n|k|r].
      + split; [intros; right; split; auto; discriminate|]. intros [[[=] _]|[]]; auto.
      + split.
        * intros [|[-> Hn]]; [right; split; auto; discriminate|left; split; auto]. apply cleared_after; auto.
        * intros [[[= ->] Hn]|[]]; auto. right. split; auto. apply cleared_after; auto.
      + split; [intros []; right; split; auto; intros f [= <-]; auto|]. intros [[[=] _]|[H1 H2]]. split; auto.
  Qed.

  (** order of the nodes *)
  Definition before_in {X} (l : list X) (x y : X) := exists l1 l2 l3, l = l1 ++ x :: l2 ++ y :: l3.
  Lemma before_in_map {X Y} (k : X -> Y) (l : list X) x y : NoDup (map k l) -> In x l -> In y l ->
    before_in (map k l) (k x) (k y) -> before_in l x y.
  Proof.
    intros Hn Hx Hy (l1 & l2 & l3 & E). apply map_eq_app in E. destruct E as (m1 & m2 & -> & E1 & E2).
    apply map_eq_cons in E2. destruct E2 as (x' & m3 & -> & Ex & E3). apply map_eq_app in E3. destruct E3 as (m4 & m5 & -> & E4 & E5).
    apply map_eq_cons in E5. destruct E5 as (y' & m6 & -> & Ey & E6).
    assert (x' = x) by (eapply (NoDup_map_inj k); eauto; rewrite in_app_iff; cbn; auto).
    assert (y' = y) by (eapply (NoDup_map_inj k); eauto; rewrite in_app_iff; cbn; rewrite in_app_iff; cbn; auto).
    subst. exists m1, m4, m6. auto.
  Qed.
  Lemma before_in_filter {X} (p : X -> bool) (l : list X) x y : p x = true -> p y = true -> before_in l x y -> before_in (filter p l) x y.
  Proof.
    intros Hx Hy (l1 & l2 & l3 & ->). exists (filter p l1), (filter p l2), (filter p l3).
    rewrite filter_app. cbn [filter]. rewrite Hx, filter_app. cbn [filter]. rewrite Hy. auto.
  Qed.
  Lemma earlier_snoc h c i j : earlier (h ++ [c]) i j -> earlier h i j \/
    (i <> j /\ (exists n, c = AddNode n /\ id n = i) /\ forall m, In (AddNode m) h -> id m <> j).
  Proof.
    intros (b & n & l & E & Hi & Hb & Hij). apply snoc_split in E. destruct E as [(-> & -> & ->)|(l' & -> & ->)].
    - right. split; auto. split; eauto.
    - left. exists b, n, l'. auto.
  Qed.
  Lemma keys_added h i : In i (keys (nodes (after h))) <-> exists n, In (AddNode n) h /\ id n = i.
  Proof.
    induction h as [|c h IH] using rev_ind.
    - split; [intros []|intros (n & [] & _)].
    - rewrite after_snoc. assert (E : In i (keys (nodes (do_call (after h) c))) <-> In i (keys (nodes (after h))) \/ exists n, c = AddNode n /\ id n = i).
      { destruct c as [n|e|e]; cbn [do_call].
        - cbn [add_node nodes]. rewrite keys_dict_set_In. split.
          + intros [->|]; eauto.
          + intros [|(m & [= <-] & <-)]; auto.
        - cbn [add_edge nodes]. split; auto. intros [|(n & [=] & _)]; auto.
        - replace (nodes (match remove_edge e (after h) with Ok g' => g' | Err _ => after h end)) with (nodes (after h))
            by (unfold remove_edge; destruct (existsb _ _); auto). split; auto. intros [|(n & [=] & _)]; auto. }
      rewrite E, IH. split.
      + intros [(n & Hn & <-)|(n & -> & <-)]; exists n; rewrite In_snoc; auto.
      + intros (n & Hn & <-). apply In_snoc in Hn. destruct Hn as [Hn| ->]; eauto.
  Qed.
  Lemma keys_order h i j : earlier h i j -> In j (keys (nodes (after h))) -> before_in (keys (nodes (after h))) i j.
  Proof.
    induction h as [|c h IH] using rev_ind; intros He Hj.
    - destruct He as (b & n & l & E & _). destruct b; discriminate.
    - assert (Hi : In i (keys (nodes (after h))) \/ (exists n, c = AddNode n /\ id n = i)).
      { destruct He as (b & n & l & E & Hi & _). assert (Hn : In (AddNode n) (h ++ [c])) by (rewrite E, in_app_iff; cbn; auto).
        apply In_snoc in Hn. destruct Hn as [Hn| ->]; [left; apply keys_added; eauto|eauto]. }
      apply earlier_snoc in He. rewrite after_snoc in *.
      assert (En : forall e, nodes (match remove_edge e (after h) with Ok g' => g' | Err _ => after h end) = nodes (after h))
        by (intros e; unfold remove_edge; destruct (existsb _ _); auto).
      destruct c as [n|e|e]; cbn [do_call] in *.
      + cbn [add_node nodes] in *. rewrite keys_dict_set in *. destruct He as [He|(Hij & (m & [= <-] & <-) & Hb)].
        * destruct (mem (id n) (keys (nodes (after h)))) eqn:Eh; [apply IH; auto|].
          rewrite In_snoc in Hj. destruct Hj as [Hj| <-].
          -- destruct (IH He Hj) as (l1 & l2 & l3 & E). unfold before_in. rewrite E. exists l1, l2, (l3 ++ [id n]). rewrite <- app_assoc. cbn. rewrite <- app_assoc. auto.
          -- assert (Hi' : In i (keys (nodes (after h)))).
             { destruct Hi as [|(m & [= <-] & <-)]; auto. destruct He as (b & m & l & E & Hi & Hb & Hij). congruence. }
             apply in_split in Hi'. destruct Hi' as (l1 & l2 & E). unfold before_in. rewrite E. exists l1, l2, []. rewrite <- app_assoc. auto.
        * exfalso. assert (Hx : ~ In j (keys (nodes (after h)))).
          { rewrite keys_added. intros (m & Hm & E). apply (Hb m); auto. }
          destruct (mem (id n) (keys (nodes (after h)))); [auto|]. rewrite In_snoc in Hj. destruct Hj; auto.
      + cbn [add_edge nodes] in *. destruct He as [He|(_ & (n & [=] & _) & _)]. auto.
      + rewrite En in *. destruct He as [He|(_ & (n & [=] & _) & _)]. auto.
  Qed.
  Lemma node_before h m n : proper_calls h -> has_node (after h) m -> has_node (after h) n -> earlier h (id m) (id n) ->
    before_in (values (nodes (after h))) m n.
  Proof.
    intros Hp Hm Hn He. apply after_proper in Hp. pose proof (proper_ids _ Hp) as Ei.
    apply (before_in_map id); auto; rewrite ?Ei; [apply Hp|]. apply keys_order; auto. rewrite <- Ei. apply in_map. auto.
  Qed.
  Lemma NoDup_nodes g : proper g -> NoDup (values (nodes g)).
  Proof. intros Hp. apply (NoDup_map_inv id). rewrite proper_ids; auto. apply Hp. Qed.
End G.

(*P C135 Looking up nodes and edges of nested graphs *)
(** The graph holds exactly the nodes that were added last under their id and
    exactly the edges that were added and not removed since; of equal edges
    the first stays. *)
Lemma C135_contents : forall (V : Type) (HV : Eq V) (h : list (call V)),
  (forall c, In c h -> proper_call c) ->
  (forall n, has_node (after h) n <-> last_added h n) /\
  (forall e, has_edge (after h) e <-> still_there h e) /\
  NoDup (values (nodes (after h))) /\ NoDup (edges (after h)).
Proof.
  intros V HV h Hp. split; [intros n; apply nodes_after; auto|]. split; [intros e; apply edges_after; auto|].
  split; [apply NoDup_nodes|apply proper_apart]; apply after_proper; auto.
Qed.
(** An id gives the node added last under it, KeyError if there was none. *)
Lemma C135_by_id : forall (V : Type) (HV : Eq V) (h : list (call V)) i,
  (forall c, In c h -> proper_call c) ->
  (forall n, get_node_by_id i (after h) = Ok n <-> last_added h n /\ id n = i) /\
  ((forall n, get_node_by_id i (after h) <> Ok n) -> get_node_by_id i (after h) = Err KeyError) /\
  (get_node_by_id i (after h) = Err KeyError <-> forall n, In (AddNode n) h -> id n <> i).
Proof.
  intros V HV h i Hp. pose proof (after_proper _ Hp) as Hq. split; [|split].
  - intros n. rewrite <- nodes_after by auto. unfold get_node_by_id. split.
    + intros E. destruct (dict_get i (nodes (after h))) as [m|] eqn:Ei; [|discriminate]. injection E as <-.
      assert (id m = i) by (destruct Hq as (_ & Hid & _); apply Hid, dict_get_In; auto). subst i. split; auto. apply has_node_get; auto.
    + intros [Hn <-]. apply has_node_get in Hn; auto. rewrite Hn. auto.
  - unfold get_node_by_id. destruct (dict_get i (nodes (after h))) as [m|]; cbn [of_option]; [intros Hn; exfalso; eapply Hn; eauto|auto].
  - unfold get_node_by_id. split.
    + intros E n Hn Ei. destruct (dict_get i (nodes (after h))) as [m|] eqn:Eg; [discriminate|]. apply dict_get_None in Eg. apply Eg.
      apply keys_added. eauto.
    + intros Hn. rewrite (proj2 (dict_get_None _ _)); auto. rewrite keys_added. intros (n & Hin & Ei). apply (Hn n); auto.
Qed.
(** A label gives exactly the nodes with this label, each once, in the order
    in which their ids came into the graph. *)
Lemma C135_by_label : forall (V : Type) (HV : Eq V) (h : list (call V)) l,
  (forall c, In c h -> proper_call c) ->
  NoDup (get_nodes_by_label l (after h)) /\
  (forall n, In n (get_nodes_by_label l (after h)) <-> last_added h n /\ label n = l) /\
  (forall m n, In m (get_nodes_by_label l (after h)) -> In n (get_nodes_by_label l (after h)) -> earlier h (id m) (id n) ->
    exists l1 l2 l3, get_nodes_by_label l (after h) = l1 ++ m :: l2 ++ n :: l3).
Proof.
  intros V HV h l Hp. unfold get_nodes_by_label. split; [|split].
  - apply NoDup_filter, NoDup_nodes, after_proper. auto.
  - intros n. rewrite filter_In, <- nodes_after by auto. unfold has_node. destruct (eqb_ok (label n) l); intuition congruence.
  - intros m n Hm Hn He. apply filter_In in Hm, Hn. destruct Hm as [Hm Em], Hn as [Hn En]. apply before_in_filter; auto. apply node_before; auto.
Qed.
(** Source and target give an edge between them, for each order in which the
    set of edges is iterated; ValueError iff there is none. *)
Lemma C135_by_ends : forall (V : Type) (HV : Eq V) (h : list (call V)) (order : list (edge V)) s t,
  (forall c, In c h -> proper_call c) -> Permutation order (edges (after h)) ->
  (exists e, get_edge_by_source_and_target s t (Graph (nodes (after h)) order) = Ok e /\ still_there h e /\ source e = s /\ target e = t) \/
  (get_edge_by_source_and_target s t (Graph (nodes (after h)) order) = Err ValueError /\
   forall e, still_there h e -> source e = s -> target e <> t).
Proof.
  intros V HV h order s t Hp Hperm. unfold get_edge_by_source_and_target. cbn [edges].
  destruct (find (fun e => eqb (source e) s && eqb (target e) t) order) as [e|] eqn:E; cbn [of_option].
  - apply find_some in E. destruct E as [Hin E]. apply andb_true_iff in E. destruct E as [E1 E2].
    left. exists e. split; auto. split; [apply edges_after; auto; eapply Permutation_in; eauto|].
    destruct (eqb_ok (source e) s), (eqb_ok (target e) t); auto; discriminate.
  - right. split; auto. intros e He Es Et. apply edges_after in He; auto. pose proof (Permutation_in _ (Permutation_sym Hperm) He) as Hin.
    apply (find_none _ _ E) in Hin. subst. rewrite !eqb_refl in Hin. discriminate.
Qed.
(** With several edges between the two nodes each of them is returned for
    some order. *)
Lemma C135_parallel_edges : forall (V : Type) (HV : Eq V) (h : list (call V)) e,
  (forall c, In c h -> proper_call c) -> still_there h e ->
  exists order, Permutation order (edges (after h)) /\
    get_edge_by_source_and_target (source e) (target e) (Graph (nodes (after h)) order) = Ok e.
Proof.
  intros V HV h e Hp He. apply edges_after in He; auto. apply in_split in He. destruct He as (l1 & l2 & E).
  exists (e :: l1 ++ l2). rewrite E. split; [apply Permutation_middle|].
  unfold get_edge_by_source_and_target. cbn [edges find]. rewrite !eqb_refl. auto.
Qed.
(** Removing raises KeyError iff no equal edge is there. *)
Lemma C135_remove : forall (V : Type) (HV : Eq V) (h : list (call V)) r,
  (forall c, In c h -> proper_call c) -> NoDup (keys (e_attributes r)) ->
  ((exists e, still_there h e /\ same_edge e r) -> exists g, remove_edge r (after h) = Ok g) /\
  ((forall e, still_there h e -> ~ same_edge e r) -> remove_edge r (after h) = Err KeyError).
Proof.
  intros V HV h r Hp Hr. unfold remove_edge. split.
  - intros (e & He & Hs). apply edges_after in He; auto. rewrite (proj2 (existsb_exists _ _)); eauto. exists e. split; auto.
    destruct (same_dec r e) as [|Hn]; auto; [apply (after_edge_wf h); auto|]. exfalso. apply Hn, same_edge_sym. auto.
  - intros Hn. destruct (existsb (edge_eqb r) (edges (after h))) eqn:E; auto. exfalso. apply existsb_exists in E. destruct E as (e & He & E).
    apply (Hn e); [apply edges_after; auto|]. destruct (same_dec r e) as [|]; auto; [apply (after_edge_wf h); auto|apply same_edge_sym; auto|discriminate].
Qed.
(** Children, edges of a node, and the nodes without edges in or out. *)
Lemma C135_neighbours : forall (V : Type) (HV : Eq V) (h : list (call V)),
  (forall c, In c h -> proper_call c) ->
  (forall i, has_children i (after h) = true <-> exists n, last_added h n /\ parent n = Some i) /\
  (forall i n, In n (get_children i (after h)) <-> last_added h n /\ parent n = Some i) /\
  (forall i e, In e (get_outgoing_edges i (after h)) <-> still_there h e /\ source e = i) /\
  (forall i e, In e (get_ingoing_edges i (after h)) <-> still_there h e /\ target e = i) /\
  (forall n, In n (get_source_nodes (after h)) <-> last_added h n /\ forall e, still_there h e -> target e <> id n) /\
  (forall n, In n (get_sink_nodes (after h)) <-> last_added h n /\ forall e, still_there h e -> source e <> id n).
Proof.
  intros V HV h Hp.
  assert (Hout : forall i e, In e (get_outgoing_edges i (after h)) <-> still_there h e /\ source e = i).
  { intros i e. unfold get_outgoing_edges. rewrite filter_In, <- edges_after by auto. unfold has_edge. destruct (eqb_ok (source e) i); intuition congruence. }
  assert (Hin : forall i e, In e (get_ingoing_edges i (after h)) <-> still_there h e /\ target e = i).
  { intros i e. unfold get_ingoing_edges. rewrite filter_In, <- edges_after by auto. unfold has_edge. destruct (eqb_ok (target e) i); intuition congruence. }
  assert (Hch : forall i n, In n (get_children i (after h)) <-> last_added h n /\ parent n = Some i).
  { intros i n. unfold get_children. rewrite filter_In, <- nodes_after by auto. unfold has_node. destruct (eqb_ok (parent n) (Some i)); intuition congruence. }
  assert (Hz : forall (l : list (edge V)), (length l =? 0) = true <-> forall e, ~ In e l).
  { intros l. rewrite Nat.eqb_eq. destruct l as [|e l]; cbn [length].
    - split; auto.
    - split; [discriminate|]. intros Hn. exfalso. apply (Hn e). cbn. auto. }
  split; [|split; [auto|split; [auto|split; [auto|split]]]].
  - intros i. unfold has_children. rewrite existsb_exists. setoid_rewrite <- nodes_after; auto. unfold has_node. split.
    + intros (n & Hn & E). exists n. split; auto. destruct (eqb_ok (parent n) (Some i)); [auto|discriminate].
    + intros (n & Hn & E). exists n. split; auto. rewrite E. apply eqb_refl.
  - intros n. unfold get_source_nodes. rewrite filter_In, Hz, <- nodes_after by auto. setoid_rewrite Hin. unfold has_node. firstorder.
  - intros n. unfold get_sink_nodes. rewrite filter_In, Hz, <- nodes_after by auto. setoid_rewrite Hout. unfold has_node. firstorder.
Qed.
