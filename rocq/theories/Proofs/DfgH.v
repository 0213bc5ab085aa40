(** Searching in directly-follows graphs *)
From Coq Require Import Permutation Relations Sorted.
From Verif.Model Require Import Base Sort EventLog Dfg.
From Verif.Lib Require Import ListLib DictLib SortLib StrLib.
From Verif.Spec Require Import Lists Logs Graphs EventLogSpec DfgSpec.
From Verif.Proofs Require Import Selection EventLogA DfgA DfgB DfgC DfgD DfgE DfgF.
Open Scope nat_scope.

(** *** paths and transitive closures *)
Section Paths.
  Context {X : Type}.
  Variable R : X -> X -> Prop.
  Lemma chained_cons2 x l : (forall y, is_first y l -> R x y) -> chained R l -> chained R (x :: l).
  Proof. destruct l as [|y l]; cbn; [auto|]. intros H1 H2. split; [apply H1; now exists l|auto]. Qed.
  Lemma chained_app l m : chained R (l ++ m) -> chained R l /\ chained R m.
  Proof.
    induction l as [|x l IH]; cbn [app]; [cbn; auto|]. destruct l as [|y l].
    - destruct m as [|z m]; cbn; intuition.
    - intros [H1 H2]. apply IH in H2 as [H2 H3]. split; [split; auto|auto].
  Qed.
  Lemma chained_snoc l x y : chained R (l ++ [x]) -> R x y -> chained R (l ++ [x; y]).
  Proof.
    induction l as [|z l IH]; intros H1 H2; [cbn; auto|]. cbn [app] in *. destruct l as [|w l].
    - cbn in *. intuition.
    - destruct H1 as [H1 H3]. split; [auto|]. now apply IH.
  Qed.
  Lemma chained_mid l x y m : chained R (l ++ x :: y :: m) -> R x y.
  Proof. intros Hc. apply chained_app in Hc as [_ Hc]. apply Hc. Qed.
  Lemma path_step a x y l : path R a x (l ++ [x]) -> R x y -> path R a y (l ++ [x; y]).
  Proof.
    intros (H1 & _ & H3) Hr. split; [|split].
    - destruct H1 as [r E]. destruct l as [|z l]; cbn in *; [injection E as -> _; now exists [y]|].
      injection E as -> _. now exists (l ++ [x; y]).
    - exists (l ++ [x]). now rewrite <- app_assoc.
    - now apply chained_snoc.
  Qed.
  Lemma connected_trans a b : connected R a b <-> clos_trans X R a b.
  Proof.
    split.
    - intros (l & (H1 & H2 & H3) & Hl). revert a H1 Hl. induction l as [|x l IH]; intros a H1 Hl; [cbn in Hl; lia|].
      destruct H1 as [r E]. injection E as <- <-. destruct l as [|y l]; [cbn in Hl; lia|].
      destruct H3 as [Hr H3]. destruct l as [|z l].
      + destruct H2 as [pre E2]. destruct pre as [|p [|q pre]]; try discriminate.
        * injection E2 as _ ->. now apply t_step.
        * injection E2 as _ _ E2. destruct pre; discriminate.
      + eapply t_trans; [apply t_step, Hr|]. apply IH; [|auto|now exists (z :: l)|cbn; lia].
        destruct H2 as [pre E2]. destruct pre as [|p pre]; [discriminate|]. injection E2 as _ E2. now exists pre.
    - intros Hc. apply clos_trans_tn1 in Hc. induction Hc as [y Hy|y z Hz Hc IH].
      + exists [a; y]. split; [|cbn; lia]. split; [now exists [y]|]. split; [now exists [a]|]. cbn. auto.
      + destruct IH as (l & Hp & Hl). destruct Hp as (H1 & [pre ->] & H3). exists (pre ++ [y; z]). split.
        * apply path_step; [|auto]. split; [auto|]. split; [now exists pre|auto].
        * rewrite app_length in *. cbn in *. lia.
  Qed.
  Lemma connected0_trans a b : connected0 R a b <-> clos_refl_trans X R a b.
  Proof.
    split.
    - intros (l & Hp). destruct (le_lt_dec 2 (length l)) as [Hl|Hl].
      + assert (Hc : connected R a b) by (exists l; auto). apply connected_trans in Hc.
        clear -Hc. induction Hc; [now apply rt_step|eapply rt_trans; eauto].
      + destruct Hp as ([r ->] & [pre E] & _). destruct r as [|z r]; [|cbn in Hl; lia].
        destruct pre as [|p pre]; [injection E as ->; apply rt_refl|]. injection E as _ E. destruct pre; discriminate.
    - intros Hc. apply clos_rt_rtn1 in Hc. induction Hc as [|y z Hz Hc IH].
      + exists [a]. split; [now exists []|]. split; [now exists []|]. cbn. auto.
      + destruct IH as (l & H1 & [pre ->] & H3). exists (pre ++ [y; z]). apply path_step; [|auto].
        split; [auto|]. split; [now exists pre|auto].
  Qed.
End Paths.
Lemma clos_trans_flip {X} (R : X -> X -> Prop) a b : clos_trans X (fun x y => R y x) a b -> clos_trans X R b a.
Proof. induction 1; [now apply t_step|eapply t_trans; eauto]. Qed.
Lemma connected_flip {X} (R : X -> X -> Prop) a b : connected (fun x y => R y x) a b <-> connected R b a.
Proof. rewrite !connected_trans. split; [apply clos_trans_flip|]. intros H. now apply (clos_trans_flip (fun x y => R y x)). Qed.

(** *** removing a node and connecting its neighbours *)
Lemma bypass_connected {X} (R R' : X -> X -> Prop) (a : X) : (forall x : X, x = a \/ x <> a) ->
  (forall x y, R' x y <-> x <> a /\ y <> a /\ (R x y \/ (R x a /\ R a y))) ->
  forall x y, x <> a -> y <> a -> connected R' x y <-> connected R x y.
Proof.
  intros Hdec HR x y Hx Hy. rewrite !connected_trans. split.
  - clear Hx Hy. intros Hc. induction Hc as [x y Hr|x z y _ IH1 _ IH2].
    + apply HR in Hr as (_ & _ & [Hr|[H1 H2]]); [now apply t_step|].
      eapply t_trans; apply t_step; eauto.
    + eapply t_trans; eauto.
  - intros Hc. apply clos_trans_t1n in Hc.
    assert (G : (x <> a -> clos_trans X R' x y) /\ (x = a -> forall p, p <> a -> R p a -> clos_trans X R' p y)).
    { clear Hx. induction Hc as [x y Hr|x z y Hr Hc IH].
      - split; [intros Hx; apply t_step, HR; auto|]. intros -> p Hp Hpa. apply t_step, HR. auto.
      - destruct (IH Hy) as [I1 I2]. destruct (Hdec z) as [->|Hz].
        + split; [intros Hx; apply (I2 eq_refl); auto|]. intros -> p Hp Hpa. apply (I2 eq_refl); auto.
        + split; [intros Hx|intros -> p Hp Hpa]; (eapply t_trans; [apply t_step, HR|apply I1; auto]); auto. }
    destruct G as [G _]; auto.
Qed.

Lemma NoDup_app_l {X} (l m : list X) : NoDup (l ++ m) -> NoDup l.
Proof.
  induction l as [|x l IH]; cbn; intros Hn; constructor; inversion Hn as [|? ? H1 H2]; subst; auto.
  intros Hin. apply H1, in_or_app. auto.
Qed.
(** *** breadth first search *)
Lemma bfs_scan_ok goal path ns : forall visited queue,
  match bfs_scan goal path ns visited queue with
  | inl p => exists n, In n ns /\ goal n = true /\ p = path ++ [n]
  | inr (v, q) => (forall n, In n ns -> goal n = false /\ In n v) /\
      exists new, q = queue ++ map (fun n => (n, path)) new /\ NoDup new /\
        (forall x, In x v <-> In x visited \/ In x new) /\
        (forall x, In x new -> In x ns /\ ~ In x visited)
  end.
Proof.
  induction ns as [|n ns IH]; intros visited queue; cbn [bfs_scan].
  - split; [intros n []|]. exists []. cbn. rewrite app_nil_r. split; [auto|]. split; [constructor|].
    split; [intros; tauto|intros x []].
  - destruct (goal n) eqn:Eg; [exists n; split; [now left|auto]|].
    destruct (mem n visited) eqn:Em.
    + specialize (IH visited queue). apply mem_In in Em. destruct (bfs_scan goal path ns visited queue) as [p|[v q]].
      * destruct IH as (m & Hm & R). exists m. split; [now right|auto].
      * destruct IH as (H1 & new & -> & H2 & H3 & H4). split.
        -- intros m [<-|Hm]; [|auto]. split; [auto|]. apply H3. auto.
        -- exists new. split; [auto|]. split; [auto|]. split; [auto|]. intros x Hx. apply H4 in Hx as [X Y].
           split; [now right|auto].
    + apply mem_not_In in Em. specialize (IH (set_add n visited) (queue ++ [(n, path)])).
      destruct (bfs_scan goal path ns (set_add n visited) (queue ++ [(n, path)])) as [p|[v q]].
      * destruct IH as (m & Hm & R). exists m. split; [now right|auto].
      * destruct IH as (H1 & new & -> & H2 & H3 & H4). split.
        -- intros m [<-|Hm]; [|auto]. split; [auto|]. apply H3. left. apply set_add_In. auto.
        -- exists (n :: new). rewrite <- app_assoc. split; [auto|]. split; [|split].
           ++ constructor; [|auto]. intros Hn. apply H4 in Hn as [_ Hn]. apply Hn. apply set_add_In. auto.
           ++ intros x. rewrite H3, set_add_In. cbn. intuition.
           ++ intros x [<-|Hx]; [split; [now left|auto]|]. apply H4 in Hx as [X Y]. split; [now right|].
              intros Hv. apply Y, set_add_In. auto.
Qed.

Section Bfs.
  Variables (g : graph) (a : string) (goal : string -> bool).
  Hypothesis W : wf g.
  Notation E := (edge_of (cnt g)).
  (** what the search has found: some nearest goal or that there is none *)
  Definition nearest (p : list string) : Prop :=
    (p = [] /\ forall b l, goal b = true -> ~ path E a b l) \/
    (exists b, goal b = true /\ path E a b p /\ forall b' l, goal b' = true -> path E a b' l -> length p <= length l).

  Record bfs_inv (P visited : list string) (queue : list (string * list string)) : Prop := {
    b_vis : forall x, In x visited <-> In x P \/ In x (map fst queue);
    b_nd : NoDup (P ++ map fst queue);
    b_has : forall x, In x P \/ In x (map fst queue) -> has g x;
    b_path : forall x p, In (x, p) queue -> path E a x (p ++ [x]);
    b_goal : forall x, In x P \/ In x (map fst queue) -> goal x = false;
    b_sort : StronglySorted (fun e f => length (snd e) <= length (snd f)) queue;
    b_len : forall e f, hd_error queue = Some e -> In f queue -> length (snd f) <= S (length (snd e));
    b_succ : forall x y, In x P -> E x y -> In y visited;
    b_front : forall l1 x l2, is_first a (l1 ++ x :: l2) -> chained E (l1 ++ x :: l2) ->
      (forall z, In z l1 -> In z P) -> ~ In x P -> exists p, In (x, p) queue /\ length p <= length l1
  }.
  (** the first element outside of a list *)
  Lemma first_outside (P l : list string) y : In y l -> ~ In y P ->
    exists l1 x l2, l = l1 ++ x :: l2 /\ (forall z, In z l1 -> In z P) /\ ~ In x P.
  Proof.
    induction l as [|z l IH]; intros Hy Hn; [contradiction|].
    destruct (in_dec eq_dec_of z P) as [Hz|Hz].
    - destruct Hy as [->|Hy]; [contradiction|]. destruct (IH Hy Hn) as (l1 & x & l2 & -> & H1 & H2).
      exists (z :: l1), x, l2. split; [auto|]. split; [|auto]. intros w [<-|Hw]; auto.
    - exists [], z, l. split; [auto|]. split; [intros w []|auto].
  Qed.
  Lemma path_In b l : path E a b l -> In b l.
  Proof. intros (_ & [pre ->] & _). apply in_or_app. right. now left. Qed.

  Lemma bfs_ok fuel : forall P visited queue, bfs_inv P visited queue -> length (nodes g) <= length P + fuel ->
    exists p, bfs fuel g goal visited queue = Ok p /\ nearest p.
  Proof.
    induction fuel as [|fuel IH]; intros P visited queue [Bv Bn Bh Bp Bg Bs Bl Bu Bf] Hf;
      (destruct queue as [|[cur path0] queue]; cbn [bfs];
       [exists []; split; [auto|]; left; split; [auto|]; intros b l Hb Hp;
        assert (HbP : ~ In b P) by (intros Hin; rewrite (Bg b (or_introl Hin)) in Hb; discriminate);
        destruct (first_outside P l b (path_In b l Hp) HbP) as (l1 & x & l2 & -> & H1 & H2);
        destruct Hp as (Hp1 & _ & Hp2);
        destruct (Bf l1 x l2 Hp1 Hp2 H1 H2) as (p & [] & _)|]).
    - exfalso. assert (Hi : incl (P ++ [cur]) (keys (nodes g))).
      { intros x Hx. apply Bh. apply in_app_or in Hx as [Hx|[<-|[]]]; [auto|right; now left]. }
      apply NoDup_incl_length in Hi.
      + rewrite app_length in Hi. unfold keys in Hi. rewrite map_length in Hi. cbn in Hi. lia.
      + apply NoDup_snoc; [now apply NoDup_app_l in Bn|].
        apply NoDup_remove_2 in Bn. intros Hin. apply Bn, in_or_app. auto.
    - assert (Hcur : has g cur) by (apply Bh; right; now left).
      destruct (get_following_ok g W cur Hcur) as (fs & Ef & _ & Hfs). rewrite Ef. cbn [bind].
      assert (Hcurp : path E a cur (path0 ++ [cur])) by (apply Bp; now left).
      assert (Evis : set_add cur visited = visited).
      { unfold set_add. rewrite (proj2 (mem_In cur visited)); [auto|]. apply Bv. right. now left. }
      rewrite Evis.
      pose proof (bfs_scan_ok goal (path0 ++ [cur]) (stable_sort String.leb fs) visited queue) as Hscan.
      assert (HcP : ~ In cur P).
      { cbn in Bn. apply NoDup_remove_2 in Bn. intros Hin. apply Bn, in_or_app. auto. }
      assert (Hmin : forall x p, In (x, p) ((cur, path0) :: queue) -> length path0 <= length p).
      { intros x p [Ex|Hin]; [injection Ex as _ <-; auto|]. inversion Bs as [|? ? _ Hall]; subst.
        rewrite Forall_forall in Hall. apply (Hall _ Hin). }
      destruct (bfs_scan _ _ _ _ _) as [p|[v q]].
      + destruct Hscan as (n & Hn & Hgn & ->). apply sort_In in Hn. apply Hfs in Hn.
        exists ((path0 ++ [cur]) ++ [n]). split; [auto|]. right. exists n. split; [auto|].
        rewrite <- app_assoc. cbn [app]. split; [now apply path_step|].
        intros b' l Hb Hp.
        assert (HbP : ~ In b' P) by (intros Hin; rewrite (Bg b' (or_introl Hin)) in Hb; discriminate).
        destruct (first_outside P l b' (path_In b' l Hp) HbP) as (l1 & x & l2 & -> & H1 & H2).
        destruct Hp as (Hp1 & Hlast & Hp2). destruct (Bf l1 x l2 Hp1 Hp2 H1 H2) as (p & Hin & Hlen).
        apply Hmin in Hin as Hm. rewrite !app_length. cbn [length].
        destruct l2 as [|y l2]; [|cbn [length]; lia]. exfalso.
        assert (Ex : x = b') by (destruct Hlast as [pre E0]; apply app_inj_tail in E0; apply E0). subst x.
        rewrite (Bg b') in Hb; [discriminate|]. right. apply (in_map fst) in Hin. exact Hin.
      + destruct Hscan as (Hns & new & -> & Nn & Hv & Hnew).
        assert (Hsuc : forall y, E cur y -> goal y = false /\ In y v).
        { intros y Hy. apply Hns. apply sort_In. now apply Hfs. }
        assert (Hq : map fst (queue ++ map (fun n => (n, path0 ++ [cur])) new) = map fst queue ++ new).
        { rewrite map_app, map_map. cbn [fst]. now rewrite map_id. }
        assert (Hin2 : forall x p, In (x, p) (queue ++ map (fun n => (n, path0 ++ [cur])) new) <->
                  In (x, p) queue \/ (In x new /\ p = path0 ++ [cur])).
        { intros x p. rewrite in_app_iff, in_map_iff. split; (intros [H1|H1]; [auto|right]).
          - destruct H1 as (m & Em & Hm). injection Em as -> <-. auto.
          - destruct H1 as [H1 ->]. eauto. }
        apply (IH (P ++ [cur])); [|rewrite app_length; cbn; lia].
        assert (Hle : forall x p, In (x, p) (queue ++ map (fun n => (n, path0 ++ [cur])) new) -> length p <= S (length path0)).
        { intros x p Hin. apply Hin2 in Hin as [Hin|[_ ->]].
          - apply (Bl (cur, path0) (x, p)); [auto|now right].
          - rewrite app_length. cbn. lia. }
        constructor.
        * intros x. rewrite Hv, Bv, Hq, !in_app_iff. cbn. tauto.
        * rewrite Hq. rewrite <- app_assoc. cbn [app]. cbn [map fst] in Bn.
          rewrite app_comm_cons, app_assoc. apply NoDup_app_disjoint; auto.
          intros x Hx Hn. apply Hnew in Hn as [_ Hn]. apply Hn, Bv. apply in_app_or in Hx. cbn. destruct Hx; auto.
        * intros x Hx. rewrite Hq, !in_app_iff in Hx. cbn in Hx.
          destruct Hx as [[Hx|[<-|[]]]|[Hx|Hx]]; [apply Bh; auto|auto|apply Bh; right; now right|].
          apply Hnew in Hx as [Hx _]. apply sort_In, Hfs in Hx. now apply (edge_has g W cur x).
        * intros x p Hin. apply Hin2 in Hin as [Hin|[Hin ->]]; [apply Bp; now right|].
          apply Hnew in Hin as [Hin _]. apply sort_In, Hfs in Hin. rewrite <- app_assoc. now apply path_step.
        * intros x Hx. rewrite Hq, !in_app_iff in Hx. cbn in Hx.
          destruct Hx as [[Hx|[<-|[]]]|[Hx|Hx]]; [apply Bg; auto|apply Bg; right; now left|apply Bg; right; now right|].
          apply Hnew in Hx as [Hx _]. now apply Hns.
        * inversion Bs as [|? ? Bs' _]; subst. clear -Bs' Hle Bl.
          assert (Hq : forall f, In f queue -> length (snd f) <= S (length path0)).
          { intros f Hf. apply (Bl (cur, path0) f); [auto|now right]. }
          clear Bl Hle. induction queue as [|e queue IH]; cbn [app].
          -- clear. induction new as [|n new IH]; cbn [map]; constructor; auto.
             apply Forall_forall. intros f Hf. apply in_map_iff in Hf as (m & <- & _). cbn. auto.
          -- inversion Bs' as [|? ? H1 H2]; subst. constructor; [apply IH; auto; intros; apply Hq; now right|].
             apply Forall_app. split; [auto|]. apply Forall_forall. intros f Hf. apply in_map_iff in Hf as (m & <- & _).
             cbn [snd]. rewrite app_length. cbn. specialize (Hq e (or_introl eq_refl)). lia.
        * intros e f He Hin. destruct e as [xe pe], f as [xf pf]. cbn [snd]. apply Hle in Hin.
          destruct (queue ++ map (fun n => (n, path0 ++ [cur])) new) as [|e0 q0] eqn:Eq; [discriminate|].
          cbn in He. injection He as ->. assert (Hin' : In (xe, pe) ((xe, pe) :: q0)) by now left.
          apply Hin2 in Hin' as [Hin'|[_ ->]].
          -- pose proof (Hmin xe pe (or_intror Hin')). lia.
          -- rewrite app_length. cbn. lia.
        * intros x y Hx Hxy. apply in_app_or in Hx as [Hx|[<-|[]]]; [|now apply Hsuc].
          apply Hv. left. eapply Bu; eauto.
        * intros l1 x l2 H1 H2 H3 H4.
          assert (HxP : ~ In x P) by (intros Hin; apply H4, in_or_app; auto).
          assert (Hxc : x <> cur) by (intros ->; apply H4, in_or_app; right; now left).
          destruct (in_dec eq_dec_of cur l1) as [Hc|Hc].
          -- (* the path meets [cur] *)
             destruct (first_outside P (l1 ++ x :: l2) cur) as (m1 & z & m2 & Em & Hm1 & Hz); [apply in_or_app; auto|auto|].
             assert (Hm : length m1 < length l1 /\ z = cur).
             { clear -Em Hm1 Hz H3 Hc HcP. revert l1 Em H3 Hc. induction m1 as [|w m1 IH]; intros [|v l1] Em H3 Hc; try contradiction.
               - cbn in Em. injection Em as -> _. cbn. split; [lia|].
                 assert (Hin : In z (P ++ [cur])) by (apply H3; now left). apply in_app_or in Hin as [Hin|[<-|[]]]; [contradiction|auto].
               - cbn in Em. injection Em as -> Em. destruct Hc as [->|Hc]; [exfalso; apply HcP, Hm1; now left|].
                 destruct (IH (fun z Hz => Hm1 z (or_intror Hz)) l1 Em (fun z Hz => H3 z (or_intror Hz)) Hc) as [X Y].
                 cbn. split; [lia|auto]. }
             destruct Hm as [Hm ->]. rewrite Em in H1, H2. destruct (Bf m1 cur m2 H1 H2 Hm1 Hz) as (pc & Hpc & Hlc).
             assert (Epc : pc = path0).
             { destruct Hpc as [Ec|Hpc]; [now injection Ec|]. exfalso. cbn in Bn. apply NoDup_remove_2 in Bn. apply Bn.
               apply in_or_app. right. apply (in_map fst) in Hpc. exact Hpc. }
             subst pc. rewrite <- Em in H1, H2.
             assert (Hxv : In x v).
             { destruct l1 as [|w l1'] using rev_ind; [contradiction|]. rewrite <- app_assoc in H2. cbn [app] in H2.
               apply chained_mid in H2. assert (Hw : In w (P ++ [cur])) by (apply H3, in_or_app; right; now left).
               apply in_app_or in Hw as [Hw|[<-|[]]]; [|now apply Hsuc]. apply Hv. left. eapply Bu; eauto. }
             assert (Hxq : In x (map fst (queue ++ map (fun n => (n, path0 ++ [cur])) new))).
             { rewrite Hq. apply in_or_app. apply Hv in Hxv as [Hxv|Hxv]; [|auto]. left.
               apply Bv in Hxv as [Hxv|[Hxv|Hxv]]; [contradiction|cbn in Hxv; congruence|auto]. }
             apply in_map_iff in Hxq as ([x' p] & Ex & Hin). cbn in Ex. subst x'. exists p. split; [auto|].
             apply Hle in Hin. lia.
          -- assert (H3' : forall z, In z l1 -> In z P).
             { intros z Hz. specialize (H3 z Hz). apply in_app_or in H3 as [|[<-|[]]]; [auto|contradiction]. }
             destruct (Bf l1 x l2 H1 H2 H3' HxP) as (p & [Ep|Hin] & Hlp); [injection Ep; congruence|].
             exists p. split; [apply Hin2; auto|auto].
  Qed.
  Hypothesis Ha : has g a.
  Hypothesis Hga : goal a = false.
  Lemma bfs_start : exists p, bfs (length (nodes g)) g goal [a] [(a, [])] = Ok p /\ nearest p.
  Proof.
    apply (bfs_ok _ []); [|cbn; lia]. constructor; cbn [map fst app].
    - intros x. cbn. tauto.
    - repeat constructor. auto.
    - intros x [[]|[<-|[]]]. auto.
    - intros x p [Ex|[]]. injection Ex as <- <-. split; [now exists []|]. split; [now exists []|]. cbn. auto.
    - intros x [[]|[<-|[]]]. auto.
    - repeat constructor.
    - intros e f He [<-|[]]. cbn in He. injection He as <-. lia.
    - intros x y [].
    - intros l1 x l2 [r E1] _ H3 _. destruct l1 as [|z l1]; [|exfalso; apply (H3 z); now left].
      cbn in E1. injection E1 as -> _. exists []. split; [now left|auto].
  Qed.
End Bfs.

(** *** the search leaves the graph unchanged *)
Lemma remove_edge_edges k g g' o : remove_edge k g = Ok (g', o) ->
  edges g' = match dict_get k (edges g) with Some _ => dict_del k (edges g) | None => edges g end.
Proof.
  unfold remove_edge. destruct (dict_get k (edges g)) as [e|]; [|intros [= <- _]; auto].
  destruct (remove_first _ _) as [o1|]; cbn [of_option bind]; [|discriminate].
  destruct (remove_first _ _) as [o2|]; cbn [of_option bind]; [|discriminate]. intros [= <- _]. auto.
Qed.
Lemma remove_forbidden_ok L : forall g r0, wf g -> NoDup L -> (forall a b, In (a, b) L -> cnt g a b <> None) ->
  exists g1, foldM (fun '(g, r) k => do x <- remove_edge k g ; Ok (fst x, r ++ [snd x])) L (g, r0)
     = Ok (g1, r0 ++ map (fun k => dict_get k (edges g)) L) /\ wf g1 /\
    nodes g1 = nodes g /\ eh g1 = eh g /\ en g1 = en g /\ (forall n, n_act (nh g1 n) = n_act (nh g n)) /\
    (forall x y, cnt g1 x y = if mem (x, y) L then None else cnt g x y).
Proof.
  induction L as [|[a b] L IH]; intros g r0 W Hd HL; cbn [foldM map].
  - exists g. rewrite app_nil_r. do 6 (split; [auto|]). auto.
  - inversion Hd as [|? ? Hab Hd']; subst.
    destruct (remove_edge_ok a b g W) as (g1 & E1 & W1 & N1 & H1 & M1 & _ & A1 & C1). rewrite E1. cbn [bind fst snd].
    destruct (IH g1 (r0 ++ [dict_get (a, b) (edges g)]) W1 Hd') as (g2 & E2 & W2 & N2 & H2 & M2 & A2 & C2).
    { intros x y Hxy. rewrite C1. destruct (eqb_ok (x, y) (a, b)) as [E|E]; [rewrite E in Hxy; contradiction|].
      apply HL. now right. }
    exists g2. split; [|split; [auto|]; split; [congruence|]; split; [congruence|]; split; [congruence|]; split;
      [intros; now rewrite A2|]].
    + rewrite E2, <- app_assoc. cbn [app]. do 4 f_equal. apply map_ext_in. intros k Hk.
      apply remove_edge_edges in E1. rewrite E1. destruct (dict_get (a, b) (edges g)); [|auto].
      rewrite dict_get_del by apply W. destruct (eqb_ok k (a, b)); [subst; contradiction|auto].
    + intros x y. rewrite C2, C1. unfold mem. cbn [existsb]. destruct (eqb (x, y) (a, b)); cbn [orb]; [destruct (existsb _ L)|]; auto.
Qed.
Lemma add_count_frame a b c g g' : wf g -> has g a -> has g b -> cnt g a b = None ->
  add_count a b c g = Ok g' -> (forall j, j < en g -> eh g' j = eh g j) /\ (forall n, n_act (nh g' n) = n_act (nh g n)) /\
    en g <= en g'.
Proof.
  intros W Ha Hb Hn. unfold add_count. rewrite (add_node_has a g Ha), (add_node_has b g Hb).
  apply has_get in Ha as [s Es]. apply has_get in Hb as [t Et]. apply cnt_None in Hn.
  unfold dict_has. rewrite Hn. unfold node_id. rewrite Es, Et. cbn [of_option bind].
  change (set_in _ t _) with (new_edge s t (a, b) g).
  assert (Ed : edges (new_edge s t (a, b) g) = dict_set (a, b) (en g) (edges g)) by reflexivity.
  rewrite Ed, dict_get_set, eqb_refl. cbn [of_option bind]. intros [= <-]. split; [|split].
  - intros j Hj. cbn [eh set_eh]. rewrite upd_other by lia.
    change (eh (new_edge s t (a, b) g)) with (upd (eh g) (en g) (Edge s t 0)). now rewrite upd_other by lia.
  - intros n. cbn [nh set_eh]. eapply ne_act; eauto.
  - cbn. lia.
Qed.
Lemma put_back_ok g0 L : wf g0 -> NoDup L -> (forall a b, In (a, b) L -> cnt g0 a b <> None) -> forall g, wf g ->
  (forall a, has g a <-> has g0 a) -> en g0 <= en g -> (forall j, j < en g0 -> eh g j = eh g0 j) ->
  (forall n, n_act (nh g n) = n_act (nh g0 n)) -> (forall a b, In (a, b) L -> cnt g a b = None) ->
  exists g', put_back (map (fun k => dict_get k (edges g0)) L) g = Ok g' /\ wf g' /\ (forall a, has g' a <-> has g0 a) /\
    forall x y, cnt g' x y = if mem (x, y) L then cnt g0 x y else cnt g x y.
Proof.
  intros W0. unfold put_back. induction L as [|[a b] L IH]; intros Hd HL g W Hh Hen Hj Hn Hc; cbn [foldM map].
  - exists g. auto.
  - inversion Hd as [|? ? Hab Hd']; subst.
    assert (Hab0 : cnt g0 a b <> None) by (apply HL; now left). assert (Hab1 := Hab0). rewrite cnt_None in Hab1.
    destruct (dict_get (a, b) (edges g0)) as [e|] eqn:E; [|congruence]. cbn [of_option bind].
    destruct (w_e _ W0 _ _ _ E) as (He & _ & _).
    assert (Es : start_act g e = a /\ end_act g e = b).
    { unfold start_act, end_act. rewrite Hj by auto. rewrite !Hn. apply (acts_of g0 W0 _ _ _ E). }
    destruct Es as [-> ->]. rewrite Hj by auto.
    destruct (edge_has g0 W0 a b Hab0) as [Ha Hb].
    destruct (add_count_ok a b (e_count (eh g0 e)) g W) as (g1 & E1 & W1 & H1 & C1). rewrite E1. cbn [bind].
    destruct (add_count_frame a b _ g g1 W (proj2 (Hh a) Ha) (proj2 (Hh b) Hb) (Hc a b (or_introl eq_refl)) E1) as (F1 & F2 & F3).
    destruct (IH Hd') with (g := g1) as (g2 & E2 & W2 & H2 & C2); auto.
    { intros; apply HL; now right. }
    { intros x. rewrite H1, Hh. split; [|auto]. intros [->|[->|Hx]]; auto. }
    { lia. } { intros j Hlt. rewrite F1 by lia. auto. } { intros n. now rewrite F2. }
    { intros x y Hxy. rewrite C1. destruct (eqb_ok (x, y) (a, b)) as [Ex|_]; [rewrite Ex in Hxy; contradiction|].
      apply Hc. now right. }
    exists g2. split; [auto|]. split; [auto|]. split; [auto|]. intros x y. rewrite C2, C1. unfold mem. cbn [existsb].
    destruct (eqb_ok (x, y) (a, b)) as [Ex|Ex]; cbn [orb].
    + injection Ex as -> ->. rewrite (Hc a b (or_introl eq_refl)).
      assert (Hm : existsb (eqb (a, b)) L = false) by (apply (mem_not_In (a, b) L); auto). rewrite Hm.
      unfold cnt. rewrite E. cbn. auto.
    + auto.
Qed.

Lemma shortest_path_ok a b L g : wf g -> has g a -> a <> b -> NoDup L ->
  (forall x y, In (x, y) L -> cnt g x y <> None) ->
  exists p g', shortest_path a b L g = Ok (p, g') /\ wf g' /\ same_graph g' g /\
    let E x y := edge_of (cnt g) x y /\ ~ In (x, y) L in
    (p = [] /\ (forall l, ~ path E a b l)) \/ shortest E a b p.
Proof.
  intros W Ha Hab Hd HL. unfold shortest_path.
  rewrite (proj2 (dict_has_In (nodes g) a) Ha). cbn [negb]. rewrite (proj2 (eqb_neq a b)) by auto.
  unfold remove_forbidden. destruct (remove_forbidden_ok L g [] W Hd HL) as (g1 & E1 & W1 & N1 & H1 & M1 & A1 & C1).
  rewrite E1. cbn [bind app].
  assert (Ha1 : has g1 a) by (unfold has; rewrite N1; auto).
  destruct (bfs_start g1 a (fun n => eqb n b) W1 Ha1) as (p & Ep & Hp).
  { apply eqb_neq. auto. }
  rewrite Ep. cbn [bind].
  destruct (put_back_ok g L W Hd HL g1 W1) as (g2 & E2 & W2 & H2 & C2); auto.
  { intros; unfold has; now rewrite N1. } { lia. } { intros; now rewrite H1. }
  { intros x y Hxy. rewrite C1, (proj2 (mem_In (x, y) L)); auto. }
  rewrite E2. cbn [bind]. exists p, g2. split; [auto|]. split; [auto|]. split.
  - split; [auto|]. intros x y. rewrite C2, C1. destruct (mem (x, y) L); auto.
  - cbv zeta.
    assert (HE : forall x y, edge_of (cnt g1) x y <-> (edge_of (cnt g) x y /\ ~ In (x, y) L)).
    { intros x y. unfold edge_of. rewrite C1. destruct (mem (x, y) L) eqn:Em.
      - apply mem_In in Em. tauto.
      - apply mem_not_In in Em. tauto. }
    assert (HP : forall y l, path (edge_of (cnt g1)) a y l <-> path (fun x y => edge_of (cnt g) x y /\ ~ In (x, y) L) a y l).
    { intros y l. unfold path. assert (Hch : forall l, chained (edge_of (cnt g1)) l <-> chained (fun x y => edge_of (cnt g) x y /\ ~ In (x, y) L) l).
      { clear -HE. induction l as [|x [|z l] IH]; cbn [chained]; try tauto. rewrite HE, IH. tauto. }
      rewrite Hch. tauto. }
    destruct Hp as [[-> Hp]|(b' & Hb & Hp & Hm)].
    + left. split; [auto|]. intros l Hl. apply (Hp b l); [apply eqb_refl|]. now apply HP.
    + right. apply (proj1 (eqb_eq _ _)) in Hb. subst b'. split; [now apply HP|].
      intros l Hl. apply (Hm b l); [apply eqb_refl|]. now apply HP.
Qed.
Lemma shortest_one_ok a ends g : wf g -> has g a -> ~ In a ends ->
  exists p, shortest_path_to_one_of a ends g = Ok p /\
    let E := edge_of (cnt g) in
    (p = [] /\ (forall b l, In b ends -> ~ path E a b l)) \/
    exists b, In b ends /\ path E a b p /\ forall b' l, In b' ends -> path E a b' l -> length p <= length l.
Proof.
  intros W Ha Hn. unfold shortest_path_to_one_of.
  rewrite (proj2 (dict_has_In (nodes g) a) Ha). cbn [negb]. rewrite (proj2 (mem_not_In a ends)) by auto.
  destruct (bfs_start g a (fun n => mem n ends) W Ha) as (p & Ep & Hp); [now apply mem_not_In|].
  exists p. split; [auto|]. cbv zeta. destruct Hp as [[-> Hp]|(b & Hb & Hp & Hm)].
  - left. split; [auto|]. intros b l Hb. apply Hp. now apply mem_In.
  - right. exists b. split; [now apply mem_In|]. split; [auto|]. intros b' l Hb'. apply Hm. now apply mem_In.
Qed.
