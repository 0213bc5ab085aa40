(** Reachability and weakly connected components *)
From Coq Require Import Permutation Relations.
From Verif.Model Require Import Base Sort EventLog Dfg.
From Verif.Lib Require Import ListLib DictLib.
From Verif.Spec Require Import Lists Logs Graphs EventLogSpec DfgSpec.
From Verif.Proofs Require Import Selection EventLogA DfgA DfgB DfgC DfgD DfgE DfgF DfgH.
Open Scope nat_scope.

Definition pops (pop : nat -> list string -> string * list string) : Prop :=
  forall i s, s <> [] -> let (x, r) := pop i s in Permutation (x :: r) s.

Section Closure.
  Variable pop : nat -> list string -> string * list string.
  Hypothesis Hpop : pops pop.
  Variables (g : graph) (next : string -> result (list string)) (R : string -> string -> Prop).
  Hypothesis Hnext : forall x, has g x -> exists l, next x = Ok l /\ forall y, In y l <-> R x y.
  Hypothesis Hhas : forall x y, R x y -> has g x /\ has g y.
  Variable a : string.

  Lemma fold_todo (found fs : list string) : forall rest, NoDup rest ->
    let t := fold_left (fun t f => if mem f found then t else set_add f t) fs rest in
    NoDup t /\ forall y, In y t <-> In y rest \/ (In y fs /\ ~ In y found).
  Proof.
    induction fs as [|f fs IH]; intros rest Hr; cbn [fold_left].
    - split; [auto|]. intros y. cbn. tauto.
    - destruct (mem f found) eqn:Em.
      + apply mem_In in Em. destruct (IH rest Hr) as [H1 H2]. split; [auto|]. intros y. rewrite H2. cbn.
        intuition (subst; contradiction).
      + apply mem_not_In in Em. destruct (IH (set_add f rest) (set_add_NoDup f rest Hr)) as [H1 H2].
        split; [auto|]. intros y. rewrite H2, set_add_In. cbn. intuition (subst; auto).
  Qed.

  Lemma closure_ok fuel : forall found todo, NoDup (found ++ todo) ->
    (forall x, In x (found ++ todo) -> has g x /\ clos_trans string R a x) ->
    (forall x y, In x found -> R x y -> In y (found ++ todo)) ->
    (forall y, R a y -> In y (found ++ todo)) ->
    length (nodes g) <= length found + fuel ->
    exists l, closure fuel pop next found todo = Ok l /\ NoDup l /\ forall x, In x l <-> clos_trans string R a x.
  Proof.
    induction fuel as [|fuel IH]; intros found todo Hd Hh Hs Ha Hf.
    - destruct todo as [|x todo].
      + cbn [closure]. exists found. rewrite app_nil_r in *. split; [auto|]. split; [auto|]. intros x. split; [apply Hh|].
        intros Hc. apply clos_trans_tn1 in Hc. induction Hc as [y Hy|y z Hz _ IHc]; eauto.
      + exfalso. assert (Hi : incl (found ++ [x]) (keys (nodes g))).
        { intros y Hy. apply Hh. apply in_app_or in Hy as [Hy|[<-|[]]]; apply in_or_app; [auto|right; now left]. }
        apply NoDup_incl_length in Hi.
        * rewrite app_length in Hi. unfold keys in Hi. rewrite map_length in Hi. cbn in Hi. lia.
        * apply NoDup_snoc; [now apply NoDup_app_l in Hd|]. apply NoDup_remove_2 in Hd.
          intros Hin. apply Hd, in_or_app. auto.
    - cbn [closure]. destruct todo as [|x0 todo0] eqn:Et.
      + exists found. rewrite app_nil_r in *. split; [auto|]. split; [auto|]. intros x. split; [apply Hh|].
        intros Hc. apply clos_trans_tn1 in Hc. induction Hc as [y Hy|y z Hz _ IHc]; eauto.
      + rewrite <- Et in *. assert (Hne : todo <> []) by (rewrite Et; discriminate). clear Et.
        pose proof (Hpop (S fuel) todo Hne) as Hp. destruct (pop (S fuel) todo) as [x rest].
        assert (Hd' : NoDup (found ++ x :: rest)).
        { eapply Permutation_NoDup; [|exact Hd]. apply Permutation_app_head. now symmetry. }
        assert (Hin : forall y, In y (found ++ todo) <-> In y found \/ x = y \/ In y rest).
        { intros y. rewrite in_app_iff. split; (intros [Hy|Hy]; [auto|right]).
          - apply (Permutation_in _ (Permutation_sym Hp)) in Hy. exact Hy.
          - apply (Permutation_in y Hp). exact Hy. }
        assert (Hxf : ~ In x found) by (apply NoDup_remove_2 in Hd'; intros Hin'; apply Hd', in_or_app; auto).
        assert (Ex : set_add x found = found ++ [x]) by (unfold set_add; now rewrite (proj2 (mem_not_In x found))).
        rewrite Ex. destruct (Hh x) as [Hx Hcx]; [apply Hin; auto|].
        destruct (Hnext x Hx) as (fs & Efs & Hfs). rewrite Efs. cbn [bind].
        destruct (fold_todo (found ++ [x]) fs rest) as [H1 H2].
        { apply NoDup_remove_1 in Hd'. clear -Hd'. induction found; cbn in *; [auto|]. inversion Hd'; auto. }
        cbv zeta in H1, H2. set (t := fold_left _ fs rest) in *.
        assert (Hin2 : forall y, In y ((found ++ [x]) ++ t) <-> In y (found ++ todo) \/ In y fs).
        { intros y. rewrite in_app_iff, H2, Hin. rewrite in_app_iff. cbn.
          destruct (in_dec eq_dec_of y (found ++ [x])) as [Hy|Hy]; rewrite in_app_iff in Hy; cbn in Hy; tauto. }
        apply IH.
        * apply NoDup_app_disjoint; [apply NoDup_snoc; [now apply NoDup_app_l in Hd'|auto]|auto|].
          intros y Hy Hyt. apply H2 in Hyt as [Hyt|[_ Hyt]]; [|contradiction].
          apply in_app_or in Hy as [Hy|[<-|[]]].
          -- clear -Hd' Hy Hyt. induction found as [|z f IH]; [contradiction|]. cbn in Hd'. inversion Hd' as [|? ? X Y]; subst.
             destruct Hy as [->|Hy]; [|auto]. apply X, in_or_app. right. now right.
          -- apply NoDup_remove_2 in Hd'. apply Hd', in_or_app. auto.
        * intros y Hy. apply Hin2 in Hy as [Hy|Hy]; [auto|]. apply Hfs in Hy. split; [now apply Hhas in Hy|].
          eapply t_trans; [exact Hcx|]. now apply t_step.
        * intros y z Hy Hyz. apply Hin2. apply in_app_or in Hy as [Hy|[<-|[]]]; [left; eauto|right; now apply Hfs].
        * intros y Hy. apply Hin2. auto.
        * rewrite app_length. cbn. lia.
  Qed.
End Closure.

Lemma reachable_ok pop g a : pops pop -> wf g -> has g a ->
  exists l, get_reachable_activities pop g a = Ok l /\ NoDup l /\ forall x, In x l <-> connected (edge_of (cnt g)) a x.
Proof.
  intros Hp W Ha. unfold get_reachable_activities. destruct (get_following_ok g W a Ha) as (fs & E & Hd & Hfs).
  rewrite E. cbn [bind].
  destruct (closure_ok pop Hp g (get_following g) (edge_of (cnt g))) with (a := a) (fuel := length (nodes g)) (found := @nil string) (todo := set_of fs)
    as (l & El & Nl & Hl).
  - intros x Hx. destruct (get_following_ok g W x Hx) as (l & El & _ & Hl). eauto.
  - intros x y Hxy. now apply (edge_has g W).
  - apply set_of_NoDup.
  - intros x Hx. apply set_of_In, Hfs in Hx. split; [now apply (edge_has g W a x)|]. now apply t_step.
  - intros x y [].
  - intros y Hy. apply set_of_In. now apply Hfs.
  - cbn. lia.
  - exists l. split; [auto|]. split; [auto|]. intros x. now rewrite Hl, connected_trans.
Qed.
Lemma reaching_ok pop g a : pops pop -> wf g -> has g a ->
  exists l, get_activities_that_reach pop g a = Ok l /\ NoDup l /\ forall x, In x l <-> connected (edge_of (cnt g)) x a.
Proof.
  intros Hp W Ha. unfold get_activities_that_reach. destruct (get_preceding_ok g W a Ha) as (fs & E & Hd & Hfs).
  rewrite E. cbn [bind].
  destruct (closure_ok pop Hp g (get_preceding g) (fun x y => edge_of (cnt g) y x)) with (a := a) (fuel := length (nodes g)) (found := @nil string) (todo := set_of fs)
    as (l & El & Nl & Hl).
  - intros x Hx. destruct (get_preceding_ok g W x Hx) as (l & El & _ & Hl). eauto.
  - intros x y Hxy. apply and_comm. now apply (edge_has g W).
  - apply set_of_NoDup.
  - intros x Hx. apply set_of_In, Hfs in Hx. split; [now apply (edge_has g W x a)|]. now apply t_step.
  - intros x y [].
  - intros y Hy. apply set_of_In. now apply Hfs.
  - cbn. lia.
  - exists l. split; [auto|]. split; [auto|]. intros x. rewrite Hl, <- connected_trans. apply connected_flip.
Qed.

(** *** components *)
Section Comp.
  Variable g : graph.
  Hypothesis W : wf g.
  Definition adj x y : Prop := edge_of (cnt g) x y \/ edge_of (cnt g) y x.
  Lemma adj_sym x y : adj x y -> adj y x.
  Proof. unfold adj. tauto. Qed.
  Lemma adj_has x y : adj x y -> has g x /\ has g y.
  Proof. intros [H|H]; apply (edge_has g W) in H; tauto. Qed.
  Notation joined := (clos_refl_trans string adj).
  Lemma joined_sym x y : joined x y -> joined y x.
  Proof.
    induction 1; [apply rt_step; now apply adj_sym|apply rt_refl|eapply rt_trans; eauto].
  Qed.

  Lemma scan_ok (ys : list string) : forall st un, NoDup un ->
    let '(st', un') := fold_left (fun '(st, un) y =>
          if mem y un then (st ++ [y], filter (fun z => negb (eqb z y)) un) else (st, un)) ys (st, un) in
    exists new, st' = st ++ new /\ NoDup new /\ NoDup un' /\ (forall y, In y new <-> In y ys /\ In y un) /\
      (forall y, In y un' <-> In y un /\ ~ In y ys).
  Proof.
    induction ys as [|y ys IH]; intros st un Hu; cbn [fold_left].
    - exists []. rewrite app_nil_r. split; [auto|]. split; [constructor|]. split; [auto|]. cbn. split; intros; tauto.
    - destruct (mem y un) eqn:Em.
      + apply mem_In in Em. specialize (IH (st ++ [y]) (filter (fun z => negb (eqb z y)) un) (NoDup_filter _ Hu)).
        destruct (fold_left _ ys _) as [st' un']. destruct IH as (new & -> & N1 & N2 & H1 & H2).
        assert (Hf : forall z, In z (filter (fun z => negb (eqb z y)) un) <-> In z un /\ z <> y).
        { intros z. rewrite filter_In, negb_true_iff, eqb_neq. tauto. }
        exists (y :: new). split; [now rewrite <- app_assoc|]. split; [|split; [auto|split]].
        * constructor; [|auto]. intros Hy. apply H1 in Hy as [_ Hy]. apply Hf in Hy. tauto.
        * intros z. cbn. rewrite H1, Hf. destruct (eqb_ok z y) as [->|Hn]; intuition congruence.
        * intros z. rewrite H2, Hf. cbn. intuition congruence.
      + apply mem_not_In in Em. specialize (IH st un Hu).
        destruct (fold_left _ ys _) as [st' un']. destruct IH as (new & -> & N1 & N2 & H1 & H2).
        exists new. split; [auto|]. split; [auto|]. split; [auto|]. split.
        * intros z. rewrite H1. cbn. intuition (subst; contradiction).
        * intros z. rewrite H2. cbn. intuition (subst; contradiction).
  Qed.

  (** [U] is the set of activities that were unseen at the start *)
  Lemma component_ok (U : list string) x0 : (forall x y, In x U -> adj x y -> In y U) ->
    forall fuel found stack unseen, NoDup (found ++ stack ++ unseen) -> length (nodes g) <= length found + fuel ->
    (forall x, In x (found ++ stack ++ unseen) <-> In x U) -> (forall x, In x U -> has g x) ->
    (forall x, In x (found ++ stack) -> joined x0 x) -> In x0 (found ++ stack) ->
    (forall x y, In x found -> adj x y -> In y (found ++ stack)) ->
    exists c un, component fuel g found stack unseen = Ok (c, un) /\
      NoDup (c ++ un) /\ (forall x, In x (c ++ un) <-> In x U) /\ (forall x, In x c <-> joined x0 x) /\
      (forall x y, In x un -> adj x y -> In y un).
  Proof.
    intros HU. induction fuel as [|fuel IH]; intros found stack unseen Hd Hf Hin Hh Hj H0 Hc;
      destruct stack as [|s stack] using rev_ind; cbn [component].
    1, 3: cbn [rev app] in *; rewrite app_nil_r in *; exists found, unseen; split; [auto|]; split; [auto|]; split; [auto|];
      assert (Hcl : forall x, In x found <-> joined x0 x) by
       (intros x; split; [apply Hj|]; intros Hc'; apply clos_rt_rtn1 in Hc'; induction Hc' as [|y z Hz _ IHc]; eauto);
      split; [auto|]; intros x y Hx Hxy;
      assert (Hy : In y (found ++ unseen)) by (apply Hin; apply (HU x); [apply Hin, in_or_app; auto|auto]);
      apply in_app_or in Hy as [Hy|Hy]; [|auto]; exfalso;
      assert (Hx' : In x found) by (apply (Hc y); [auto|now apply adj_sym]);
      clear -Hd Hx Hx'; induction found as [|z f IHf]; [contradiction|]; cbn in Hd; inversion Hd as [|? ? X Y]; subst;
      (destruct Hx' as [->|Hx']; [apply X, in_or_app; auto|auto]).
    - exfalso. assert (Hi : incl (found ++ [s]) (keys (nodes g))).
      { intros y Hy. apply Hh, Hin. rewrite !in_app_iff in *. tauto. }
      apply NoDup_incl_length in Hi.
      * rewrite app_length in Hi. unfold keys in Hi. rewrite map_length in Hi. cbn in Hi. lia.
      * rewrite app_assoc in Hd. apply NoDup_app_l in Hd. rewrite app_assoc in Hd. apply NoDup_remove_1 in Hd as Hd1.
        apply NoDup_remove_2 in Hd. rewrite app_nil_r in *. apply NoDup_snoc; [now apply NoDup_app_l in Hd1|].
        intros Hs. apply Hd, in_or_app. auto.
    - rewrite rev_app_distr. cbn [rev app]. rewrite rev_involutive.
      assert (Hs : has g s) by (apply Hh, Hin; rewrite !in_app_iff; cbn; tauto).
      destruct (get_preceding_ok g W s Hs) as (ps & Ep & _ & Hps). rewrite Ep. cbn [bind].
      destruct (get_following_ok g W s Hs) as (fs & Ef & _ & Hfs). rewrite Ef. cbn [bind].
      assert (Hadj : forall y, In y (ps ++ fs) <-> adj s y).
      { intros y. rewrite in_app_iff, Hps, Hfs. unfold adj, edge_of. tauto. }
      assert (Nu : NoDup unseen).
      { clear -Hd. induction (found) as [|z f IHf]; cbn in Hd; [|inversion Hd; auto].
        induction (stack ++ [s]) as [|z f IHf]; cbn in Hd; [auto|inversion Hd; auto]. }
      pose proof (scan_ok (ps ++ fs) stack unseen Nu) as Hscan.
      destruct (fold_left _ (ps ++ fs) (stack, unseen)) as [st un]. destruct Hscan as (new & -> & Nn & Nun & Hnew & Hun).
      assert (Hpart : forall y, In y ((found ++ [s]) ++ (stack ++ new) ++ un) <-> In y (found ++ (stack ++ [s]) ++ unseen)).
      { intros y. rewrite !in_app_iff, Hnew, Hun. destruct (in_dec eq_dec_of y (ps ++ fs)); tauto. }
      assert (Hst : forall y, In y ((found ++ [s]) ++ stack ++ new) <-> In y (found ++ stack ++ [s]) \/ (adj s y /\ In y unseen)).
      { intros y. rewrite !in_app_iff, Hnew, Hadj. tauto. }
      apply IH.
      + assert (Hp : Permutation (found ++ (stack ++ [s]) ++ unseen) ((found ++ [s]) ++ (stack ++ new) ++ un)).
        { transitivity ((found ++ [s]) ++ stack ++ unseen).
          - rewrite <- !app_assoc. apply Permutation_app_head. cbn [app]. symmetry. apply Permutation_middle.
          - rewrite <- !app_assoc. do 2 apply Permutation_app_head. apply Permutation_app_head.
            apply NoDup_Permutation; [auto| |].
            + apply NoDup_app_disjoint; auto. intros y H1 H2. apply Hnew in H1. apply Hun in H2. tauto.
            + intros y. rewrite in_app_iff, Hnew, Hun. destruct (in_dec eq_dec_of y (ps ++ fs)); tauto. }
        eapply Permutation_NoDup; [exact Hp|auto].
      + rewrite app_length. cbn. lia.
      + intros y. now rewrite Hpart.
      + auto.
      + intros y Hy. apply Hst in Hy as [Hy|[Hy _]]; [auto|]. eapply rt_trans; [apply (Hj s)|now apply rt_step].
        rewrite !in_app_iff. cbn. tauto.
      + apply Hst. auto.
      + intros x y Hx Hxy. apply Hst. apply in_app_or in Hx as [Hx|[<-|[]]]; [left; now apply (Hc x)|].
        assert (Hy : In y U).
        { apply (HU s); [|auto]. apply Hin. rewrite !in_app_iff. cbn. tauto. }
        apply Hin in Hy. rewrite app_assoc in Hy. apply in_app_or in Hy as [Hy|Hy]; auto.
  Qed.

  Variable pop : nat -> list string -> string * list string.
  Hypothesis Hpop : pops pop.
  Lemma components_ok fuel : forall unseen, NoDup unseen -> length unseen <= fuel ->
    (forall x, In x unseen -> has g x) -> (forall x y, In x unseen -> adj x y -> In y unseen) ->
    exists cs, components fuel pop g unseen = Ok cs /\ NoDup (concat cs) /\
      (forall x, In x (concat cs) <-> In x unseen) /\
      forall c, In c cs -> c <> [] /\ forall x y, In x c -> In y c <-> joined x y.
  Proof.
    induction fuel as [|fuel IH]; intros unseen Hd Hf Hh Hc.
    - destruct unseen; [|cbn in Hf; lia]. exists []. cbn. split; [auto|]. split; [constructor|]. split; [tauto|]. intros c [].
    - cbn [components]. destruct unseen as [|x0 u0] eqn:Eu.
      + exists []. cbn. split; [auto|]. split; [constructor|]. split; [tauto|]. intros c [].
      + rewrite <- Eu in *. assert (Hne : unseen <> []) by (rewrite Eu; discriminate). clear Eu.
        pose proof (Hpop (S fuel) unseen Hne) as Hp. destruct (pop (S fuel) unseen) as [x rest].
        assert (Hd' : NoDup (x :: rest)) by (eapply Permutation_NoDup; [symmetry; exact Hp|auto]).
        assert (Hin : forall y, In y (x :: rest) <-> In y unseen).
        { intros y. split; apply Permutation_in; auto. now symmetry. }
        destruct (component_ok unseen x Hc (length (nodes g)) [] [x] rest) as (c & un & E & N1 & I1 & J1 & C1); auto.
        { intros y [<-|[]]. apply rt_refl. } { now left. } { intros z y []. }
        rewrite E. cbn [bind].
        assert (Hx : In x c) by (apply J1, rt_refl).
        assert (Hl : length un < length unseen).
        { assert (Hp2 : Permutation (c ++ un) unseen) by (apply NoDup_Permutation; auto).
          apply Permutation_length in Hp2. rewrite app_length in Hp2. destruct c; [contradiction|]. cbn in Hp2. lia. }
        assert (Nun : NoDup un).
        { clear -N1. induction c; cbn in N1; [auto|inversion N1; auto]. }
        destruct (IH un) as (cs & Ecs & N2 & I2 & J2); auto.
        { lia. } { intros y Hy. apply Hh, I1, in_or_app. auto. }
        rewrite Ecs. cbn [bind]. exists (c :: cs). split; [auto|]. cbn [concat]. split; [|split].
        * apply NoDup_app_disjoint; [now apply NoDup_app_l in N1|auto|]. intros y Hy Hyc. apply I2 in Hyc.
          clear -N1 Hy Hyc. induction c as [|z c IHc]; [contradiction|]. cbn in N1. inversion N1 as [|? ? X Y]; subst.
          destruct Hy as [->|Hy]; [apply X, in_or_app; auto|auto].
        * intros y. rewrite in_app_iff, I2, <- in_app_iff. apply I1.
        * intros d [<-|Hd2]; [|now apply J2]. split; [intros ->; contradiction|]. intros y z Hy. apply J1 in Hy.
          rewrite J1. split; intros Hz; eapply rt_trans; eauto. now apply joined_sym.
  Qed.
  Lemma weak_components_ok : exists cs, get_weakly_connected_components pop g = Ok cs /\ NoDup (concat cs) /\
    (forall x, In x (concat cs) <-> has g x) /\
    forall c, In c cs -> c <> [] /\ forall x y, In x c -> In y c <-> connected0 adj x y.
  Proof.
    unfold get_weakly_connected_components.
    destruct (components_ok (length (nodes g)) (keys (nodes g))) as (cs & E & N & I & J); auto.
    - apply W. - unfold keys. now rewrite map_length. - intros x y _ Hxy. now apply adj_has in Hxy.
    - exists cs. split; [auto|]. split; [auto|]. split; [auto|]. intros c Hc. destruct (J c Hc) as [H1 H2].
      split; [auto|]. intros x y Hx. rewrite connected0_trans. now apply H2.
  Qed.

  Lemma largest_fold (cs : list (list string)) : forall b n, n = length b ->
    let '(best, m) := fold_left (fun '(best, n) c => if n <? length c then (c, length c) else (best, n)) cs (b, n) in
    m = length best /\ (best = b \/ In best cs) /\ forall c, c = b \/ In c cs -> length c <= length best.
  Proof.
    induction cs as [|c cs IH]; intros b n Hn; cbn [fold_left].
    - split; [auto|]. split; [auto|]. intros c [->|[]]. auto.
    - destruct (Nat.ltb_spec n (length c)) as [L|L].
      + specialize (IH c (length c) eq_refl). destruct (fold_left _ cs _) as [best m]. destruct IH as (H1 & H2 & H3).
        split; [auto|]. split; [right; destruct H2; [left|right]; auto|]. intros d [->|[<-|Hd]].
        * specialize (H3 c (or_introl eq_refl)). lia.
        * auto. * auto.
      + specialize (IH b n Hn). destruct (fold_left _ cs _) as [best m]. destruct IH as (H1 & H2 & H3).
        split; [auto|]. split; [destruct H2; auto; right; now right|]. intros d [->|[<-|Hd]]; auto.
        specialize (H3 b (or_introl eq_refl)). lia.
  Qed.
  Lemma largest_component_ok ord : (forall s, Permutation (ord s) s) ->
    exists g' cs best, get_weakly_connected_components pop g = Ok cs /\ largest_component ord pop g = Ok g' /\ wf g' /\
      (In best cs \/ (cs = [] /\ best = [])) /\ (forall c, In c cs -> length c <= length best) /\
      (forall x, has g' x <-> In x best) /\
      (forall x y c, cnt g' x y = Some c <-> cnt g x y = Some c /\ In x best /\ In y best).
  Proof.
    intros Hord. destruct weak_components_ok as (cs & E & N & I & J). unfold largest_component. rewrite E. cbn [bind].
    pose proof (largest_fold cs [] 0 eq_refl) as Hl. destruct (fold_left _ cs ([], 0)) as [best m]. cbn [fst].
    destruct Hl as (_ & Hb & Hmax). destruct (select_nodes_ok ord Hord best g W) as (g' & E' & W' & H' & C').
    exists g', cs, best. split; [auto|]. split; [auto|]. split; [auto|]. split; [|split; [auto|split; [|auto]]].
    - destruct Hb as [->|Hb]; [|auto]. destruct cs as [|c cs]; [auto|]. exfalso.
      specialize (Hmax c (or_intror (or_introl eq_refl))). destruct (J c (or_introl eq_refl)) as [Hc _].
      destruct c; [auto|cbn in Hmax; lia].
    - intros x. rewrite H'. split; [tauto|]. intros Hx. split; [|auto]. apply I.
      destruct Hb as [->|Hb]; [contradiction|]. apply in_concat. eauto.
  Qed.
End Comp.
