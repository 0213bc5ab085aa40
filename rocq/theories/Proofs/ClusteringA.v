(** k-medoid clustering *)
From Coq Require Import QArith Permutation.
From Verif.Model Require Import Base LogNoise Clustering.
From Verif.Lib Require Import ListLib.
From Verif.Proofs Require Import LogNoise.
Open Scope list_scope.
Open Scope nat_scope.

Section Best.
Variable better : Q -> Q -> bool.
Hypothesis irrefl : forall x, better x x = false.
Hypothesis trans : forall x y z, better x y = true -> better y z = true -> better x z = true.
Hypothesis ntrans : forall x y z, better x y = false -> better y z = false -> better x z = false.
Definition is_best (l : list Q) (b : nat) (v : Q) : Prop :=
  nth_error l b = Some v /\ (forall j y, nth_error l j = Some y -> better y v = false) /\
  (forall j y, j < b -> nth_error l j = Some y -> better v y = true).
Lemma best_from_ok l2 : forall l1 best bi, is_best l1 bi best -> exists v, is_best (l1 ++ l2) (best_from better best bi (length l1) l2) v.
Proof.
  induction l2 as [|x l2 IH]; intros l1 best bi H; cbn [best_from].
  - rewrite app_nil_r. eauto.
  - assert (La : length l1 + 1 = length (l1 ++ [x])) by (rewrite app_length; auto).
    replace (l1 ++ x :: l2) with ((l1 ++ [x]) ++ l2) by (rewrite <- app_assoc; auto). rewrite La.
    destruct H as (Hb & H1 & H2). assert (Hlt : bi < length l1) by (apply nth_error_Some; congruence).
    assert (Sn : forall j y, nth_error (l1 ++ [x]) j = Some y -> nth_error l1 j = Some y \/ (j = length l1 /\ y = x)).
    { intros j y Hj. destruct (Nat.lt_ge_cases j (length l1)).
      - rewrite nth_error_app1 in Hj by auto. auto.
      - rewrite nth_error_app2 in Hj by auto. destruct (j - length l1) eqn:Ej; cbn in Hj; [right; split; [lia|congruence]|].
        destruct n; discriminate. }
    destruct (better x best) eqn:Ex; apply IH.
    + assert (Hx : nth_error (l1 ++ [x]) (length l1) = Some x) by (rewrite nth_error_app2, Nat.sub_diag by lia; auto).
      split; [auto|]. split.
      * intros j y Hj. apply Sn in Hj. destruct Hj as [Hj|[_ ->]]; [|auto].
        destruct (better y x) eqn:Ey; [|auto]. assert (better y best = true) by (eapply trans; eauto). specialize (H1 _ _ Hj). congruence.
      * intros j y Hl Hj. rewrite nth_error_app1 in Hj by auto.
        destruct (better x y) eqn:Ey; [auto|]. specialize (H1 _ _ Hj). assert (better x best = false) by (eapply ntrans; eauto). congruence.
    + split; [rewrite nth_error_app1; auto|]. split.
      * intros j y Hj. apply Sn in Hj. destruct Hj as [Hj|[_ ->]]; eauto.
      * intros j y Hl Hj. rewrite nth_error_app1 in Hj by lia. eauto.
Qed.
Lemma argbest_ok l : l <> [] -> exists v, is_best l (argbest better l) v.
Proof.
  destruct l as [|x l]; [congruence|]. intros _. apply (best_from_ok l [x] x 0). split; [auto|]. split.
  - intros [|[|j]] y E; cbn in E; try discriminate. injection E as <-. auto.
  - intros j y Hj. lia.
Qed.
End Best.
Lemma lt_irrefl x : Qlt_bool x x = false.
Proof. apply Qlt_bool_false. apply Qle_refl. Qed.
Lemma lt_trans x y z : Qlt_bool x y = true -> Qlt_bool y z = true -> Qlt_bool x z = true.
Proof. rewrite !Qlt_bool_iff. apply Qlt_trans. Qed.
Lemma lt_ntrans x y z : Qlt_bool x y = false -> Qlt_bool y z = false -> Qlt_bool x z = false.
Proof. rewrite !Qlt_bool_false. intros. eapply Qle_trans; eauto. Qed.
Lemma argmin_ok l : l <> [] -> exists v, nth_error l (argmin l) = Some v /\ (forall j y, nth_error l j = Some y -> (v <= y)%Q) /\
  forall j y, j < argmin l -> nth_error l j = Some y -> (v < y)%Q.
Proof.
  intros Hl. destruct (argbest_ok Qlt_bool lt_irrefl lt_trans lt_ntrans l Hl) as (v & H1 & H2 & H3). exists v. split; [exact H1|]. split.
  - intros j y Hj. apply Qlt_bool_false. eauto.
  - intros j y Hj Hy. apply Qlt_bool_iff. eauto.
Qed.
Lemma argmax_ok l : l <> [] -> exists v, nth_error l (argmax l) = Some v /\ (forall j y, nth_error l j = Some y -> (y <= v)%Q) /\
  forall j y, j < argmax l -> nth_error l j = Some y -> (y < v)%Q.
Proof.
  intros Hl. destruct (argbest_ok (fun x y => Qlt_bool y x) lt_irrefl) with (l := l) as (v & H1 & H2 & H3); auto.
  - intros x y z A B. eapply lt_trans; eauto.
  - intros x y z A B. eapply lt_ntrans; eauto.
  - exists v. split; [exact H1|]. split.
    + intros j y Hj. apply Qlt_bool_false. exact (H2 j y Hj).
    + intros j y Hj Hy. apply Qlt_bool_iff. exact (H3 j y Hj Hy).
Qed.

Lemma argwhere_In i ms p : In p (argwhere i ms) <-> nth_error ms p = Some i.
Proof.
  unfold argwhere. rewrite filter_In, in_seq, Nat.eqb_eq. split.
  - intros [Hp <-]. apply nth_error_nth'. lia.
  - intros H. split; [|apply nth_error_nth; auto]. split; [lia|]. apply nth_error_Some. congruence.
Qed.
Lemma nth_error_combine {X Y} (l : list X) (k : list Y) i x y : nth_error l i = Some x -> nth_error k i = Some y -> nth_error (combine l k) i = Some (x, y).
Proof. revert k i. induction l as [|a l IH]; intros [|b k] [|i]; cbn; try discriminate; [congruence|apply IH]. Qed.
Lemma nth_error_seq s n i : i < n -> nth_error (seq s n) i = Some (s + i).
Proof. intros H. rewrite (nth_error_nth' _ 0) by (rewrite seq_length; auto). rewrite seq_nth; auto. Qed.

Section Medoid.
Variable m : list (list Q).
Let sum j := Qsum (column m j).
Lemma recompute_center_ok c ps : let r := recompute_center m c ps in
  (r = c \/ (In r ps /\ (sum r < sum c)%Q)) /\ (sum r <= sum c)%Q /\ forall p, In p ps -> (sum r <= sum p)%Q.
Proof.
  assert (G : forall ps c, exists r, fold_left (fun '(s, c) p => let s' := Qsum (column m p) in if Qlt_bool s' s then (s', p) else (s, c)) ps (sum c, c) = (sum r, r) /\
    (r = c \/ (In r ps /\ (sum r < sum c)%Q)) /\ (sum r <= sum c)%Q /\ forall p, In p ps -> (sum r <= sum p)%Q).
  { clear. induction ps as [|p ps IH]; intros c.
    - exists c. cbn [fold_left]. split; [auto|]. split; [auto|]. split; [apply Qle_refl|]. intros p [].
    - cbn [fold_left]. cbv zeta in IH |- *. change (Qsum (column m p)) with (sum p). destruct (Qlt_bool (sum p) (sum c)) eqn:E.
      + destruct (IH p) as (r & -> & H1 & H2 & H3). apply Qlt_bool_iff in E. assert (sum r < sum c)%Q by (eapply Qle_lt_trans; eauto).
        exists r. split; [auto|]. split; [right; split; [|auto]; destruct H1 as [->|[? _]]; cbn; auto|]. split; [apply Qlt_le_weak; auto|].
        intros q [<-|Hq]; auto.
      + destruct (IH c) as (r & -> & H1 & H2 & H3). apply Qlt_bool_false in E. exists r. split; [auto|]. split; [cbn; tauto|]. split; [auto|].
        intros q [<-|Hq]; [eapply Qle_trans; eauto|auto]. }
  destruct (G ps c) as (r & E & H). assert (R : recompute_center m c ps = r).
  { unfold recompute_center. exact (f_equal snd E). }
  cbv zeta. rewrite R. exact H.
Qed.
Lemma recompute_length cs ms : length (recompute_cluster_centers m cs ms) = length cs.
Proof. unfold recompute_cluster_centers. rewrite map_length, combine_length, seq_length. lia. Qed.
Lemma recompute_nth cs ms i c : nth_error cs i = Some c ->
  nth_error (recompute_cluster_centers m cs ms) i = Some (recompute_center m c (argwhere i ms)).
Proof.
  intros H. unfold recompute_cluster_centers. assert (Hi : i < length cs) by (apply nth_error_Some; congruence).
  erewrite map_nth_error; [|apply nth_error_combine; [apply (nth_error_seq 0); auto|exact H]]. auto.
Qed.
(** rank of a column sum *)
Variable n : nat.
Definition rank (c : nat) : nat := length (filter (fun j => Qlt_bool (sum j) (sum c)) (seq 0 n)).
Lemma filter_len_le {X} (f g : X -> bool) l : (forall x, f x = true -> g x = true) -> length (filter f l) <= length (filter g l).
Proof.
  intros H. induction l as [|x l IH]; cbn; [lia|]. specialize (H x). destruct (f x), (g x); cbn; try lia.
Qed.
Lemma rank_le c c' : (sum c <= sum c')%Q -> rank c <= rank c'.
Proof. intros H. apply filter_len_le. intros j. rewrite !Qlt_bool_iff. intros. eapply Qlt_le_trans; eauto. Qed.
Lemma filter_len_lt {X} (f g : X -> bool) l y : (forall x, f x = true -> g x = true) -> In y l -> f y = false -> g y = true -> length (filter f l) < length (filter g l).
Proof.
  intros H Hy Hf Hg. apply in_split in Hy. destruct Hy as (a & b & ->). rewrite !filter_app, !app_length. cbn. rewrite Hf, Hg. cbn.
  pose proof (filter_len_le f g a H). pose proof (filter_len_le f g b H). lia.
Qed.
Lemma rank_lt c c' : c < n -> (sum c < sum c')%Q -> rank c < rank c'.
Proof.
  intros Hc H. apply (filter_len_lt _ _ _ c).
  - intros j. rewrite !Qlt_bool_iff. intros. eapply Qlt_trans; eauto.
  - apply in_seq. lia.
  - apply lt_irrefl.
  - apply Qlt_bool_iff. auto.
Qed.
Definition mu (cs : list nat) : nat := list_sum (map rank cs).
Lemma rank_bound c : rank c <= n.
Proof.
  unfold rank. etransitivity; [apply (filter_len_le _ (fun _ => true)); auto|].
  assert (E : forall l : list nat, filter (fun _ => true) l = l) by (induction l; cbn; congruence). rewrite E, seq_length. auto.
Qed.
Lemma mu_bound cs : mu cs <= length cs * n.
Proof. unfold mu. induction cs as [|c cs IH]; cbn; [auto|]. pose proof (rank_bound c). fold (list_sum (map rank cs)). lia. Qed.
Lemma mu_step cs ms : length ms = n -> (forall c, In c cs -> c < n) ->
  let cs' := recompute_cluster_centers m cs ms in
  cs' = cs \/ mu cs' < mu cs.
Proof.
  intros Hms Hc. cbv zeta. unfold recompute_cluster_centers, mu. generalize 0 as s. induction cs as [|c cs IH]; intros s; cbn; [auto|].
  assert (Hcs : forall c, In c cs -> c < n) by (intros; apply Hc; cbn; auto).
  set (r := recompute_center m c (argwhere s ms)). set (cs' := map _ (combine (seq (S s) (length cs)) cs)).
  pose proof (recompute_center_ok c (argwhere s ms)) as (H1 & H2 & _). fold r in H1, H2. pose proof (rank_le _ _ H2) as Hr.
  assert (Hr' : r = c \/ rank r < rank c).
  { destruct H1 as [->|[Hin Hlt]]; [auto|]. right. apply rank_lt; [|auto]. apply argwhere_In in Hin. rewrite <- Hms. apply nth_error_Some. congruence. }
  fold (list_sum (map rank cs')). fold (list_sum (map rank cs)). 
  destruct (IH Hcs (S s)) as [Q|Q]; fold cs' in Q.
  - destruct Hr' as [->|Hr']; [left; congruence|right; rewrite Q; lia].
  - right. lia.
Qed.
Lemma recompute_bound cs ms : length ms = n -> (forall c, In c cs -> c < n) -> forall c, In c (recompute_cluster_centers m cs ms) -> c < n.
Proof.
  intros Hms Hc c Hin. apply In_nth_error in Hin. destruct Hin as (i & Hi).
  assert (Hl : i < length cs) by (rewrite <- (recompute_length cs ms); apply nth_error_Some; congruence).
  destruct (nth_error cs i) as [c0|] eqn:E; [|apply nth_error_None in E; lia].
  rewrite (recompute_nth cs ms i c0 E) in Hi. injection Hi as <-.
  destruct (recompute_center_ok c0 (argwhere i ms)) as ([->|[Hin _]] & _).
  - apply Hc. eapply nth_error_In; eauto.
  - apply argwhere_In in Hin. rewrite <- Hms. apply nth_error_Some. congruence.
Qed.
Hypothesis Hm : length m = n.
Variable mode : bool.
Lemma memberships_length cs : length (compute_memberships mode m cs) = n.
Proof. unfold compute_memberships, columns. rewrite !map_length. auto. Qed.
(** the loop ends in a fixed point; an invariant of the centers is kept *)
Lemma loop_ok (I : list nat -> Prop) : (forall cs, (forall c, In c cs -> c < n) -> I cs -> I (recompute_cluster_centers m cs (compute_memberships mode m cs))) ->
  forall cs, (forall c, In c cs -> c < n) -> I cs -> exists cs', 
    (forall fuel, mu cs < fuel -> k_medoid_loop fuel mode m cs = Ok (compute_memberships mode m cs', cs')) /\
    length cs' = length cs /\ (forall c, In c cs' -> c < n) /\ I cs' /\
    recompute_cluster_centers m cs' (compute_memberships mode m cs') = cs'.
Proof.
  intros HI cs. remember (mu cs) as k eqn:Ek. revert cs Ek. induction k as [k IH] using lt_wf_ind. intros cs -> Hc Hi.
  set (new := recompute_cluster_centers m cs (compute_memberships mode m cs)).
  destruct (mu_step cs (compute_memberships mode m cs) (memberships_length cs) Hc) as [Q|Q]; fold new in Q.
  - exists cs. split; [|auto]. intros [|fuel] Hf; [lia|]. cbn [k_medoid_loop]. fold new. rewrite Q.
    rewrite (proj2 (eqb_eq cs cs) eq_refl). auto.
  - destruct (IH (mu new) Q new eq_refl) as (cs' & H1 & H2 & H3).
    + apply recompute_bound; [apply memberships_length|auto].
    + apply HI; auto.
    + exists cs'. split; [|split; [rewrite H2; apply recompute_length|auto]]. intros [|fuel] Hf; [lia|]. cbn [k_medoid_loop]. fold new.
      destruct (eqb new cs) eqn:E; [|apply H1; lia]. apply (proj1 (eqb_eq _ _)) in E. rewrite E in Q. lia.
Qed.
End Medoid.
