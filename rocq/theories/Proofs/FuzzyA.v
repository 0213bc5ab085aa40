(** Fuzzy clustering over the real numbers ends (C80) *)
From Coq Require Import Reals Lra Permutation.
From Verif.Model Require Import Base FuzzyReal.
From Verif.Lib Require Import ListLib.
From Verif.Spec Require Import ClusterSpec FuzzySpec.
Open Scope list_scope.
Open Scope R_scope.

Lemma Rsum_le {X} (f g : X -> R) l : (forall x, In x l -> f x <= g x) -> Rsum (map f l) <= Rsum (map g l).
Proof.
  induction l as [|x l IH]; intros H; cbn; [lra|]. specialize (IH ltac:(intros; apply H; now right)). specialize (H x (or_introl eq_refl)).
  unfold Rsum in IH. lra.
Qed.
Lemma Rsum_eq {X} (f g : X -> R) l : (forall x, In x l -> f x <= g x) -> Rsum (map g l) <= Rsum (map f l) -> forall x, In x l -> f x = g x.
Proof.
  induction l as [|x l IH]; intros H Hs y Hy; [destruct Hy|]. cbn in Hs. fold (Rsum (map f l)) in Hs. fold (Rsum (map g l)) in Hs.
  assert (Hl : forall x, In x l -> f x <= g x) by (intros; apply H; now right). pose proof (Rsum_le f g l Hl). pose proof (H x (or_introl eq_refl)).
  destruct Hy as [<-|Hy]; [lra|]. apply IH; auto. lra.
Qed.
Lemma Rsum_ext {X} (f g : X -> R) l : (forall x, In x l -> f x = g x) -> Rsum (map f l) = Rsum (map g l).
Proof. intros H. f_equal. apply map_ext_in. auto. Qed.
Lemma Rsum_plus {X} (f g : X -> R) l : Rsum (map (fun x => f x + g x) l) = Rsum (map f l) + Rsum (map g l).
Proof. induction l as [|x l IH]; cbn; [lra|]. fold (Rsum (map (fun x => f x + g x) l)). rewrite IH. unfold Rsum. lra. Qed.
Lemma Rsum_scal {X} (f : X -> R) a l : Rsum (map (fun x => a * f x) l) = a * Rsum (map f l).
Proof. induction l as [|x l IH]; cbn; [lra|]. fold (Rsum (map (fun x => a * f x) l)). rewrite IH. unfold Rsum. lra. Qed.
Lemma Rsum_zero {X} (l : list X) : Rsum (map (fun _ => 0) l) = 0.
Proof. induction l as [|x l IH]; cbn; [auto|]. fold (Rsum (map (fun _ : X => 0) l)). lra. Qed.
Lemma Rsum_swap {X Y} (f : X -> Y -> R) l l' : Rsum (map (fun x => Rsum (map (f x) l')) l) = Rsum (map (fun y => Rsum (map (fun x => f x y) l)) l').
Proof.
  induction l as [|x l IH]; cbn [map].
  - symmetry. etransitivity; [|apply (Rsum_zero l')]. reflexivity.
  - change (Rsum (Rsum (map (f x) l') :: map (fun x0 => Rsum (map (f x0) l')) l)) with (Rsum (map (f x) l') + Rsum (map (fun x0 => Rsum (map (f x0) l')) l)).
    rewrite IH, <- Rsum_plus. apply Rsum_ext. intros y _. reflexivity.
Qed.
Lemma Rsum_pos {X} (f : X -> R) l : l <> [] -> (forall x, 0 < f x) -> 0 < Rsum (map f l).
Proof.
  intros Hne H. destruct l as [|x l]; [congruence|]. cbn. fold (Rsum (map f l)). assert (0 <= Rsum (map f l)).
  { rewrite <- (Rsum_zero l). apply Rsum_le. intros. left. auto. }
  specialize (H x). lra.
Qed.
Lemma exp_tangent x A : exp A * (1 + (x - A)) <= exp x /\ (exp x <= exp A * (1 + (x - A)) -> x = A).
Proof.
  assert (E : exp x = exp A * exp (x - A)) by (rewrite <- exp_plus; f_equal; lra). rewrite E. pose proof (exp_pos A).
  destruct (Req_dec x A) as [->|Hn].
  - rewrite Rminus_diag_eq by auto. rewrite exp_0. split; [lra|auto].
  - assert (1 + (x - A) < exp (x - A)) by (apply exp_ineq1; lra). split; [left; apply Rmult_lt_compat_l; auto|]. intros H1.
    apply Rmult_le_reg_l in H1; [lra|auto].
Qed.
(** Jensen's inequality for sums of exponentials, with its case of equality *)
Lemma jensen {X} (x y : X -> R) l : l <> [] ->
  let s := Rsum (map (fun j => exp (x j)) l) in let s' := Rsum (map (fun j => exp (y j)) l) in
  let a := Rsum (map (fun j => exp (x j) / s * (y j - x j)) l) in
  ln s + a <= ln s' /\ (ln s' <= ln s + a -> forall j, In j l -> exp (y j) / s' = exp (x j) / s).
Proof.
  intros Hne s s' a. assert (Ps : 0 < s) by (apply Rsum_pos; [auto|intros; apply exp_pos]). assert (Ps' : 0 < s') by (apply Rsum_pos; [auto|intros; apply exp_pos]).
  set (low := fun j => exp (x j) * (exp a * (1 + (y j - x j - a)))).
  assert (H : forall j, In j l -> low j <= exp (y j)).
  { intros j _. unfold low. replace (y j) with (x j + (y j - x j)) at 2 by lra. rewrite exp_plus. apply Rmult_le_compat_l; [left; apply exp_pos|].
    apply (proj1 (exp_tangent (y j - x j) a)). }
  assert (L : Rsum (map low l) = exp a * s).
  { transitivity (Rsum (map (fun j => exp a * s * (exp (x j) / s * (y j - x j)) + exp a * (1 - a) * exp (x j)) l)).
    - apply Rsum_ext. intros j _. unfold low. field. lra.
    - rewrite Rsum_plus, !Rsum_scal. fold a. fold s. ring. }
  assert (B : exp a * s <= s') by (rewrite <- L; apply Rsum_le; auto).
  assert (LN : ln (exp a * s) = ln s + a) by (rewrite ln_mult by (auto; apply exp_pos); rewrite ln_exp; lra).
  split.
  - rewrite <- LN. destruct B as [B|B]; [left; apply ln_increasing; auto; apply Rmult_lt_0_compat; auto; apply exp_pos|rewrite B; lra].
  - intros Hle j Hj. assert (Eq : s' = exp a * s).
    { destruct B as [B|B]; [|auto]. exfalso. assert (0 < exp a * s) by (apply Rmult_lt_0_compat; auto; apply exp_pos). apply ln_increasing in B; auto. lra. }
    assert (Hj' := Rsum_eq low (fun j => exp (y j)) l H ltac:(fold s'; rewrite L; lra) j Hj). unfold low in Hj'.
    assert (y j - x j = a).
    { apply (proj2 (exp_tangent (y j - x j) a)). right. apply Rmult_eq_reg_l with (exp (x j)); [|pose proof (exp_pos (x j)); lra].
      rewrite Hj'. rewrite <- exp_plus. f_equal. lra. }
    rewrite Eq. replace (y j) with (x j + a) by lra. rewrite exp_plus. field. split; [lra|]. pose proof (exp_pos a). lra.
Qed.
(** argmin *)
Lemma best_from_ok l : forall best bi i, let r := best_from best bi i l in
  (r = bi /\ (forall k v, nth_error l k = Some v -> best <= v)) \/
  (exists k v, r = (i + k)%nat /\ nth_error l k = Some v /\ v < best /\ forall k' v', nth_error l k' = Some v' -> v <= v').
Proof.
  induction l as [|x l IH]; intros best bi i; cbn [best_from].
  - left. split; [auto|]. intros [|k] v H; discriminate.
  - destruct (Rlt_dec x best) as [H|H].
    + destruct (IH x i (i + 1)%nat) as [[E1 E2]|(k & v & E1 & E2 & E3 & E4)].
      * right. exists 0%nat, x. split; [rewrite E1; lia|]. split; [auto|]. split; [auto|]. intros [|k'] v' E; [injection E as <-; lra|eauto].
      * right. exists (S k), v. split; [rewrite E1; lia|]. split; [auto|]. split; [lra|]. intros [|k'] v' E; [injection E as <-; lra|eauto].
    + destruct (IH best bi (i + 1)%nat) as [[E1 E2]|(k & v & E1 & E2 & E3 & E4)].
      * left. split; [auto|]. intros [|k'] v' E; [injection E as <-; lra|eauto].
      * right. exists (S k), v. split; [rewrite E1; lia|]. split; [auto|]. split; [auto|]. intros [|k'] v' E; [injection E as <-; lra|eauto].
Qed.
Lemma argmin_ok l : l <> [] -> exists v, nth_error l (argmin l) = Some v /\ forall k v', nth_error l k = Some v' -> v <= v'.
Proof.
  destruct l as [|x l]; [congruence|]. intros _. cbn [argmin]. destruct (best_from_ok l x 0 1) as [[E1 E2]|(k & v & E1 & E2 & E3 & E4)]; rewrite E1.
  - exists x. split; [auto|]. intros [|k] v' E; [injection E as <-; lra|eauto].
  - exists v. split; [auto|]. intros [|k'] v' E; [injection E as <-; lra|eauto].
Qed.
Lemma dot_nth x y : length x = length y -> dot x y = Rsum (map (fun j => nth j x 0 * nth j y 0) (seq 0 (length y))).
Proof.
  unfold dot. revert y. induction x as [|a x IH]; intros [|b y] L; cbn in L; try discriminate; [auto|].
  cbn [combine map length seq]. cbn [Rsum fold_right]. fold (Rsum (map (fun '(a, b) => a * b) (combine x y))). rewrite IH by lia.
  rewrite <- seq_shift, map_map. reflexivity.
Qed.

Section T.
Variables (lam : R) (m : list (list R)).
Hypothesis Hlam : 0 < lam.
Let n := length m.
Notation u cs := (membership_matrix lam m cs).
Definition W (cs cs' : list nat) : R := objective (u cs) (columns m cs').
Definition S0 (row : list R) (cs : list nat) : R := Rsum (map (fun t => exp (- nth t row 0 / lam)) cs).
Definition Phi (cs : list nat) : R := Rsum (map (fun row => ln (S0 row cs)) m).
Lemma W_rows cs cs' : W cs cs' = Rsum (map (fun row => dot (membership_row lam row cs) (map (fun j => nth j row 0) cs')) m).
Proof.
  unfold W, objective, membership_matrix, columns. induction m as [|r l IH]; cbn [map combine]; [auto|]. cbn [Rsum fold_right].
  unfold Rsum in IH. rewrite IH. auto.
Qed.
Lemma mrow_length row cs : length (membership_row lam row cs) = length cs.
Proof. unfold membership_row. apply map_length. Qed.
Lemma nth_map_c (f : nat -> R) cs j : (j < length cs)%nat -> nth j (map f cs) 0 = f (nth j cs 0%nat).
Proof. intros H. rewrite (nth_indep _ 0 (f 0%nat)) by (rewrite map_length; auto). apply map_nth. Qed.
Lemma row_step row cs cs' : cs <> [] -> length cs' = length cs ->
  ln (S0 row cs) + (dot (membership_row lam row cs) (map (fun j => nth j row 0) cs) - dot (membership_row lam row cs) (map (fun j => nth j row 0) cs')) / lam
     <= ln (S0 row cs') /\
  (ln (S0 row cs') <= ln (S0 row cs) + (dot (membership_row lam row cs) (map (fun j => nth j row 0) cs) - dot (membership_row lam row cs) (map (fun j => nth j row 0) cs')) / lam ->
     membership_row lam row cs' = membership_row lam row cs).
Proof.
  intros Hne L. set (l := seq 0 (length cs)). set (x := fun j => - nth (nth j cs 0%nat) row 0 / lam). set (y := fun j => - nth (nth j cs' 0%nat) row 0 / lam).
  assert (Sx : forall cs0, length cs0 = length cs -> S0 row cs0 = Rsum (map (fun j => exp (- nth (nth j cs0 0%nat) row 0 / lam)) l)).
  { intros cs0 L0. unfold S0. f_equal. apply nth_ext with 0 0; rewrite !map_length; [unfold l; rewrite seq_length; auto|]. intros i Hi.
    rewrite nth_map_c by auto. rewrite nth_map_c by (unfold l; rewrite seq_length; lia). unfold l. rewrite seq_nth by lia. auto. }
  assert (Hl : l <> []) by (unfold l; destruct cs; [congruence|discriminate]).
  destruct (jensen x y l Hl) as [J1 J2].
  assert (Ex : Rsum (map (fun j => exp (x j)) l) = S0 row cs) by (symmetry; apply (Sx cs eq_refl)).
  assert (Ey : Rsum (map (fun j => exp (y j)) l) = S0 row cs') by (symmetry; apply (Sx cs' L)). rewrite Ex, Ey in J1, J2.
  assert (P : 0 < S0 row cs) by (apply Rsum_pos; [auto|intros; apply exp_pos]).
  assert (D : (dot (membership_row lam row cs) (map (fun j => nth j row 0) cs) - dot (membership_row lam row cs) (map (fun j => nth j row 0) cs')) / lam
      = Rsum (map (fun j => exp (x j) / S0 row cs * (y j - x j)) l)).
  { rewrite !dot_nth by (rewrite mrow_length, map_length; auto). rewrite !map_length, L. fold l.
    transitivity (/ lam * (Rsum (map (fun j => nth j (membership_row lam row cs) 0 * nth j (map (fun j0 => nth j0 row 0) cs) 0) l) + -1 * Rsum (map (fun j => nth j (membership_row lam row cs) 0 * nth j (map (fun j0 => nth j0 row 0) cs') 0) l))); [unfold Rdiv; ring|].
    rewrite <- Rsum_scal, <- Rsum_plus, <- Rsum_scal. apply Rsum_ext. intros j Hj. apply in_seq in Hj.
    rewrite !(nth_map_c (fun j0 => nth j0 row 0)) by lia. unfold membership_row. rewrite nth_map_c by lia. fold (S0 row cs). unfold x, y. field. lra. }
  rewrite D. split; [exact J1|]. intros H. specialize (J2 H). unfold membership_row.
  apply nth_ext with 0 0; rewrite !map_length; [auto|]. intros j Hj. rewrite !nth_map_c by lia.
  fold (S0 row cs) (S0 row cs'). apply J2. apply in_seq. lia.
Qed.
Lemma step_up cs cs' : cs <> [] -> length cs' = length cs ->
  Phi cs + (W cs cs - W cs cs') / lam <= Phi cs' /\ (Phi cs' <= Phi cs + (W cs cs - W cs cs') / lam -> W cs' cs' = W cs cs').
Proof.
  intros Hne L. set (g := fun row => ln (S0 row cs) + (dot (membership_row lam row cs) (map (fun j => nth j row 0) cs) - dot (membership_row lam row cs) (map (fun j => nth j row 0) cs')) / lam).
  assert (G : Phi cs + (W cs cs - W cs cs') / lam = Rsum (map g m)).
  { unfold g. rewrite Rsum_plus. fold (Phi cs). f_equal. rewrite !W_rows.
    transitivity (/ lam * (Rsum (map (fun row => dot (membership_row lam row cs) (map (fun j => nth j row 0) cs)) m) + -1 * Rsum (map (fun row => dot (membership_row lam row cs) (map (fun j => nth j row 0) cs')) m))); [unfold Rdiv; ring|].
    rewrite <- Rsum_scal, <- Rsum_plus, <- Rsum_scal. apply Rsum_ext. intros r _. unfold Rdiv. ring. }
  rewrite G. split.
  - apply Rsum_le. intros r _. apply row_step; auto.
  - intros H. rewrite !W_rows. apply Rsum_ext. intros r Hr. f_equal. apply row_step; auto. right. symmetry.
    apply (Rsum_eq g (fun row => ln (S0 row cs')) m); auto. intros r' _. apply row_step; auto.
Qed.
Lemma W_columns cs cs' : length cs' = length cs -> W cs cs' = Rsum (map (fun j => dot (column (u cs) j) (column m (nth j cs' 0%nat))) (seq 0 (length cs))).
Proof.
  intros L. rewrite W_rows.
  transitivity (Rsum (map (fun row => Rsum (map (fun j => nth j (membership_row lam row cs) 0 * nth (nth j cs' 0%nat) row 0) (seq 0 (length cs)))) m)).
  - apply Rsum_ext. intros r _. rewrite dot_nth by (rewrite mrow_length, map_length; auto). rewrite map_length, L. apply Rsum_ext. intros j Hj. apply in_seq in Hj.
    rewrite nth_map_c by lia. auto.
  - rewrite Rsum_swap. apply Rsum_ext. intros j _. unfold dot, column, membership_matrix. f_equal. rewrite map_map.
    generalize (nth j cs' 0%nat) as c. intros c. clear. induction m as [|r l IH]; cbn [map combine]; [auto|]. f_equal. exact IH.
Qed.
Definition next (cs : list nat) : list nat := recompute_cluster_centers (u cs) m (length cs).
Lemma next_length cs : length (next cs) = length cs.
Proof. unfold next, recompute_cluster_centers. rewrite map_length, seq_length. auto. Qed.
Lemma next_nth cs j : (j < length cs)%nat -> nth j (next cs) 0%nat = argmin (map (fun p => dot (column (u cs) j) (column m p)) (seq 0 n)).
Proof.
  intros H. unfold next, recompute_cluster_centers. fold n.
  set (f := fun j0 => argmin (map (fun p => dot (column (u cs) j0) (column m p)) (seq 0 n))).
  rewrite (nth_indep _ 0%nat (f 0%nat)) by (rewrite map_length, seq_length; auto). rewrite (map_nth f). rewrite seq_nth by auto. auto.
Qed.
Lemma next_best cs j : (0 < n)%nat -> (j < length cs)%nat -> (nth j (next cs) 0%nat < n)%nat /\ forall p, (p < n)%nat ->
  dot (column (u cs) j) (column m (nth j (next cs) 0%nat)) <= dot (column (u cs) j) (column m p).
Proof.
  intros Hn Hj. rewrite next_nth by auto. set (vs := map (fun p => dot (column (u cs) j) (column m p)) (seq 0 n)).
  assert (Hv : forall q, (q < n)%nat -> nth_error vs q = Some (dot (column (u cs) j) (column m q))).
  { intros q Hq. unfold vs. rewrite nth_error_map. rewrite (nth_error_nth' _ 0%nat) by (rewrite seq_length; auto). rewrite seq_nth by auto. auto. }
  destruct (argmin_ok vs) as (v & H1 & H2). { intros X. specialize (Hv 0%nat Hn). rewrite X in Hv. discriminate. }
  assert (La : (argmin vs < n)%nat). { rewrite <- (seq_length n 0). rewrite <- (map_length (fun p => dot (column (u cs) j) (column m p))). apply nth_error_Some. fold vs. congruence. }
  split; [auto|]. intros p Hp. rewrite (Hv _ La) in H1. injection H1 as <-. apply (H2 p). auto.
Qed.
Lemma next_bound cs : (0 < n)%nat -> forall c, In c (next cs) -> (c < n)%nat.
Proof.
  intros Hn c Hc. apply (In_nth _ _ 0%nat) in Hc as (j & Hj & <-). rewrite next_length in Hj. apply next_best; auto.
Qed.
Lemma W_next cs : (forall c, In c cs -> (c < n)%nat) -> W cs (next cs) <= W cs cs.
Proof.
  intros Hb. rewrite !W_columns by (auto using next_length). apply Rsum_le. intros j Hj. apply in_seq in Hj.
  assert (Hc : (nth j cs 0 < n)%nat) by (apply Hb; apply nth_In; lia). apply next_best; auto; lia.
Qed.
(** a round that does not end the search increases [Phi] *)
Lemma isclose_refl a : isclose a a = true.
Proof. unfold isclose. destruct (Rle_dec _ _) as [|H]; [auto|]. exfalso. apply H. rewrite Rminus_diag_eq by auto. rewrite Rabs_R0. pose proof (Rabs_pos a). lra. Qed.
Lemma increases cs : cs <> [] -> (forall c, In c cs -> (c < n)%nat) ->
  isclose (W (next cs) (next cs)) (W cs cs) = true \/ Phi cs < Phi (next cs).
Proof.
  intros Hne Hb. destruct (step_up cs (next cs) Hne (next_length cs)) as [H1 H2]. pose proof (W_next cs Hb) as H3.
  assert (H4 : 0 <= (W cs cs - W cs (next cs)) / lam) by (apply Rmult_le_pos; [lra|left; apply Rinv_0_lt_compat; auto]).
  destruct (Rlt_dec (Phi cs) (Phi (next cs))) as [|H]; [auto|]. left.
  assert (E0 : (W cs cs - W cs (next cs)) / lam = 0) by lra.
  assert (E1 : W cs cs = W cs (next cs)). { apply Rmult_integral in E0 as [E0|E0]; [lra|]. pose proof (Rinv_0_lt_compat lam Hlam). lra. }
  rewrite H2 by lra. rewrite <- E1. apply isclose_refl.
Qed.
(** the tuples of medoids *)
Fixpoint tuples (k : nat) : list (list nat) :=
  match k with O => [[]] | S k' => flat_map (fun t => map (fun c => c :: t) (seq 0 n)) (tuples k') end.
Lemma tuples_length k : length (tuples k) = (n ^ k)%nat.
Proof.
  induction k as [|k IH]; [auto|]. cbn [tuples Nat.pow]. rewrite <- IH. generalize (tuples k) as l. induction l as [|t l IHl]; cbn [flat_map length]; [lia|].
  rewrite app_length, map_length, seq_length, IHl. lia.
Qed.
Lemma tuples_all cs : (forall c, In c cs -> (c < n)%nat) -> In cs (tuples (length cs)).
Proof.
  induction cs as [|c cs IH]; intros H; cbn [length tuples]; [now left|]. apply in_flat_map. exists cs. split; [apply IH; intros; apply H; now right|].
  apply in_map_iff. exists c. split; [auto|]. apply in_seq. specialize (H c (or_introl eq_refl)). lia.
Qed.
Definition above (v : R) (t : list nat) : bool := if Rlt_dec v (Phi t) then true else false.
Definition mu (cs : list nat) : nat := length (filter (above (Phi cs)) (tuples (length cs))).
Lemma mu_le cs : (mu cs <= n ^ length cs)%nat.
Proof. unfold mu. rewrite <- tuples_length. generalize (tuples (length cs)) as l. induction l as [|t l IH]; cbn; [lia|]. destruct (above _ t); cbn; lia. Qed.
Lemma mu_less cs cs' : length cs' = length cs -> (forall c, In c cs' -> (c < n)%nat) -> Phi cs < Phi cs' -> (mu cs' < mu cs)%nat.
Proof.
  intros L Hb H. unfold mu. rewrite L. assert (Hin : In cs' (tuples (length cs))) by (rewrite <- L; apply tuples_all; auto).
  revert Hin. generalize (tuples (length cs)) as l. intros l Hin.
  assert (Im : forall t, above (Phi cs') t = true -> above (Phi cs) t = true).
  { intros t. unfold above. destruct (Rlt_dec (Phi cs') (Phi t)), (Rlt_dec (Phi cs) (Phi t)); auto. lra. }
  assert (Le : forall l, (length (filter (above (Phi cs')) l) <= length (filter (above (Phi cs)) l))%nat).
  { induction l0 as [|t l0 IH]; cbn [filter]; [lia|]. destruct (above (Phi cs') t) eqn:A; [rewrite (Im t A); cbn [length]; lia|].
    destruct (above (Phi cs) t); cbn [length]; lia. }
  induction l as [|t l IH]; [destruct Hin|]. cbn [filter]. destruct Hin as [->|Hin].
  - assert (A1 : above (Phi cs') cs' = false) by (unfold above; destruct (Rlt_dec (Phi cs') (Phi cs')); [lra|auto]).
    assert (A2 : above (Phi cs) cs' = true) by (unfold above; destruct (Rlt_dec (Phi cs) (Phi cs')); [auto|contradiction]).
    rewrite A1, A2. cbn [length]. specialize (Le l). lia.
  - specialize (IH Hin). destruct (above (Phi cs') t) eqn:A; [rewrite (Im t A); cbn [length]; lia|]. destruct (above (Phi cs) t); cbn [length]; lia.
Qed.
Lemma loop_ends : (0 < n)%nat -> forall k fuel cs, (mu cs <= k)%nat -> cs <> [] -> (forall c, In c cs -> (c < n)%nat) -> (k + 1 <= fuel)%nat ->
  exists before cs', length before = length cs /\ (forall c, In c before -> (c < n)%nat) /\ cs' = next before /\ length cs' = length cs /\ (forall c, In c cs' -> (c < n)%nat) /\
    isclose (W cs' cs') (W before before) = true /\
    cluster_loop fuel lam m (Some (W cs cs)) (next cs) = Ok (u cs', cs').
Proof.
  intros Hn k. induction k as [|k IH]; intros fuel cs Hk Hne Hb Hf.
  - destruct fuel as [|fuel]; [lia|]. cbn [cluster_loop]. destruct (increases cs Hne Hb) as [H|H].
    + fold (W (next cs) (next cs)). rewrite H. exists cs, (next cs). do 6 (split; [solve [auto using next_length | apply next_bound; auto]|]). auto.
    + apply mu_less in H; [lia|apply next_length|apply next_bound; auto].
  - destruct fuel as [|fuel]; [lia|]. cbn [cluster_loop]. fold (W (next cs) (next cs)). destruct (isclose (W (next cs) (next cs)) (W cs cs)) eqn:Ec.
    + exists cs, (next cs). do 6 (split; [solve [auto using next_length | apply next_bound; auto]|]). auto.
    + destruct (increases cs Hne Hb) as [H|H]; [congruence|]. assert (M := mu_less cs (next cs) (next_length cs) (next_bound cs Hn) H).
      destruct (IH fuel (next cs)) as (b & cs' & Lb & Bb & Eb & L & B & Ec' & E); [lia| |apply next_bound; auto|lia|].
      * intros X. pose proof (next_length cs) as Y. rewrite X in Y. destruct cs; [congruence|discriminate].
      * exists b, cs'. rewrite next_length in Lb, L. do 6 (split; [solve [auto]|]). exact E.
Qed.
End T.

Lemma matrix_row {E} (d : E -> E -> R) lam objects medoids dflt : (forall c, In c medoids -> (c < length objects)%nat) ->
  membership_matrix lam (dissimilarity_matrix d objects) medoids = map (exponential_row d lam (map (fun c => nth c objects dflt) medoids)) objects.
Proof.
  intros Hb. unfold membership_matrix, dissimilarity_matrix. rewrite map_map. apply map_ext. intros x. unfold membership_row, exponential_row.
  assert (N : forall c, In c medoids -> nth c (map (fun x1 => d x1 x) objects) 0 = d (nth c objects dflt) x).
  { intros c Hc. rewrite (nth_indep _ 0 (d dflt x)) by (rewrite map_length; auto). apply (map_nth (fun x1 => d x1 x)). }
  rewrite !map_map. apply map_ext_in. intros c Hc. rewrite N by auto. apply (f_equal (Rdiv _)). unfold Rsum, real_total. apply (f_equal (fun l => fold_right Rplus 0 l)). apply map_ext_in. intros t Ht. rewrite N by auto. auto.
Qed.
Lemma weighted_column {E} (d : E -> E -> R) lam objects before dflt j c : (forall c, In c before -> (c < length objects)%nat) -> (c < length objects)%nat ->
  dot (column (membership_matrix lam (dissimilarity_matrix d objects) before) j) (column (dissimilarity_matrix d objects) c) =
  real_weighted_from d lam (map (fun c => nth c objects dflt) before) objects j (nth c objects dflt).
Proof.
  intros Hb Hc. rewrite (matrix_row d lam objects before dflt Hb). unfold real_weighted_from, dot, column, dissimilarity_matrix. rewrite !map_map.
  unfold Rsum, real_total. apply (f_equal (fun l => fold_right Rplus 0 l)).
  assert (N : forall y, nth c (map (fun x1 => d x1 y) objects) 0 = d (nth c objects dflt) y).
  { intros y. rewrite (nth_indep _ 0 (d dflt y)) by (rewrite map_length; auto). apply (map_nth (fun x1 => d x1 y)). }
  rewrite (map_ext (fun y => nth c (map (fun x1 => d x1 y) objects) 0) (fun y => d (nth c objects dflt) y)) by (intros; apply N). clear N Hc.
  generalize (nth c objects dflt) as x. intros x. generalize (map (fun c0 => nth c0 objects dflt) before) as ms. intros ms. clear Hb.
  induction objects as [|y l IH]; cbn [map combine]; [auto|]. f_equal. exact IH.
Qed.
(*P C80 x *)
(** For a positive coefficient the search ends within [n^k + 2] rounds; each
    medoid has the least weighted dissimilarity, with the memberships of the round
    before. *)
Lemma C80_ends : forall (E : Type) (d : E -> E -> R) coefficient shuffle (objects : list E) k dflt,
  0 < coefficient -> is_shuffle shuffle -> (1 <= k <= length objects)%nat ->
  let object c := nth c objects dflt in
  exists before medoids, length before = k /\ length medoids = k /\ (forall c, In c (before ++ medoids) -> (c < length objects)%nat) /\
    (forall j c p, nth_error medoids j = Some c -> (p < length objects)%nat ->
       real_weighted_from d coefficient (map object before) objects j (object c) <= real_weighted_from d coefficient (map object before) objects j (object p)) /\
    forall fuel, (length objects ^ k + 2 <= fuel)%nat ->
      FuzzyReal.cluster fuel d coefficient shuffle objects (Some (Z.of_nat k)) =
        Ok (map (exponential_row d coefficient (map object medoids)) objects, medoids).
Proof.
  intros E d lam shuffle objects k dflt Hl Hs Hk object.
  set (m := dissimilarity_matrix d objects). assert (Lm : length m = length objects) by apply map_length.
  set (cs := firstn k (shuffle (seq 0 (length objects)))).
  assert (Pm := Hs (seq 0 (length objects))). assert (Lp : length (shuffle (seq 0 (length objects))) = length objects) by (rewrite (Permutation_length Pm); apply seq_length).
  assert (Lc : length cs = k) by (unfold cs; rewrite firstn_length; lia).
  assert (Hb : forall c, In c cs -> (c < length m)%nat).
  { intros c Hc. rewrite Lm. unfold cs in Hc. assert (Hi : In c (shuffle (seq 0 (length objects)))).
    { rewrite <- (firstn_skipn k). apply in_or_app. now left. }
    apply (Permutation_in c Pm) in Hi. apply in_seq in Hi. lia. }
  assert (Hne : cs <> []) by (intros X; rewrite X in Lc; cbn in Lc; lia).
  assert (Hn : (0 < length m)%nat) by lia.
  assert (Ec : randomly_select_cluster_centers shuffle objects (Some (Z.of_nat k)) = Ok cs).
  { unfold randomly_select_cluster_centers. rewrite (proj2 (Z.leb_gt _ _)) by lia. rewrite (proj2 (Z.ltb_ge _ _)) by lia. rewrite Nat2Z.id. auto. }
  destruct (loop_ends lam m Hl Hn (length objects ^ k) (length objects ^ k + 1) cs) as (b & cs' & Lb & Bb & Eb & L & B & _ & Hend); auto.
  { rewrite <- Lm, <- Lc. apply mu_le. }
  exists b, cs'. rewrite Lm in B. split; [lia|]. split; [lia|]. split. { intros c Hi. apply in_app_or in Hi as [Hi|Hi]; [rewrite <- Lm|]; auto. } split.
  { intros j c p Hj Hp. assert (Hjl : (j < length b)%nat) by (rewrite Lb, <- L; apply nth_error_Some; congruence).
    assert (Hc : (c < length objects)%nat) by (apply B; eapply nth_error_In; eauto). rewrite Lm in Bb.
    unfold object. rewrite <- !(weighted_column d lam objects b dflt) by auto. fold m.
    destruct (next_best lam m b j Hn Hjl) as [_ H]. rewrite <- Eb in H. rewrite (nth_error_nth _ _ _ Hj) in H. apply H. lia. }
  intros fuel Hf. unfold FuzzyReal.cluster. rewrite Ec. cbn [bind].
  destruct fuel as [|fuel]; [lia|]. cbn [cluster_loop]. fold m.
  unfold object. rewrite <- (matrix_row d lam objects cs' dflt B). fold m.
  assert (Mono : forall f f' p c r, cluster_loop f lam m p c = Ok r -> (f <= f')%nat -> cluster_loop f' lam m p c = Ok r).
  { induction f as [|f IH]; intros f' p c r Hr Hle; [discriminate|]. destruct f' as [|f']; [lia|]. cbn [cluster_loop] in *.
    destruct (match p with Some p0 => _ | None => false end); [auto|]. apply IH; [auto|lia]. }
  apply (Mono (length objects ^ k + 1)%nat); [exact Hend|lia].
Qed.
