From Verif.Model Require Import Base SetSimilarity.
From Verif.Lib Require Import ListLib.
From Coq Require Import QArith Lqa Qminmax.
Open Scope nat_scope.

Definition q (n : nat) : Q := inject_Z (Z.of_nat n).
Lemma q_le a b : a <= b <-> (q a <= q b)%Q.
Proof. unfold q. rewrite <- Zle_Qle. lia. Qed.
Lemma q_lt a b : a < b <-> (q a < q b)%Q.
Proof. unfold q. rewrite <- Zlt_Qlt. lia. Qed.
Lemma q_eq a b : a = b <-> (q a == q b)%Q.
Proof. unfold q. rewrite inject_Z_injective. lia. Qed.

(** a quotient p/d with 0 <= p <= d, 0 < d *)
Lemma ratio_ok p d : 0 < d -> ratio p d = Ok (q p / q d)%Q.
Proof. intros Hd. unfold ratio. destruct (Nat.eqb_spec d 0); [lia|]. reflexivity. Qed.
Lemma quot_bounds p d : 0 < d -> p <= d -> (0 <= q p / q d <= 1)%Q.
Proof.
  intros Hd Hp. apply q_lt in Hd. apply q_le in Hp. change (q 0) with 0%Q in Hd.
  assert (0 <= q p)%Q by (change 0%Q with (q 0); apply q_le; lia). split.
  - apply Qle_shift_div_l; auto; lra.
  - apply Qle_shift_div_r; auto; lra.
Qed.
Lemma quot_one p d : 0 < d -> (q p / q d == 1)%Q <-> p = d.
Proof.
  intros Hd. apply q_lt in Hd. change (q 0) with 0%Q in Hd. rewrite q_eq. split; intros E.
  - assert (E2 : (q p / q d * q d == 1 * q d)%Q) by (rewrite E; reflexivity).
    rewrite Qmult_comm, Qmult_div_r in E2 by lra. lra.
  - rewrite E. field. lra.
Qed.
Lemma quot_zero p d : 0 < d -> (q p / q d == 0)%Q <-> p = 0.
Proof.
  intros Hd. apply q_lt in Hd. change (q 0) with 0%Q in Hd. rewrite q_eq. change (q 0) with 0%Q. split; intros E.
  - assert (E2 : (q p / q d * q d == 0 * q d)%Q) by (rewrite E; reflexivity).
    rewrite Qmult_comm, Qmult_div_r in E2 by lra. lra.
  - rewrite E. field. lra.
Qed.

Lemma filter_length_le' {X} (f : X -> bool) l : length (filter f l) <= length l.
Proof. induction l as [|x l IH]; cbn; auto. destruct (f x); cbn; lia. Qed.

Section S.
  Context {A : Type} `{Eq A}.
  Implicit Types a b : list A.

  Lemma inter_In a b x : In x (intersection a b) <-> In x a /\ In x b.
  Proof. unfold intersection. rewrite filter_In, mem_In. tauto. Qed.
  Lemma inter_NoDup a b : NoDup a -> NoDup (intersection a b).
  Proof. apply NoDup_filter. Qed.
  Lemma inter_sym a b : NoDup a -> NoDup b -> length (intersection a b) = length (intersection b a).
  Proof.
    intros Ha Hb. apply Nat.le_antisymm; apply NoDup_incl_length; auto using inter_NoDup;
      intros x; rewrite !inter_In; tauto.
  Qed.
  Lemma inter_le_l a b : length (intersection a b) <= length a.
  Proof. apply filter_length_le'. Qed.
  Lemma inter_le_r a b : NoDup a -> NoDup b -> length (intersection a b) <= length b.
  Proof. intros Ha Hb. rewrite inter_sym by auto. apply inter_le_l. Qed.
  Lemma inter_full a b : length (intersection a b) = length a <-> forall x, In x a -> In x b.
  Proof.
    unfold intersection. split.
    - intros E. assert (Hg : forall l : list A, length (filter (fun x => mem x b) l) = length l ->
        forall x, In x l -> In x b).
      { induction l as [|y l IH]; cbn; [tauto|]. destruct (mem y b) eqn:Ey; cbn; intros El x Hx.
        - destruct Hx as [<-|Hx]; [apply mem_In; auto|]. apply IH; auto.
        - pose proof (filter_length_le' (fun x => mem x b) l). lia. }
      apply Hg; auto.
    - intros Hs. f_equal. induction a as [|y a IH]; auto. cbn.
      rewrite (proj2 (mem_In y b)) by (apply Hs; left; auto). f_equal. apply IH. intros; apply Hs; right; auto.
  Qed.
  Lemma inter_empty a b : length (intersection a b) = 0 <-> forall x, In x a -> ~ In x b.
  Proof.
    split.
    - intros E x Ha Hb. apply length_zero_iff_nil in E. assert (In x (intersection a b)) by (apply inter_In; auto).
      rewrite E in *. auto.
    - intros Hd. destruct (intersection a b) as [|x l] eqn:E; auto. exfalso.
      assert (Hx : In x (intersection a b)) by (rewrite E; left; auto). apply inter_In in Hx as [H1 H2].
      apply (Hd x); auto.
  Qed.

  Definition same_set a b := forall x, In x a <-> In x b.
  Definition disjoint a b := forall x, In x a -> ~ In x b.

  Lemma same_iff a b : NoDup a -> NoDup b ->
    same_set a b <-> length (intersection a b) = length a /\ length (intersection a b) = length b.
  Proof.
    intros Ha Hb. rewrite (inter_full a b). rewrite (inter_sym a b) by auto. rewrite (inter_full b a).
    unfold same_set. firstorder.
  Qed.

  Lemma empty_cases a b : (length a =? 0) && (length b =? 0) = true -> a = [] /\ b = [].
  Proof.
    intros E. apply andb_prop in E as [E1 E2]. apply Nat.eqb_eq in E1, E2.
    split; apply length_zero_iff_nil; auto.
  Qed.
  Lemma nonempty_cases a b : (length a =? 0) && (length b =? 0) = false -> 0 < length a + length b.
  Proof. destruct a, b; cbn; try discriminate; lia. Qed.

  Theorem dice_ok a b : NoDup a -> NoDup b ->
    exists r, sorensen_dice_coefficient a b = Ok r /\ (0 <= r <= 1)%Q /\
      ((r == 1)%Q <-> same_set a b) /\
      ((r == 0)%Q <-> disjoint a b /\ ~ (a = [] /\ b = [])) /\
      sorensen_dice_coefficient b a = Ok r.
  Proof.
    intros Ha Hb. unfold sorensen_dice_coefficient.
    pose proof (inter_le_l a b). pose proof (inter_le_r a b Ha Hb). pose proof (inter_sym a b Ha Hb) as Es.
    rewrite (andb_comm (length b =? 0)), <- Es, (Nat.add_comm (length b)).
    destruct ((length a =? 0) && (length b =? 0)) eqn:E.
    - apply empty_cases in E as [-> ->]. exists 1%Q. split; auto. split; [lra|].
      split; [split; [intros _ x; tauto|lra]|]. split; auto. split; [intros; lra|tauto].
    - apply nonempty_cases in E. rewrite ratio_ok by lia. eexists; split; [reflexivity|].
      split; [apply quot_bounds; lia|]. split; [|split; auto].
      + rewrite quot_one by lia. rewrite same_iff by auto. lia.
      + rewrite quot_zero by lia. replace (2 * length (intersection a b) = 0) with (length (intersection a b) * 2 = 0) by (f_equal; lia).
        split.
        * intros E2. split; [refine (proj1 (inter_empty a b) _); lia|]. intros [-> ->]; cbn in E; lia.
        * intros [Hd _]. apply (proj2 (inter_empty a b)) in Hd. lia.
  Qed.
  Theorem jaccard_ok a b : NoDup a -> NoDup b ->
    exists r, jaccard_index a b = Ok r /\ (0 <= r <= 1)%Q /\
      ((r == 1)%Q <-> same_set a b) /\
      ((r == 0)%Q <-> disjoint a b /\ ~ (a = [] /\ b = [])) /\
      jaccard_index b a = Ok r.
  Proof.
    intros Ha Hb. unfold jaccard_index.
    pose proof (inter_le_l a b). pose proof (inter_le_r a b Ha Hb). pose proof (inter_sym a b Ha Hb) as Es.
    rewrite (andb_comm (length b =? 0)), <- Es, (Nat.add_comm (length b)).
    destruct ((length a =? 0) && (length b =? 0)) eqn:E.
    - apply empty_cases in E as [-> ->]. exists 1%Q. split; auto. split; [lra|].
      split; [split; [intros _ x; tauto|lra]|]. split; auto. split; [intros; lra|tauto].
    - apply nonempty_cases in E. rewrite ratio_ok by lia. eexists; split; [reflexivity|].
      split; [apply quot_bounds; lia|]. split; [|split; auto].
      + rewrite quot_one by lia. rewrite same_iff by auto. lia.
      + rewrite quot_zero by lia. split.
        * intros E2. split; [refine (proj1 (inter_empty a b) _); lia|]. intros [-> ->]; cbn in E; lia.
        * intros [Hd _]. apply (proj2 (inter_empty a b)) in Hd. lia.
  Qed.
  Theorem overlap_ok a b : NoDup a -> NoDup b -> (a = [] <-> b = []) ->
    exists r, overlap_coefficient a b = Ok r /\ (0 <= r <= 1)%Q /\
      ((r == 1)%Q <-> (forall x, In x a -> In x b) \/ (forall x, In x b -> In x a)) /\
      ((r == 0)%Q <-> disjoint a b /\ ~ (a = [] /\ b = [])) /\
      overlap_coefficient b a = Ok r.
  Proof.
    intros Ha Hb Hne. unfold overlap_coefficient.
    pose proof (inter_le_l a b). pose proof (inter_le_r a b Ha Hb). pose proof (inter_sym a b Ha Hb) as Es.
    rewrite (andb_comm (length b =? 0)), <- Es, (Nat.min_comm (length b)).
    destruct ((length a =? 0) && (length b =? 0)) eqn:E.
    - apply empty_cases in E as [-> ->]. exists 1%Q. split; auto. split; [lra|].
      split; [split; [auto|lra]|]. split; auto. split; [intros; lra|tauto].
    - apply nonempty_cases in E.
      assert (0 < length a /\ 0 < length b).
      { rewrite <- !length_zero_iff_nil in Hne. lia. }
      rewrite ratio_ok by lia. eexists; split; [reflexivity|].
      split; [apply quot_bounds; lia|]. split; [|split; auto].
      + rewrite quot_one by lia. rewrite <- (inter_full a b), <- (inter_full b a), <- Es. lia.
      + rewrite quot_zero by lia. split.
        * intros E2. split; [refine (proj1 (inter_empty a b) _); lia|]. intros [-> ->]; cbn in E; lia.
        * intros [Hd _]. apply (proj2 (inter_empty a b)) in Hd. lia.
  Qed.
  Theorem overlap_err a b : ~ (a = [] <-> b = []) -> overlap_coefficient a b = Err ZeroDivisionError.
  Proof.
    intros Hne. unfold overlap_coefficient. destruct a as [|x a], b as [|y b]; cbn; auto.
    - exfalso; apply Hne; tauto.
    - exfalso; apply Hne; split; discriminate.
  Qed.

  Theorem values_ok a b c : NoDup a -> NoDup b -> NoDup c ->
    (forall x, In x c <-> In x a /\ In x b) -> a <> [] -> b <> [] ->
    let n (l : list A) := inject_Z (Z.of_nat (length l)) in
    (exists r, sorensen_dice_coefficient a b = Ok r /\ (r == 2 * n c / (n a + n b))%Q) /\
    (exists r, jaccard_index a b = Ok r /\ (r == n c / (n a + n b - n c))%Q) /\
    (exists r, overlap_coefficient a b = Ok r /\ (r == n c / Qmin (n a) (n b))%Q).
  Proof.
    intros Ha Hb Hc Hi Hna Hnb n.
    assert (El : length (intersection a b) = length c).
    { apply Nat.le_antisymm; apply NoDup_incl_length; auto using inter_NoDup;
        intros x; rewrite inter_In, Hi; tauto. }
    pose proof (inter_le_l a b). pose proof (inter_le_r a b Ha Hb). rewrite El in *.
    assert (0 < length a) by (destruct a; [congruence|cbn; lia]).
    assert (0 < length b) by (destruct b; [congruence|cbn; lia]).
    assert (E : (length a =? 0) && (length b =? 0) = false).
    { destruct (Nat.eqb_spec (length a) 0); auto. lia. }
    unfold sorensen_dice_coefficient, jaccard_index, overlap_coefficient. rewrite E, El.
    assert (Hq : forall p q, inject_Z (Z.of_nat (p + q)) = (inject_Z (Z.of_nat p) + inject_Z (Z.of_nat q))%Q).
    { intros. rewrite Nat2Z.inj_add, inject_Z_plus. reflexivity. }
    rewrite !ratio_ok by lia. unfold q, n. split; [|split]; (eexists; split; [reflexivity|]).
    - replace (2 * length c) with (length c + length c) by lia. rewrite !Hq.
      assert (inject_Z (Z.of_nat (length c)) + inject_Z (Z.of_nat (length c)) == 2 * inject_Z (Z.of_nat (length c)))%Q as -> by ring.
      reflexivity.
    - assert (inject_Z (Z.of_nat (length a + length b - length c)) ==
              inject_Z (Z.of_nat (length a)) + inject_Z (Z.of_nat (length b)) - inject_Z (Z.of_nat (length c)))%Q as ->.
      { rewrite <- Hq. unfold Qminus. rewrite <- inject_Z_opp, <- inject_Z_plus. f_equiv. lia. }
      reflexivity.
    - assert (inject_Z (Z.of_nat (Nat.min (length a) (length b))) ==
              Qmin (inject_Z (Z.of_nat (length a))) (inject_Z (Z.of_nat (length b))))%Q as ->.
      { destruct (Nat.le_ge_cases (length a) (length b)) as [L|L].
        - rewrite Nat.min_l by auto. symmetry. apply Qminmax.Q.min_l. apply q_le; auto.
        - rewrite Nat.min_r by auto. symmetry. apply Qminmax.Q.min_r. apply q_le; auto. }
      reflexivity.
  Qed.
End S.
