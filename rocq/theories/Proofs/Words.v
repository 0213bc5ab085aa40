From Verif.Model Require Import Base.
From Verif.Spec Require Import Lists Words.
From Verif.Lib Require Import ListLib.

Section W.
  Context {A : Type}.
  Implicit Types u v w l : list A.

  Lemma power_S w k : power w (S k) = w ++ power w k.
  Proof. reflexivity. Qed.
  Lemma power_add w a b : power w (a + b) = power w a ++ power w b.
  Proof. induction a as [|a IH]; auto. cbn [Nat.add]. rewrite !power_S, IH, app_assoc. reflexivity. Qed.
  Lemma power_length w k : length (power w k) = k * length w.
  Proof. induction k as [|k IH]; auto. rewrite power_S, app_length, IH. reflexivity. Qed.
  Lemma power_mul w a b : power (power w a) b = power w (b * a).
  Proof. induction b as [|b IH]; auto. cbn [Nat.mul]. rewrite power_S, IH, power_add. reflexivity. Qed.
  Lemma power_1 w : power w 1 = w.
  Proof. unfold power; cbn. apply app_nil_r. Qed.

  Lemma occurs_at_app u v l s :
    occurs_at (u ++ v) l s <-> occurs_at u l s /\ occurs_at v l (s + length u).
  Proof.
    rewrite !occurs_at_iff, app_length. split.
    - intros [H1 H2]. split; (split; [lia|]); intros i Hi.
      + rewrite H2 by lia. apply nth_error_app1; auto.
      + replace (s + length u + i) with (s + (length u + i)) by lia. rewrite H2 by lia.
        rewrite nth_error_app2 by lia. f_equal; lia.
    - intros [[H1 H2] [H3 H4]]. split; [lia|]. intros i Hi. destruct (lt_dec i (length u)) as [L|L].
      + rewrite nth_error_app1 by auto. apply H2; auto.
      + rewrite nth_error_app2 by lia. rewrite <- H4 by lia. f_equal; lia.
  Qed.
  Lemma occurs_power w k l s :
    occurs_at (power w k) l s <-> s <= length l /\ forall i, i < k -> occurs_at w l (s + i * length w).
  Proof.
    revert s; induction k as [|k IH]; intros s.
    - rewrite occurs_at_nil. split; [intros; split; auto; intros; lia|tauto].
    - rewrite power_S, occurs_at_app, IH. split.
      + intros (H1 & H2 & H3). split; [lia|]. intros [|i] Hi.
        * replace (s + 0 * length w) with s by lia; auto.
        * replace (s + S i * length w) with (s + length w + i * length w) by lia. apply H3; lia.
      + intros (H1 & H2). pose proof (H2 0 ltac:(lia)) as H0. replace (s + 0 * length w) with s in H0 by lia.
        split; auto. apply occurs_at_bound in H0. split; [lia|]. intros i Hi.
        replace (s + length w + i * length w) with (s + S i * length w) by lia. apply H2; lia.
  Qed.

  Lemma comm_power : forall n u v, length u + length v <= n -> u ++ v = v ++ u ->
    exists z a b, u = power z a /\ v = power z b.
  Proof.
    induction n as [|n IH]; intros u v Hn E.
    - destruct u, v; cbn in Hn; try lia. exists [], 0, 0. auto.
    - destruct u as [|x u'] eqn:Eu; [exists v, 0, 1; rewrite power_1; auto|].
      destruct v as [|y v'] eqn:Ev; [exists (x :: u'), 1, 0; rewrite power_1; auto|].
      rewrite <- Eu, <- Ev in *. assert (Hu : 0 < length u) by (subst; cbn; lia).
      assert (Hv : 0 < length v) by (subst; cbn; lia).
      assert (Hcut : forall p q : list A, length p <= length q -> p ++ q = q ++ p -> q = p ++ skipn (length p) q).
      { intros p q L E'. rewrite <- (firstn_skipn (length p) q) at 1. f_equal.
        assert (F : firstn (length p) (p ++ q) = firstn (length p) (q ++ p)) by congruence.
        rewrite !firstn_app in F. replace (length p - length p) with 0 in F by lia.
        replace (length p - length q) with 0 in F by lia. rewrite !firstn_O, !app_nil_r, firstn_all in F. auto. }
      destruct (le_lt_dec (length u) (length v)) as [L|L].
      + pose proof (Hcut u v L E) as Hq. set (v2 := skipn (length u) v) in *.
        destruct (IH u v2) as (z & a & b & Ha & Hb).
        { unfold v2. rewrite skipn_length. lia. }
        { rewrite Hq in E. rewrite <- app_assoc in E. apply app_inv_head in E. auto. }
        exists z, a, (a + b). rewrite power_add. rewrite <- Ha, <- Hb. auto.
      + pose proof (Hcut v u ltac:(lia) (eq_sym E)) as Hq. set (u2 := skipn (length v) u) in *.
        destruct (IH u2 v) as (z & a & b & Ha & Hb).
        { unfold u2. rewrite skipn_length. lia. }
        { rewrite Hq in E. rewrite <- app_assoc in E. apply app_inv_head in E. auto. }
        exists z, (b + a), b. rewrite power_add. rewrite <- Ha, <- Hb. auto.
  Qed.

  (** a primitive word does not stand inside two copies of itself *)
  Lemma primitive_between w l p q : primitive w ->
    occurs_at w l p -> occurs_at w l (p + length w) -> p < q < p + length w -> ~ occurs_at w l q.
  Proof.
    intros [Hne Hp] H1 H2 Hq H3. set (j := q - p).
    assert (E : firstn j w ++ skipn j w = skipn j w ++ firstn j w).
    { rewrite firstn_skipn. rewrite occurs_at_iff in H1, H2, H3. apply nth_error_ext. intros i.
      destruct (lt_dec i (length w)) as [Hi|Hi].
      - rewrite <- (proj2 H3 i Hi).
        destruct (lt_dec i (length w - j)) as [L|L].
        + rewrite nth_error_app1 by (rewrite skipn_length; lia). rewrite nth_error_skipn.
          rewrite <- (proj2 H1 (j + i)) by lia. f_equal. unfold j. lia.
        + rewrite nth_error_app2 by (rewrite skipn_length; lia). rewrite skipn_length, nth_error_firstn.
          destruct (Nat.ltb_spec (i - (length w - j)) j) as [L2|L2]; [|unfold j in *; lia].
          rewrite <- (proj2 H2 (i - (length w - j))) by lia. f_equal. unfold j in *. lia.
      - rewrite (proj2 (nth_error_None w i)) by lia. symmetry. apply nth_error_None.
        rewrite app_length, skipn_length, firstn_length. lia. }
    destruct (comm_power _ _ _ (le_n _) E)
      as (z & a & b & Ha & Hb).
    apply (Hp z (a + b)).
    - assert (a <> 0) by (intros ->; apply (f_equal (@length A)) in Ha; rewrite firstn_length in Ha; cbn in Ha; unfold j in *; lia).
      assert (b <> 0) by (intros ->; apply (f_equal (@length A)) in Hb; rewrite skipn_length in Hb; cbn in Hb; unfold j in *; lia).
      lia.
    - rewrite power_add, <- Ha, <- Hb. symmetry. apply firstn_skipn.
  Qed.

  Lemma maximal_run_unique w l i k k' : maximal_run w l i k -> maximal_run w l i k' -> k = k'.
  Proof.
    intros (H1 & H2 & H3 & _) (H1' & H2' & H3' & _).
    rewrite occurs_power in H2, H2'. destruct (lt_eq_lt_dec k k') as [[L|]|L]; auto; exfalso.
    - apply H3. apply H2'; auto.
    - apply H3'. apply H2; auto.
  Qed.
End W.
