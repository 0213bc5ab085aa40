From Verif.Model Require Import Base DP Lcs.
From Verif.Spec Require Import Lists.
From Verif.Lib Require Import ListLib.
From Coq Require Import Sorted.

(** ** generic matrix lemma *)
Section DPlemma.
  Context {A V : Type}.
  Variable cell : A -> A -> V -> V -> V -> V.
  Variable col : nat -> V.
  (** value on reversed prefixes *)
  Variable D : list A -> list A -> V.
  Hypothesis Dcol : forall xs, D xs [] = col (length xs).
  Hypothesis Dstep : forall x xs y ys,
    D (x :: xs) (y :: ys) = cell x y (D xs ys) (D xs (y :: ys)) (D (x :: xs) ys).

  Lemma dp_row_ok x rx : forall ys ry prev,
    (forall j, j <= length ys -> nth_error prev j = Some (D rx (rev (firstn j ys) ++ ry))) ->
    forall j, j < length ys ->
      nth_error (dp_row cell x ys prev (D (x :: rx) ry)) j
      = Some (D (x :: rx) (rev (firstn (S j) ys) ++ ry)).
  Proof.
    induction ys as [|y ys IH]; intros ry prev Hprev j Hj; cbn in Hj; [lia|].
    destruct prev as [|d prev]; [specialize (Hprev 0 ltac:(lia)); discriminate|].
    destruct prev as [|u prev]; [specialize (Hprev 1 ltac:(cbn; lia)); discriminate|].
    cbn [dp_row].
    pose proof (Hprev 0 ltac:(lia)) as E0. cbn in E0. injection E0 as ->.
    pose proof (Hprev 1 ltac:(cbn; lia)) as E1. cbn in E1. injection E1 as ->.
    rewrite <- Dstep.
    destruct j as [|j]; [reflexivity|].
    cbn [nth_error tl]. rewrite IH.
    - cbn [firstn rev]. rewrite <- app_assoc. reflexivity.
    - intros q Hq. specialize (Hprev (S q) ltac:(cbn; lia)). cbn [nth_error firstn rev] in Hprev.
      rewrite Hprev, <- app_assoc. reflexivity.
    - lia.
  Qed.

  Lemma dp_rows_ok : forall xs rx ys prev,
    (forall j, j <= length ys -> nth_error prev j = Some (D rx (rev (firstn j ys)))) ->
    forall i j, i < length xs -> j <= length ys ->
      exists row, nth_error (dp_rows cell col (length rx) xs ys prev) i = Some row /\
                  nth_error row j = Some (D (rev (firstn (S i) xs) ++ rx) (rev (firstn j ys))).
  Proof.
    induction xs as [|x xs IH]; intros rx ys prev Hprev i j Hi Hj; cbn in Hi; [lia|].
    cbn [dp_rows].
    set (row := col (S (length rx)) :: dp_row cell x ys prev (col (S (length rx)))).
    assert (Hrow : forall j, j <= length ys -> nth_error row j = Some (D (x :: rx) (rev (firstn j ys)))).
    { intros q Hq. unfold row. change (S (length rx)) with (length (x :: rx)). rewrite <- Dcol.
      destruct q as [|q]; [reflexivity|]. cbn [nth_error].
      rewrite (dp_row_ok x rx ys [] prev); [rewrite app_nil_r; reflexivity| |lia].
      intros p Hp. rewrite app_nil_r. auto. }
    destruct i as [|i].
    - exists row. split; [reflexivity|]. cbn [firstn rev app]. auto.
    - cbn [nth_error]. change (S (length rx)) with (length (x :: rx)).
      destruct (IH (x :: rx) ys row Hrow i j) as (r & E1 & E2); try lia.
      exists r. split; auto. rewrite E2. cbn [firstn rev]. rewrite <- app_assoc. reflexivity.
  Qed.

  Lemma dp_matrix_ok row0 xs ys :
    (forall j, j <= length ys -> nth_error row0 j = Some (D [] (rev (firstn j ys)))) ->
    forall i j, i <= length xs -> j <= length ys ->
      entry (dp_matrix cell col row0 xs ys) i j = Ok (D (rev (firstn i xs)) (rev (firstn j ys))).
  Proof.
    intros H0 i j Hi Hj. unfold entry, dp_matrix. destruct i as [|i]; cbn [nth_error].
    - rewrite H0 by auto. reflexivity.
    - destruct (dp_rows_ok xs [] ys row0 H0 i j) as (r & E1 & E2); try lia.
      cbn [length] in E1. rewrite E1, E2, app_nil_r. reflexivity.
  Qed.
End DPlemma.

(** ** subsequences *)
Lemma subseq_nil_l {A} (l : list A) : subseq [] l.
Proof. induction l; constructor; auto. Qed.
Lemma subseq_refl {A} (l : list A) : subseq l l.
Proof. induction l; [constructor|apply subseq_take; auto]. Qed.
Lemma subseq_tail {A} x (w l : list A) : subseq (x :: w) l -> subseq w l.
Proof.
  intros Hs. remember (x :: w) as xw eqn:E. revert x w E.
  induction Hs as [|y s l Hs IH|y s l Hs IH]; intros x w E; try discriminate.
  - constructor. eauto.
  - injection E as -> ->. constructor; auto.
Qed.
Lemma subseq_app {A} (s1 s2 l1 l2 : list A) : subseq s1 l1 -> subseq s2 l2 -> subseq (s1 ++ s2) (l1 ++ l2).
Proof. intros H1 H2; induction H1; cbn; auto; [apply subseq_skip|apply subseq_take]; auto. Qed.
Lemma subseq_rev {A} (s l : list A) : subseq s l -> subseq (rev s) (rev l).
Proof.
  induction 1 as [|x s l Hs IH|x s l Hs IH]; cbn.
  - constructor.
  - rewrite <- (app_nil_r (rev s)). apply subseq_app; auto. repeat constructor.
  - apply subseq_app; auto. apply subseq_refl.
Qed.
Lemma subseq_length {A} (s l : list A) : subseq s l -> length s <= length l.
Proof. induction 1; cbn; lia. Qed.
Lemma subseq_nil_r {A} (s : list A) : subseq s [] -> s = [].
Proof. inversion 1; auto. Qed.

Section LcsProofs.
  Context {A : Type} `{Eq A}.

  (** longest common subsequence length by recursion on the lists *)
  Fixpoint lc (xs : list A) : list A -> nat :=
    match xs with
    | [] => fun _ => 0
    | x :: xs' =>
      fix inner ys :=
        match ys with
        | [] => 0
        | y :: ys' => if eqb x y then lc xs' ys' + 1 else Nat.max (inner ys') (lc xs' ys)
        end
    end.
  Lemma lc_nil_r xs : lc xs [] = 0.
  Proof. destruct xs; auto. Qed.
  Lemma lc_cons x xs y ys :
    lc (x :: xs) (y :: ys) =
    if eqb x y then lc xs ys + 1 else Nat.max (lc (x :: xs) ys) (lc xs (y :: ys)).
  Proof. reflexivity. Qed.

  Lemma lc_upper n : forall xs ys w, length xs + length ys <= n ->
    subseq w xs -> subseq w ys -> length w <= lc xs ys.
  Proof.
    induction n as [|n IH]; intros xs ys w Hn Hx Hy.
    - destruct xs, ys; cbn in Hn; try lia. apply subseq_nil_r in Hx; subst; auto.
    - destruct w as [|z w]; [cbn; lia|].
      destruct xs as [|x xs]; [apply subseq_nil_r in Hx; discriminate|].
      destruct ys as [|y ys]; [apply subseq_nil_r in Hy; discriminate|].
      rewrite lc_cons. cbn in Hn.
      destruct (eqb_ok x y) as [->|Hne].
      + assert (subseq w xs /\ subseq w ys) as [H1 H2].
        { inversion Hx; inversion Hy; subst; repeat split; eauto using subseq_tail. }
        cbn. specialize (IH xs ys w ltac:(lia) H1 H2). lia.
      + inversion Hx as [|? ? ? Hx'|? ? ? Hx']; subst.
        * specialize (IH xs (y :: ys) (z :: w) ltac:(cbn; lia) Hx' Hy). lia.
        * inversion Hy as [|? ? ? Hy'|? ? ? Hy']; subst; [|congruence].
          specialize (IH (x :: xs) ys (x :: w) ltac:(cbn; lia) Hx Hy'). lia.
  Qed.
  Lemma lc_witness n : forall xs ys, length xs + length ys <= n ->
    exists w, subseq w xs /\ subseq w ys /\ length w = lc xs ys.
  Proof.
    induction n as [|n IH]; intros xs ys Hn.
    - destruct xs, ys; cbn in Hn; try lia. exists []; repeat constructor.
    - destruct xs as [|x xs]; [exists []; auto using subseq_nil_l|].
      destruct ys as [|y ys]; [exists []; auto using subseq_nil_l|].
      rewrite lc_cons. cbn in Hn. destruct (eqb_ok x y) as [->|Hne].
      + destruct (IH xs ys ltac:(lia)) as (w & H1 & H2 & H3).
        exists (y :: w). repeat split; try (apply subseq_take; auto). cbn; lia.
      + destruct (le_lt_dec (lc xs (y :: ys)) (lc (x :: xs) ys)) as [Hle|Hlt].
        * destruct (IH (x :: xs) ys ltac:(cbn; lia)) as (w & H1 & H2 & H3).
          exists w; repeat split; auto; [apply subseq_skip; auto|lia].
        * destruct (IH xs (y :: ys) ltac:(cbn; lia)) as (w & H1 & H2 & H3).
          exists w; repeat split; auto; [apply subseq_skip; auto|lia].
  Qed.

  Lemma lcs_entry xs ys i j : i <= length xs -> j <= length ys ->
    entry (compute_lcs_matrix xs ys) i j = Ok (lc (rev (firstn i xs)) (rev (firstn j ys))).
  Proof.
    intros Hi Hj. unfold compute_lcs_matrix.
    apply (dp_matrix_ok lcs_cell (fun _ => 0) lc); auto.
    - intros; apply lc_nil_r.
    - intros q Hq. cbn. apply nth_error_repeat. lia.
  Qed.

  Theorem length_of_common_subsequence_ok (xs ys : list A) :
    exists m, length_of_common_subsequence xs ys = Ok m /\
      (exists w, subseq w xs /\ subseq w ys /\ length w = m) /\
      (forall w, subseq w xs -> subseq w ys -> length w <= m).
  Proof.
    unfold length_of_common_subsequence. rewrite lcs_entry by auto. rewrite !firstn_all.
    eexists; split; [reflexivity|]. split.
    - destruct (lc_witness _ (rev xs) (rev ys) (le_n _)) as (w & H1 & H2 & H3).
      exists (rev w). rewrite rev_length. repeat split; auto.
      + rewrite <- (rev_involutive xs). apply subseq_rev; auto.
      + rewrite <- (rev_involutive ys). apply subseq_rev; auto.
    - intros w H1 H2. rewrite <- (rev_length w).
      apply (lc_upper _ _ _ _ (le_n _)); apply subseq_rev; auto.
  Qed.

  Lemma firstn_S_rev (l : list A) i x :
    nth_error l i = Some x -> rev (firstn (S i) l) = x :: rev (firstn i l).
  Proof.
    revert i; induction l as [|y l IH]; intros [|i] E; cbn in E; try discriminate.
    - injection E as ->. reflexivity.
    - cbn [firstn rev] in *. rewrite (IH i E). reflexivity.
  Qed.

  Definition both_lt (p q : nat * nat) := fst p < fst q /\ snd p < snd q.

  Lemma lcs_backtrace_ok xs ys : forall fuel i j bt,
    i + j <= fuel -> i <= length xs -> j <= length ys ->
    StronglySorted (fun p q => both_lt q p) bt ->
    (forall p q, In (p, q) bt -> i <= p /\ j <= q /\
                  exists x, nth_error xs p = Some x /\ nth_error ys q = Some x) ->
    exists bt', lcs_backtrace fuel (compute_lcs_matrix xs ys) xs ys i j bt = Ok bt' /\
      length bt' = length bt + lc (rev (firstn i xs)) (rev (firstn j ys)) /\
      StronglySorted (fun p q => both_lt q p) bt' /\
      (forall p q, In (p, q) bt' -> exists x, nth_error xs p = Some x /\ nth_error ys q = Some x).
  Proof.
    induction fuel as [|fuel IH]; intros i j bt Hf Hi Hj Hs Hin.
    - replace i with 0 by lia. replace j with 0 by lia. cbn. exists bt. repeat split; auto.
      intros p q Hpq; destruct (Hin p q Hpq) as (_ & _ & ?); auto.
    - destruct i as [|i].
      { cbn. exists bt. repeat split; auto.
        intros p q Hpq; destruct (Hin p q Hpq) as (_ & _ & ?); auto. }
      destruct j as [|j].
      { cbn [lcs_backtrace]. exists bt. rewrite lc_nil_r. repeat split; auto.
        intros p q Hpq; destruct (Hin p q Hpq) as (_ & _ & ?); auto. }
      cbn [lcs_backtrace].
      destruct (nth_error_lt xs i Hi) as [x Ex]. destruct (nth_error_lt ys j Hj) as [y Ey].
      rewrite Ex, Ey. cbn [of_option bind].
      pose proof (firstn_S_rev xs i x Ex) as Fx. pose proof (firstn_S_rev ys j y Ey) as Fy.
      rewrite Fx, Fy, lc_cons.
      destruct (eqb_ok x y) as [->|Hne].
      + destruct (IH i j (bt ++ [(i, j)])) as (bt' & E & HL & HS & HI); try lia.
        * clear -Hs Hin. induction bt as [|p bt IHb]; cbn; [repeat constructor|].
          apply StronglySorted_inv in Hs as [Hs1 Hs2]. constructor.
          -- apply IHb; auto. intros; apply Hin; right; auto.
          -- apply Forall_app; split; auto. constructor; [|constructor].
             destruct p as [p q]. destruct (Hin p q (or_introl eq_refl)) as (? & ? & _).
             unfold both_lt; cbn; lia.
        * intros p q Hpq. apply in_app_or in Hpq as [Hpq|[Hpq|[]]].
          -- destruct (Hin p q Hpq) as (? & ? & ?). repeat split; auto; lia.
          -- injection Hpq as <- <-. repeat split; auto. eauto.
        * exists bt'. repeat split; auto. rewrite HL, app_length. cbn. lia.
      + rewrite (lcs_entry xs ys i (S j)) by lia. cbn [bind].
        rewrite (lcs_entry xs ys (S i) j) by lia. cbn [bind]. rewrite Fx, Fy.
        destruct (Nat.ltb_spec (lc (y :: rev (firstn i xs)) (rev (firstn j ys)))
                    (lc (rev (firstn i xs)) (y :: rev (firstn j ys)))) as [Hlt|Hge];
        destruct (Nat.ltb_spec (lc (x :: rev (firstn i xs)) (rev (firstn j ys)))
                    (lc (rev (firstn i xs)) (y :: rev (firstn j ys)))) as [Hlt'|Hge'].
        all: match goal with
             | |- exists bt', lcs_backtrace _ _ _ _ ?i2 ?j2 _ = _ /\ _ =>
               destruct (IH i2 j2 bt) as (bt' & E & HL & HS & HI); try lia; auto
             end;
             try (intros p q Hpq; destruct (Hin p q Hpq) as (? & ? & ?); repeat split; auto; lia).
        all: exists bt'; repeat split; auto; rewrite HL, ?Fx, ?Fy; lia.
  Qed.

  Lemma StronglySorted_rev {X} (R : X -> X -> Prop) l :
    StronglySorted (fun p q => R q p) l -> StronglySorted R (rev l).
  Proof.
    induction l as [|a l IH]; cbn; [constructor|]. intros Hs.
    apply StronglySorted_inv in Hs as [Hs1 Hs2].
    assert (Hgen : forall m, StronglySorted R m -> Forall (fun b => R b a) m -> StronglySorted R (m ++ [a])).
    { induction m as [|b m IHm]; cbn; intros Hm Hb; [repeat constructor|].
      apply StronglySorted_inv in Hm as [Hm1 Hm2]. inversion Hb; subst.
      constructor; auto. apply Forall_app; split; auto. }
    apply Hgen; auto. apply Forall_rev; auto.
  Qed.

  Theorem lcs_with_backtrace_ok (xs ys : list A) :
    exists m pairs, lcs_with_backtrace xs ys = Ok (m, pairs) /\
      (exists w, subseq w xs /\ subseq w ys /\ length w = m) /\
      (forall w, subseq w xs -> subseq w ys -> length w <= m) /\
      length pairs = m /\
      StronglySorted (fun p q => fst p < fst q /\ snd p < snd q) pairs /\
      (forall i j, In (i, j) pairs -> exists x, nth_error xs i = Some x /\ nth_error ys j = Some x).
  Proof.
    destruct (length_of_common_subsequence_ok xs ys) as (m & Em & Hm1 & Hm2).
    unfold length_of_common_subsequence in Em. unfold lcs_with_backtrace.
    destruct (lcs_backtrace_ok xs ys (length xs + length ys) (length xs) (length ys) [])
      as (bt & E & HL & HS & HI); auto; [constructor|intros p q []|].
    rewrite E, Em. cbn [bind]. exists m, (rev bt). repeat split; auto.
    - rewrite rev_length, HL. cbn. rewrite lcs_entry in Em by auto. congruence.
    - apply StronglySorted_rev. auto.
    - intros i j Hij. apply HI. apply in_rev; auto.
  Qed.
End LcsProofs.
