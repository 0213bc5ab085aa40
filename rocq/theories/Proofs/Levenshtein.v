From Verif.Model Require Import Base DP Levenshtein.
From Verif.Spec Require Import Lists Edit.
From Verif.Lib Require Import ListLib.
From Verif.Proofs Require Import Lcs ListUtils2.
From Coq Require Import Permutation.
Local Open Scope Z_scope.

(** ** alignments *)
Section Align.
  Context {A : Type}.
  Variables ci cd cs : Z.
  Inductive align : list A -> list A -> Z -> Prop :=
  | al_nil : align [] [] 0
  | al_keep x s t c : align s t c -> align (x :: s) (x :: t) c
  | al_sub x y s t c c' : align s t c -> c' = c + cs -> align (x :: s) (y :: t) c'
  | al_ins y s t c c' : align s t c -> c' = c + ci -> align s (y :: t) c'
  | al_del x s t c c' : align s t c -> c' = c + cd -> align (x :: s) t c'.

  Lemma align_refl s : align s s 0.
  Proof. induction s; constructor; auto. Qed.
  Lemma align_eq s t c c' : align s t c -> c = c' -> align s t c'.
  Proof. intros; subst; auto. Qed.

  Lemma align_insert s t c : align s t c -> forall u v y, t = u ++ v -> align s (u ++ y :: v) (c + ci).
  Proof.
    induction 1 as [|x s t c Ha IH|x z s t c c' Ha IH E|z s t c c' Ha IH E|x s t c c' Ha IH E];
      intros u v y Et.
    - destruct u; destruct v; try discriminate. cbn. eapply al_ins; [constructor|lia].
    - destruct u as [|w u]; cbn in *.
      + subst. eapply al_ins; [constructor; eauto|lia].
      + injection Et as -> ->. constructor. apply IH; auto.
    - destruct u as [|w u]; cbn in *.
      + subst. eapply al_ins; [eapply al_sub; eauto|lia].
      + injection Et as -> ->. eapply al_sub; [apply IH; reflexivity|lia].
    - destruct u as [|w u]; cbn in *.
      + subst. eapply al_ins; [eapply al_ins; eauto|lia].
      + injection Et as -> ->. eapply al_ins; [apply IH; reflexivity|lia].
    - eapply al_del; [apply IH; eauto|lia].
  Qed.

  Hypothesis Hci : 0 <= ci.
  Hypothesis Hcd : 0 <= cd.
  Hypothesis Hcs : 0 <= cs.

  Lemma align_delete s t c : align s t c -> forall u v y, t = u ++ y :: v ->
    exists c', align s (u ++ v) c' /\ c' <= c + cd.
  Proof.
    induction 1 as [|x s t c Ha IH|x z s t c c' Ha IH E|z s t c c' Ha IH E|x s t c c' Ha IH E];
      intros u v y Et.
    - destruct u; discriminate.
    - destruct u as [|w u]; cbn in *; injection Et as -> ->.
      + exists (c + cd). split; [|lia]. eapply al_del; eauto.
      + destruct (IH u v y eq_refl) as (c' & H1 & H2). exists c'. split; auto. constructor; auto.
    - destruct u as [|w u]; cbn in *; injection Et as -> ->.
      + exists (c + cd). split; [|lia]. eapply al_del; eauto.
      + destruct (IH u v y eq_refl) as (c'' & H1 & H2). exists (c'' + cs). split; [|lia].
        eapply al_sub; eauto.
    - destruct u as [|w u]; cbn in *; injection Et as -> ->.
      + exists c. split; auto. lia.
      + destruct (IH u v y eq_refl) as (c'' & H1 & H2). exists (c'' + ci). split; [|lia].
        eapply al_ins; eauto.
    - destruct (IH u v y Et) as (c'' & H1 & H2). exists (c'' + cd). split; [|lia]. eapply al_del; eauto.
  Qed.

  Lemma align_subst s t c : align s t c -> forall u v y z, t = u ++ y :: v ->
    exists c', align s (u ++ z :: v) c' /\ c' <= c + cs.
  Proof.
    induction 1 as [|x s t c Ha IH|x w s t c c' Ha IH E|w s t c c' Ha IH E|x s t c c' Ha IH E];
      intros u v y z Et.
    - destruct u; discriminate.
    - destruct u as [|w u]; cbn in *; injection Et as -> ->.
      + exists (c + cs). split; [|lia]. eapply al_sub; eauto.
      + destruct (IH u v y z eq_refl) as (c' & H1 & H2). exists c'. split; auto. constructor; auto.
    - destruct u as [|w' u]; cbn in *; injection Et as -> ->.
      + exists (c + cs). split; [|lia]. eapply al_sub; eauto.
      + destruct (IH u v y z eq_refl) as (c'' & H1 & H2). exists (c'' + cs). split; [|lia].
        eapply al_sub; eauto.
    - destruct u as [|w' u]; cbn in *; injection Et as -> ->.
      + exists (c + ci). split; [|lia]. eapply al_ins; eauto.
      + destruct (IH u v y z eq_refl) as (c'' & H1 & H2). exists (c'' + ci). split; [|lia].
        eapply al_ins; eauto.
    - destruct (IH u v y z Et) as (c'' & H1 & H2). exists (c'' + cd). split; [|lia]. eapply al_del; eauto.
  Qed.

  Lemma path_align s t c : edit_path ci cd cs s t c -> exists c', align s t c' /\ c' <= c.
  Proof.
    induction 1 as [s|s t u c d Hp (c' & Ha & Hc) Hs].
    - exists 0. split; [apply align_refl|lia].
    - inversion Hs; subst.
      + exists (c' + ci). split; [|lia]. eapply align_insert; eauto.
      + destruct (align_delete _ _ _ Ha _ _ _ eq_refl) as (c'' & H1 & H2). exists c''; split; auto; lia.
      + destruct (align_subst _ _ _ Ha _ _ _ y eq_refl) as (c'' & H1 & H2). exists c''; split; auto; lia.
  Qed.

  Lemma path_cons (x : A) s t c : edit_path ci cd cs s t c -> edit_path ci cd cs (x :: s) (x :: t) c.
  Proof.
    induction 1 as [s|s t u c d Hp IH Hs]; [constructor|].
    econstructor; [exact IH|]. inversion Hs; subst.
    - apply (step_insert _ _ _ (x :: u0)).
    - apply (step_delete _ _ _ (x :: u0)).
    - apply (step_subst _ _ _ (x :: u0)).
  Qed.
  Lemma path_cons_l s t c (x : A) : edit_path ci cd cs s t c -> edit_path ci cd cs (x :: s) t (c + cd).
  Proof.
    intros Hp. econstructor; [apply path_cons; eauto|]. apply (step_delete _ _ _ []).
  Qed.
  Lemma align_path s t c : align s t c -> edit_path ci cd cs s t c.
  Proof.
    induction 1 as [|x s t c Ha IH|x w s t c c' Ha IH ->|w s t c c' Ha IH ->|x s t c c' Ha IH ->].
    - constructor.
    - apply path_cons; auto.
    - econstructor; [apply path_cons; eauto|]. apply (step_subst _ _ _ []).
    - econstructor; [eauto|]. apply (step_insert _ _ _ []).
    - apply path_cons_l; auto.
  Qed.

  Lemma align_app s1 t1 c1 s2 t2 c2 : align s1 t1 c1 -> align s2 t2 c2 ->
    align (s1 ++ s2) (t1 ++ t2) (c1 + c2).
  Proof.
    intros H1 H2. induction H1; cbn.
    - eapply align_eq; [eauto|lia].
    - constructor; auto.
    - eapply al_sub; [eauto|lia].
    - eapply al_ins; [eauto|lia].
    - eapply al_del; [eauto|lia].
  Qed.
  Lemma align_rev s t c : align s t c -> align (rev s) (rev t) c.
  Proof.
    induction 1 as [|x s t c Ha IH|x w s t c c' Ha IH ->|w s t c c' Ha IH ->|x s t c c' Ha IH ->]; cbn.
    - constructor.
    - eapply align_eq; [apply align_app; [exact IH|apply align_refl]|lia].
    - apply align_app; [exact IH|]. eapply al_sub; [constructor|lia].
    - rewrite <- (app_nil_r (rev s)). apply align_app; [exact IH|]. eapply al_ins; [constructor|lia].
    - rewrite <- (app_nil_r (rev t)). apply align_app; [exact IH|]. eapply al_del; [constructor|lia].
  Qed.
End Align.

(** ** the matrix *)
Section Lv.
  Context {A : Type} `{Eq A}.
  Variable cs : Z.
  Hypothesis Hcs : 0 <= cs.

  Fixpoint lv (xs : list A) : list A -> Z :=
    match xs with
    | [] => fun ys => Z.of_nat (length ys)
    | x :: xs' =>
      fix inner ys :=
        match ys with
        | [] => Z.of_nat (length xs)
        | y :: ys' => lev_cell 1 1 cs x y (lv xs' ys') (lv xs' ys) (inner ys')
        end
    end.
  Lemma lv_nil_r xs : lv xs [] = Z.of_nat (length xs).
  Proof. destruct xs; auto. Qed.
  Lemma lv_cons x xs y ys :
    lv (x :: xs) (y :: ys) = lev_cell 1 1 cs x y (lv xs ys) (lv xs (y :: ys)) (lv (x :: xs) ys).
  Proof. reflexivity. Qed.
  Lemma lv_cons_val x xs y ys :
    lv (x :: xs) (y :: ys) =
    Z.min (Z.min (lv (x :: xs) ys + 1) (lv xs (y :: ys) + 1)) (lv xs ys + if eqb x y then 0 else cs).
  Proof. reflexivity. Qed.

  Lemma lv_ins y xs ys : lv xs (y :: ys) <= lv xs ys + 1.
  Proof.
    destruct xs as [|x xs].
    - cbn. lia.
    - rewrite lv_cons_val. lia.
  Qed.
  Lemma lv_del x xs ys : lv (x :: xs) ys <= lv xs ys + 1.
  Proof.
    destruct ys as [|y ys].
    - rewrite !lv_nil_r. cbn [length]. lia.
    - rewrite lv_cons_val. lia.
  Qed.
  Lemma lv_lower xs ys c : align 1 1 cs xs ys c -> lv xs ys <= c.
  Proof.
    induction 1 as [|x s t c Ha IH|x w s t c c' Ha IH ->|w s t c c' Ha IH ->|x s t c c' Ha IH ->].
    - cbn. lia.
    - rewrite lv_cons_val, eqb_refl. lia.
    - rewrite lv_cons_val. destruct (eqb x w); lia.
    - pose proof (lv_ins w s t). lia.
    - pose proof (lv_del x s t). lia.
  Qed.
  Lemma align_all_ins (ys : list A) : align 1 1 cs [] ys (Z.of_nat (length ys)).
  Proof. induction ys as [|y ys IH]; [constructor|]. eapply al_ins; [eauto|]. cbn [length]; lia. Qed.
  Lemma align_all_del (ys : list A) : align 1 1 cs ys [] (Z.of_nat (length ys)).
  Proof. induction ys as [|y ys IH]; [constructor|]. eapply al_del; [eauto|]. cbn [length]; lia. Qed.
  Lemma lv_align n : forall xs ys, (length xs + length ys <= n)%nat -> align 1 1 cs xs ys (lv xs ys).
  Proof.
    induction n as [|n IH]; intros xs ys Hn.
    - destruct xs, ys; cbn in Hn; try lia. constructor.
    - destruct xs as [|x xs]; [apply align_all_ins|].
      destruct ys as [|y ys]; [apply align_all_del|]. cbn [length] in Hn.
      rewrite lv_cons_val.
      set (a := lv (x :: xs) ys + 1). set (b := lv xs (y :: ys) + 1).
      destruct (Z.min_spec (Z.min a b) (lv xs ys + (if eqb x y then 0 else cs))) as [[Hlt ->]|[Hge ->]].
      + destruct (Z.min_spec a b) as [[_ ->]|[_ ->]].
        * eapply al_ins; [apply IH; cbn [length]; lia|reflexivity].
        * eapply al_del; [apply IH; cbn [length]; lia|reflexivity].
      + destruct (eqb_ok x y) as [->|Hne].
        * eapply align_eq; [constructor; apply IH; lia|lia].
        * eapply al_sub; [apply IH; lia|reflexivity].
  Qed.
  Lemma lv_nonneg_bound n : forall xs ys, (length xs + length ys <= n)%nat ->
    0 <= lv xs ys.
  Proof.
    induction n as [|n IH]; intros xs ys Hn.
    - destruct xs, ys; cbn in Hn; cbn; lia.
    - destruct xs as [|x xs]; [cbn; lia|].
      destruct ys as [|y ys]; [cbn; lia|]. cbn [length] in Hn.
      rewrite lv_cons_val.
      pose proof (IH xs ys ltac:(lia)). pose proof (IH (x :: xs) ys ltac:(cbn [length]; lia)).
      pose proof (IH xs (y :: ys) ltac:(cbn [length]; lia)). destruct (eqb x y); lia.
  Qed.

  Lemma lev_entry xs ys i j : (i <= length xs)%nat -> (j <= length ys)%nat ->
    entry (compute_cost_matrix xs ys 1 1 cs) i j = Ok (lv (rev (firstn i xs)) (rev (firstn j ys))).
  Proof.
    intros Hi Hj. unfold compute_cost_matrix.
    apply (dp_matrix_ok (lev_cell 1 1 cs) Z.of_nat lv); auto.
    - intros; apply lv_nil_r.
    - intros q Hq. cbn. rewrite rev_length, firstn_length, nth_error_map, nth_error_seq.
      destruct (Nat.ltb_spec q (length ys + 1)); [|lia]. cbn. do 2 f_equal. lia.
  Qed.

  Lemma lv_cheapest xs ys : cheapest 1 1 cs xs ys (lv (rev xs) (rev ys)).
  Proof.
    split.
    - apply align_path; try lia.
      rewrite <- (rev_involutive xs) at 1. rewrite <- (rev_involutive ys) at 1.
      apply align_rev; try lia. eapply lv_align; eauto.
    - intros c' Hp. apply path_align in Hp as (c & Ha & Hc); try lia.
      apply align_rev in Ha; try lia. apply lv_lower in Ha; lia.
  Qed.

  Theorem cost_entry_cheapest xs ys :
    exists c, entry (compute_cost_matrix xs ys 1 1 cs) (length xs) (length ys) = Ok c /\
              cheapest 1 1 cs xs ys c.
  Proof.
    rewrite lev_entry by auto. rewrite !firstn_all. eexists; split; [reflexivity|].
    apply lv_cheapest.
  Qed.
End Lv.

(** ** backtrace, unit costs *)
Section Back.
  Context {A : Type} `{Eq A}.
  Variables s t : list A.
  Notation C := (compute_cost_matrix s t 1 1 1).
  Notation L i j := (lv 1 (rev (firstn i s)) (rev (firstn j t))).

  Inductive R : nat -> nat -> list edit_op -> Prop :=
  | R_nil : R 0 0 []
  | R_match i j O x : R i j O -> nth_error s i = Some x -> nth_error t j = Some x -> R (S i) (S j) O
  | R_sub i j O : R i j O -> (i < length s)%nat -> (j < length t)%nat ->
                  R (S i) (S j) (EditOperation i j SUBSTITUTE :: O)
  | R_del i j O : R i j O -> (i < length s)%nat -> R (S i) j (EditOperation i j DELETE :: O)
  | R_ins i j O : R i j O -> (j < length t)%nat -> R i (S j) (EditOperation i j INSERT :: O).

  Lemma lv_upper (xs ys : list A) : lv 1 xs ys <= Z.of_nat (Nat.max (length xs) (length ys)).
  Proof.
    revert ys; induction xs as [|x xs IH]; intros ys; [cbn; lia|].
    destruct ys as [|y ys]; [cbn; lia|]. rewrite lv_cons_val. cbn [length].
    specialize (IH ys). destruct (eqb x y); lia.
  Qed.

  Hypothesis Hs : Z.of_nat (length s) <= 100000.
  Hypothesis Ht : Z.of_nat (length t) <= 100000.

  Lemma L_bound i j : (i <= length s)%nat -> (j <= length t)%nat -> 0 <= L i j <= 100000.
  Proof.
    intros Hi Hj. pose proof (lv_upper (rev (firstn i s)) (rev (firstn j t))) as Hu.
    rewrite !rev_length, !firstn_length in Hu.
    pose proof (lv_nonneg_bound 1 ltac:(lia) _ (rev (firstn i s)) (rev (firstn j t)) (le_n _)). lia.
  Qed.

  Lemma backtrace_loop_ok : forall fuel i j edits,
    (i + j <= fuel)%nat -> (i <= length s)%nat -> (j <= length t)%nat ->
    exists r O, backtrace_loop fuel C i j edits = Ok r /\ Permutation r (edits ++ O) /\
                R i j O /\ Z.of_nat (length O) = L i j.
  Proof.
    assert (H00 : forall fuel edits, exists r O, backtrace_loop fuel C 0 0 edits = Ok r /\
              Permutation r (edits ++ O) /\ R 0 0 O /\ Z.of_nat (length O) = L 0 0).
    { intros fuel edits. exists edits, []. rewrite app_nil_r. repeat split; auto; [|constructor].
      destruct fuel; reflexivity. }
    induction fuel as [|fuel IH]; intros i j edits Hf Hi Hj.
    - replace i with 0%nat by lia. replace j with 0%nat by lia. apply H00.
    - destruct i as [|i], j as [|j]; [apply H00| | |].
      + (* i = 0 *)
        cbn [backtrace_loop Nat.eqb andb orb negb bind].
        replace (S j - 1)%nat with j by lia.
        rewrite (lev_entry 1 s t 0 j), (lev_entry 1 s t 0 (S j)) by lia. cbn [bind].
        pose proof (L_bound 0 j ltac:(lia) ltac:(lia)) as Hb.
        assert (E1 : L 0 j = Z.of_nat j) by (cbn; rewrite rev_length, firstn_length; lia).
        assert (E2 : L 0 (S j) = Z.of_nat (S j)) by (transitivity (Z.of_nat (length (rev (firstn (S j) t)))); [reflexivity|rewrite rev_length, firstn_length; lia]).
        rewrite E1, E2. rewrite E1 in Hb. unfold MAX_COST. rewrite Z.min_r by lia.
        destruct (Z.eqb_spec (Z.of_nat j) (Z.of_nat (S j))); [lia|]. rewrite Z.eqb_refl.
        destruct (IH 0%nat j (rev (edits ++ [EditOperation 0 j INSERT]))) as (r & O & E & HP & HR & HL); try lia.
        exists r, (EditOperation 0 j INSERT :: O). rewrite E. repeat split; auto.
        * rewrite HP, <- Permutation_rev, <- app_assoc. auto.
        * constructor; auto.
        * cbn [length]. lia.
      + (* j = 0 *)
        cbn [backtrace_loop Nat.eqb andb orb negb bind].
        replace (S i - 1)%nat with i by lia.
        rewrite (lev_entry 1 s t i 0), (lev_entry 1 s t (S i) 0) by lia. cbn [bind].
        pose proof (L_bound i 0 ltac:(lia) ltac:(lia)) as Hb.
        assert (E1 : L i 0 = Z.of_nat i) by (transitivity (Z.of_nat (length (rev (firstn i s)))); [apply lv_nil_r|rewrite rev_length, firstn_length; lia]).
        assert (E2 : L (S i) 0 = Z.of_nat (S i)) by (transitivity (Z.of_nat (length (rev (firstn (S i) s)))); [apply lv_nil_r|rewrite rev_length, firstn_length; lia]).
        rewrite E1, E2. rewrite E1 in Hb. unfold MAX_COST. rewrite Z.min_r by lia.
        destruct (Z.eqb_spec (Z.of_nat i) (Z.of_nat (S i))); [lia|]. rewrite Z.eqb_refl.
        destruct (IH i 0%nat (rev (edits ++ [EditOperation i 0 DELETE]))) as (r & O & E & HP & HR & HL); try lia.
        exists r, (EditOperation i 0 DELETE :: O). rewrite E. repeat split; auto.
        * rewrite HP, <- Permutation_rev, <- app_assoc. auto.
        * constructor; auto.
        * cbn [length]. lia.
      + cbn [backtrace_loop Nat.eqb andb orb negb bind].
        replace (S j - 1)%nat with j by lia. replace (S i - 1)%nat with i by lia.
        rewrite (lev_entry 1 s t i j), (lev_entry 1 s t i (S j)), (lev_entry 1 s t (S i) j),
          (lev_entry 1 s t (S i) (S j)) by lia. cbn [bind].
        pose proof (L_bound i j ltac:(lia) ltac:(lia)) as Hb1.
        pose proof (L_bound i (S j) ltac:(lia) ltac:(lia)) as Hb2.
        pose proof (L_bound (S i) j ltac:(lia) ltac:(lia)) as Hb3.
        destruct (nth_error_lt s i Hi) as [x Ex]. destruct (nth_error_lt t j Hj) as [y Ey].
        assert (Eh : L (S i) (S j) = Z.min (Z.min (L (S i) j + 1) (L i (S j) + 1))
                                           (L i j + if eqb x y then 0 else 1)).
        { rewrite (firstn_S_rev s i x Ex), (firstn_S_rev t j y Ey). apply lv_cons_val. }
        set (d := L i j) in *. set (u := L i (S j)) in *. set (l := L (S i) j) in *.
        set (h := L (S i) (S j)) in *. unfold MAX_COST.
        set (m := Z.min (Z.min (Z.min 100000 d) u) l).
        assert (Hm : m = Z.min (Z.min d u) l) by (unfold m; lia).
        destruct (Z.eqb_spec m h) as [Emh|Emh].
        { destruct (eqb_ok x y) as [->|Hne]; [|lia].
          destruct (IH i j (rev edits)) as (r & O & E & HP & HR & HL); try lia.
          exists r, O. rewrite E. repeat split; auto.
          * rewrite HP, <- Permutation_rev. auto.
          * econstructor; eauto.
          * fold d in HL. lia. }
        destruct (Z.eqb_spec m d) as [Emd|Emd].
        { destruct (IH i j (rev (edits ++ [EditOperation i j SUBSTITUTE]))) as (r & O & E & HP & HR & HL); try lia.
          exists r, (EditOperation i j SUBSTITUTE :: O). rewrite E. repeat split; auto.
          * rewrite HP, <- Permutation_rev, <- app_assoc. auto.
          * constructor; auto.
          * cbn [length]. fold d in HL. destruct (eqb x y); lia. }
        destruct (Z.eqb_spec m u) as [Emu|Emu].
        { destruct (IH i (S j) (rev (edits ++ [EditOperation i (S j) DELETE]))) as (r & O & E & HP & HR & HL); try lia.
          exists r, (EditOperation i (S j) DELETE :: O). rewrite E. repeat split; auto.
          * rewrite HP, <- Permutation_rev, <- app_assoc. auto.
          * constructor; auto.
          * cbn [length]. fold u in HL. destruct (eqb x y); lia. }
        destruct (Z.eqb_spec m l) as [Eml|Eml]; [|lia].
        destruct (IH (S i) j (rev (edits ++ [EditOperation (S i) j INSERT]))) as (r & O & E & HP & HR & HL); try lia.
        exists r, (EditOperation (S i) j INSERT :: O). rewrite E. repeat split; auto.
        * rewrite HP, <- Permutation_rev, <- app_assoc. auto.
        * constructor; auto.
        * cbn [length]. fold l in HL. destruct (eqb x y); lia.
  Qed.
End Back.
