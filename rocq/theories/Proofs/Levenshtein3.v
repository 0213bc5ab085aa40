(** Levenshtein: order of the operations (C12), arbitrary costs (C13) *)
From Coq Require Import Sorted.
From Verif.Model Require Import Base DP Levenshtein.
From Verif.Spec Require Import Edit EditOps.
From Verif.Lib Require Import ListLib.
From Verif.Proofs Require Import ListUtils2 Lcs Levenshtein.
Open Scope nat_scope.

(** ** order *)
Definition from (i j : nat) (o : edit_op) : Prop := i <= op_i o /\ j <= op_j o.
Definition hill (i j : nat) (l : list edit_op) : Prop :=
  exists up down, l = up ++ down /\ StronglySorted before up /\ StronglySorted (fun o p => before p o) down /\ Forall (from i j) l /\
    ForallOrdPairs (fun o p => before o p \/ before p o) l.
Lemma sorted_rev {X} (R : X -> X -> Prop) l : StronglySorted R l -> StronglySorted (fun a b => R b a) (rev l).
Proof.
  assert (Hsnoc : forall l x, StronglySorted (fun a b => R b a) l -> Forall (fun y => R x y) l -> StronglySorted (fun a b => R b a) (l ++ [x])).
  { clear. induction 1 as [|a l Hl IH Ha]; cbn; intros Hx; [repeat constructor|]. inversion Hx; subst. constructor; auto.
    apply Forall_app. split; auto. }
  induction 1 as [|a l Hl IH Ha]; cbn; [constructor|]. apply Hsnoc; auto. apply Forall_rev. auto.
Qed.
Lemma pairs_rev {X} (R : X -> X -> Prop) l : (forall a b, R a b -> R b a) -> ForallOrdPairs R l -> ForallOrdPairs R (rev l).
Proof.
  intros Hs. assert (Hsnoc : forall l x, ForallOrdPairs R l -> Forall (R x) l -> ForallOrdPairs R (l ++ [x])).
  { clear - Hs. intros l x. induction 1 as [|a l Ha Hl IH]; cbn; intros Hx; [repeat constructor|]. inversion Hx; subst. constructor; auto.
    apply Forall_app. split; auto. }
  induction 1 as [|a l Ha Hl IH]; cbn; [constructor|]. apply Hsnoc; auto. apply Forall_rev. auto.
Qed.
Lemma hill_rev i j i' j' l : hill i j l -> i' <= i -> j' <= j -> hill i' j' (rev l).
Proof.
  intros (up & down & -> & Hu & Hd & Hf & Hp) Hi Hj. exists (rev down), (rev up). split; [apply rev_app_distr|].
  split; [apply (sorted_rev (fun o p => before p o)); auto|]. split; [apply sorted_rev; auto|].
  split; [|apply pairs_rev; [tauto|auto]].
  apply Forall_rev. eapply Forall_impl; [|exact Hf]. unfold from. intros; lia.
Qed.
Lemma hill_snoc i j l o : hill i j l -> op_i o <= i -> op_j o <= j -> op_i o + op_j o < i + j -> hill (op_i o) (op_j o) (rev (l ++ [o])).
Proof.
  intros (up & down & -> & Hu & Hd & Hf & Hp) Hi Hj Hij. rewrite rev_app_distr. cbn [rev app]. rewrite rev_app_distr.
  exists (o :: rev down), (rev up). split; [auto|]. apply Forall_app in Hf. destruct Hf as [Hf1 Hf2].
  split; [constructor|split; [|split]].
  - apply (sorted_rev (fun o p => before p o)); auto.
  - apply Forall_rev. eapply Forall_impl; [|exact Hf2]. unfold from, before. intros; lia.
  - apply sorted_rev; auto.
  - constructor; [unfold from; lia|]. apply Forall_app. split; apply Forall_rev; (eapply Forall_impl; [|eassumption]); unfold from; intros; lia.
  - cbn [app]. constructor.
    + apply Forall_app. split; apply Forall_rev; (eapply Forall_impl; [|eassumption]); unfold from, before; intros; lia.
    + rewrite <- rev_app_distr. apply pairs_rev; [tauto|auto].
Qed.
Lemma backtrace_hill C fuel : forall i j edits r, hill i j edits -> backtrace_loop fuel C i j edits = Ok r -> hill 0 0 r.
Proof.
  induction fuel as [|fuel IH]; intros i j edits r Hh E; cbn [backtrace_loop] in E.
  - destruct ((i =? 0) && (j =? 0)) eqn:E0; [|discriminate]. injection E as <-. apply andb_true_iff in E0. destruct E0 as [Ei%Nat.eqb_eq Ej%Nat.eqb_eq]. subst. auto.
  - destruct ((i =? 0) && (j =? 0)) eqn:E0.
    { injection E as <-. apply andb_true_iff in E0. destruct E0 as [Ei%Nat.eqb_eq Ej%Nat.eqb_eq]. subst. auto. }
    cbv zeta in E.
    destruct (if negb (i =? 0) && negb (j =? 0) then _ else _) as [m1|]; cbn [bind] in E; [|discriminate].
    destruct (if negb (i =? 0) then _ else _) as [m2|]; cbn [bind] in E; [|discriminate].
    destruct (if negb (j =? 0) then do d <- _; _ else _) as [m3|]; cbn [bind] in E; [|discriminate].
    destruct (entry C i j) as [here|]; cbn [bind] in E; [|discriminate].
    destruct (m3 =? here)%Z.
    { destruct ((i =? 0) || (j =? 0)); [discriminate|]. eapply IH; [|exact E]. eapply hill_rev; eauto; lia. }
    destruct (Nat.eqb_spec i 0) as [->|Hi], (Nat.eqb_spec j 0) as [->|Hj]; cbn [negb andb] in E; try discriminate.
    + destruct (match entry C 0 (j - 1) with Ok d => _ | Err _ => _ end); (eapply IH; [|exact E]).
      * apply (hill_snoc 0 j edits (EditOperation 0 (j - 1) INSERT)); cbn; auto; lia.
      * eapply hill_rev; eauto.
    + destruct (match entry C (i - 1) 0 with Ok d => _ | Err _ => _ end); (eapply IH; [|exact E]).
      * apply (hill_snoc i 0 edits (EditOperation (i - 1) 0 DELETE)); cbn; auto; lia.
      * eapply hill_rev; eauto.
    + destruct (match entry C (i - 1) (j - 1) with Ok d => _ | Err _ => _ end); [|destruct (match entry C (i - 1) j with Ok d => _ | Err _ => _ end);
        [|destruct (match entry C i (j - 1) with Ok d => _ | Err _ => _ end)]]; (eapply IH; [|exact E]).
      * apply (hill_snoc i j edits (EditOperation (i - 1) (j - 1) SUBSTITUTE)); cbn; auto; lia.
      * apply (hill_snoc i j edits (EditOperation (i - 1) j DELETE)); cbn; auto; lia.
      * apply (hill_snoc i j edits (EditOperation i (j - 1) INSERT)); cbn; auto; lia.
      * eapply hill_rev; eauto.
Qed.
Theorem operations_order {A} `{Eq A} (s t : list A) fuel ins del sub c ops :
  levenshtein_with_backtrace fuel s t ins del sub = Ok (c, ops) ->
  exists up down, ops = up ++ down /\ StronglySorted before up /\ StronglySorted (fun o p => before p o) down /\
    ForallOrdPairs (fun o p => before o p \/ before p o) ops.
Proof.
  unfold levenshtein_with_backtrace, backtrace. destruct (backtrace_loop _ _ _ _ _) as [r|] eqn:E; cbn [bind]; [|discriminate].
  destruct (entry _ _ _); cbn [bind]; [|discriminate]. intros Q; injection Q as <- <-.
  apply backtrace_hill in E.
  - destruct E as (up & down & ? & ? & ? & _ & ?). eauto 8.
  - exists [], []. split; [auto|]. split; [constructor|]. split; [constructor|]. split; constructor.
Qed.

(** ** arbitrary costs *)
Open Scope Z_scope.
Section W.
  Context {A : Type} `{HA : Eq A}.
  Variables ins del sub : Z.
  Fixpoint lw (xs : list A) : list A -> Z :=
    match xs with
    | [] => fun ys => Z.of_nat (length ys)
    | x :: xs' =>
      fix inner ys :=
        match ys with
        | [] => Z.of_nat (length xs)
        | y :: ys' => lev_cell ins del sub x y (lw xs' ys') (lw xs' ys) (inner ys')
        end
    end.
  Lemma lw_nil_r xs : lw xs [] = Z.of_nat (length xs).
  Proof. destruct xs; auto. Qed.
  Lemma lw_cons_val x xs y ys :
    lw (x :: xs) (y :: ys) = Z.min (Z.min (lw (x :: xs) ys + ins) (lw xs (y :: ys) + del)) (lw xs ys + if eqb x y then 0 else sub).
  Proof. reflexivity. Qed.
  Lemma lw_entry xs ys i j : (i <= length xs)%nat -> (j <= length ys)%nat ->
    entry (compute_cost_matrix xs ys ins del sub) i j = Ok (lw (rev (firstn i xs)) (rev (firstn j ys))).
  Proof.
    intros Hi Hj. unfold compute_cost_matrix.
    apply (dp_matrix_ok (lev_cell ins del sub) Z.of_nat lw); auto.
    - intros; apply lw_nil_r.
    - intros q Hq. cbn. rewrite rev_length, firstn_length, nth_error_map, nth_error_seq.
      destruct (Nat.ltb_spec q (length ys + 1)); [|lia]. cbn. do 2 f_equal. lia.
  Qed.
  Notation al := (priced_alignment (A:=A) ins del sub).
  Lemma lw_lower s t c : al s t c -> lw (rev s) (rev t) <= c.
  Proof.
    induction 1 as [|s t c y Ha IH|s t c x Ha IH|s t c x Ha IH|s t c x y Ha IH Hne]; rewrite ?rev_app_distr; cbn [rev app].
    - cbn. lia.
    - destruct s as [|x s] using rev_ind; cbn [rev] in *.
      + cbn [lw length] in *. lia.
      + rewrite rev_app_distr in *. cbn [rev app] in *. rewrite lw_cons_val. destruct (s ++ [x]) eqn:Q; [destruct s; discriminate|]. lia.
    - destruct t as [|y t] using rev_ind; cbn [rev] in *.
      + rewrite lw_nil_r in *. cbn [length]. lia.
      + rewrite rev_app_distr in *. cbn [rev app] in *. rewrite lw_cons_val. destruct (t ++ [y]) eqn:Q; [destruct t; discriminate|]. lia.
    - rewrite lw_cons_val, eqb_refl. lia.
    - rewrite lw_cons_val. destruct (eqb_ok x y); [contradiction|]. lia.
  Qed.
  Lemma al_eq s t c c' : al s t c -> c = c' -> al s t c'.
  Proof. intros ? <-. auto. Qed.
  Lemma lw_attained n : forall xs ys, (length xs + length ys <= n)%nat -> al (rev xs) (rev ys) (lw xs ys).
  Proof.
    induction n as [|n IH]; intros xs ys Hn.
    - destruct xs, ys; cbn in Hn; try lia. constructor.
    - destruct xs as [|x xs], ys as [|y ys]; cbn [length rev] in *.
      + constructor.
      + eapply al_eq; [apply pa_insert; apply (IH [] ys); cbn; lia|]. cbn [lw length]. lia.
      + eapply al_eq; [apply pa_delete; apply (IH xs []); cbn; lia|]. rewrite lw_nil_r. cbn [length lw]. lia.
      + rewrite lw_cons_val.
        pose proof (IH xs ys ltac:(lia)) as H1. pose proof (IH (x :: xs) ys ltac:(cbn [length]; lia)) as H2. pose proof (IH xs (y :: ys) ltac:(cbn [length]; lia)) as H3.
        cbn [rev] in H2, H3.
        apply (pa_insert ins del sub _ _ _ y) in H2. apply (pa_delete ins del sub _ _ _ x) in H3.
        assert (E2 : match rev xs ++ [x] with [] => 1 | _ => ins end = ins) by (destruct (rev xs); auto). rewrite E2 in H2.
        assert (E3 : match rev ys ++ [y] with [] => 1 | _ => del end = del) by (destruct (rev ys); auto). rewrite E3 in H3.
        assert (H4 : al (rev xs ++ [x]) (rev ys ++ [y]) (lw xs ys + if eqb x y then 0 else sub)).
        { destruct (eqb_ok x y) as [->|Hne]; [eapply al_eq; [apply pa_keep; exact H1|lia]|apply pa_change; auto]. }
        destruct (Z.min_spec (Z.min (lw (x :: xs) ys + ins) (lw xs (y :: ys) + del)) (lw xs ys + if eqb x y then 0 else sub)) as [[_ ->]|[_ ->]]; auto.
        destruct (Z.min_spec (lw (x :: xs) ys + ins) (lw xs (y :: ys) + del)) as [[_ ->]|[_ ->]]; auto.
  Qed.
  Variable M : Z.
  Hypothesis Hins : 0 <= ins <= M.
  Hypothesis Hdel : 0 <= del <= M.
  Hypothesis Hsub : 0 <= sub <= M.
  Hypothesis HM : 1 <= M.
  Lemma lw_bounds n : forall xs ys, (length xs + length ys <= n)%nat -> 0 <= lw xs ys <= Z.of_nat (length xs + length ys) * M.
  Proof.
    induction n as [|n IH]; intros xs ys Hn.
    - destruct xs, ys; cbn in Hn; try lia. cbn. lia.
    - destruct xs as [|x xs], ys as [|y ys]; cbn [length] in *; try (rewrite ?lw_nil_r; cbn [lw length]; nia).
      rewrite lw_cons_val. pose proof (IH xs ys ltac:(lia)). pose proof (IH (x :: xs) ys ltac:(cbn [length]; lia)).
      pose proof (IH xs (y :: ys) ltac:(cbn [length]; lia)). cbn [length] in *. destruct (eqb x y); nia.
  Qed.
  Variables s t : list A.
  Hypothesis Hlen : Z.of_nat (length s + length t) * M <= 100000.
  Notation C := (compute_cost_matrix s t ins del sub).
  Lemma loop_ends : forall fuel i j edits, (i + j <= fuel)%nat -> (i <= length s)%nat -> (j <= length t)%nat ->
    exists r, backtrace_loop fuel C i j edits = Ok r.
  Proof.
    assert (Hb : forall i j, (i <= length s)%nat -> (j <= length t)%nat -> exists v, entry C i j = Ok v /\ 0 <= v <= 100000).
    { intros i j Hi Hj. rewrite lw_entry by auto. eexists. split; [reflexivity|].
      pose proof (lw_bounds _ (rev (firstn i s)) (rev (firstn j t)) (le_n _)) as Q. rewrite !rev_length, !firstn_length in Q. nia. }
    assert (H0 : forall j, (j <= length t)%nat -> entry C 0 j = Ok (Z.of_nat j)).
    { intros j Hj. rewrite lw_entry by lia. cbn. do 2 f_equal. rewrite rev_length, firstn_length. lia. }
    assert (H1 : forall i, (i <= length s)%nat -> entry C i 0 = Ok (Z.of_nat i)).
    { intros i Hi. rewrite lw_entry by lia. f_equal. cbn [firstn rev]. rewrite lw_nil_r, rev_length, firstn_length. lia. }
    induction fuel as [|fuel IH]; intros i j edits Hf Hi Hj.
    - replace i with 0%nat by lia. replace j with 0%nat by lia. cbn. eauto.
    - destruct i as [|i], j as [|j]; [cbn; eauto| | |]; cbn [backtrace_loop Nat.eqb andb orb negb bind]; rewrite ?Nat.sub_succ, ?Nat.sub_0_r.
      + rewrite (H0 j), (H0 (S j)) by lia. cbn [bind].
        destruct (Hb 0%nat j) as (v & E & Hv); [lia|lia|]. rewrite (H0 j) in E by lia. injection E as <-. unfold MAX_COST. rewrite Z.min_r by lia.
        destruct (Z.eqb_spec (Z.of_nat j) (Z.of_nat (S j))); [lia|]. rewrite Z.eqb_refl. apply IH; lia.
      + rewrite (H1 i), (H1 (S i)) by lia. cbn [bind].
        destruct (Hb i 0%nat) as (v & E & Hv); [lia|lia|]. rewrite (H1 i) in E by lia. injection E as <-. unfold MAX_COST. rewrite Z.min_r by lia.
        destruct (Z.eqb_spec (Z.of_nat i) (Z.of_nat (S i))); [lia|]. rewrite Z.eqb_refl. apply IH; lia.
      + destruct (Hb i j) as (d & Ed & Hd); [lia|lia|]. destruct (Hb i (S j)) as (u & Eu & Hu); [lia|lia|].
        destruct (Hb (S i) j) as (l & El & Hl); [lia|lia|]. destruct (Hb (S i) (S j)) as (h & Eh & Hh); [lia|lia|].
        rewrite Ed, Eu, El, Eh. cbn [bind]. unfold MAX_COST.
        destruct (_ =? h); [apply IH; lia|]. destruct (Z.eqb_spec (Z.min (Z.min (Z.min 100000 d) u) l) d); [apply IH; lia|].
        destruct (Z.eqb_spec (Z.min (Z.min (Z.min 100000 d) u) l) u); [apply IH; lia|].
        destruct (Z.eqb_spec (Z.min (Z.min (Z.min 100000 d) u) l) l); [apply IH; lia|]. lia.
  Qed.
End W.
Theorem weighted_cost {A} `{Eq A} (s t : list A) fuel ins del sub c ops :
  levenshtein_with_backtrace fuel s t ins del sub = Ok (c, ops) ->
  priced_alignment ins del sub s t c /\ forall c', priced_alignment ins del sub s t c' -> c <= c'.
Proof.
  unfold levenshtein_with_backtrace. destruct (backtrace _ _ _ _); cbn [bind]; [|discriminate].
  rewrite lw_entry by auto. cbn [bind]. rewrite !firstn_all. intros Q; injection Q as <- <-. split.
  - rewrite <- (rev_involutive s) at 1. rewrite <- (rev_involutive t) at 1. eapply lw_attained. apply le_n.
  - intros c' Ha. apply lw_lower. auto.
Qed.
Theorem weighted_ends {A} `{Eq A} (s t : list A) fuel ins del sub M :
  0 <= ins <= M -> 0 <= del <= M -> 0 <= sub <= M -> 1 <= M -> Z.of_nat (length s + length t) * M <= 100000 ->
  (length s + length t <= fuel)%nat ->
  exists c ops, levenshtein_with_backtrace fuel s t ins del sub = Ok (c, ops).
Proof.
  intros Hi Hd Hs HM Hl Hf. unfold levenshtein_with_backtrace, backtrace.
  destruct (loop_ends ins del sub M Hi Hd Hs HM s t Hl fuel (length s) (length t) [] Hf) as [r E]; auto.
  rewrite E, lw_entry by auto. cbn [bind]. eauto.
Qed.
Theorem weighted_operations_witness :
  levenshtein_with_backtrace 2 [1%nat] [2%nat] 1 1 0 = Ok (0, []) /\ apply_ops [] [1%nat] [2%nat] <> [2%nat] /\
  levenshtein_with_backtrace 2 [1%nat] [2%nat] 1 1 3 = Ok (2, [EditOperation 0 0 SUBSTITUTE]).
Proof. split; [reflexivity|]. split; [discriminate|reflexivity]. Qed.
