(** Quantile based discretization (C87) and discretization with trained bins
    (C88) *)
From Coq Require Import Permutation Sorted QArith Qcanon String.
From Verif.Model Require Import Base Sort LogNoise Dataset Transformers Discretization.
From Verif.Spec Require Import DatasetSpec TransformSpec QuantileSpec.
From Verif.Lib Require Import ListLib DictLib SortLib.
From Verif.Proofs Require Import PetriA ParallelB LogNoise DatasetA DatasetB DatasetC TransformersA TransformersB TransformersC.
Open Scope string_scope.
Open Scope list_scope.
Open Scope nat_scope.

Section Q.
  Lemma Qc_leb_iff x y : Qc_leb x y = true <-> (x <= y)%Qc.
  Proof. apply Qle_bool_iff. Qed.
  Lemma Qc_leb_false x y : Qc_leb x y = false <-> (y < x)%Qc.
  Proof.
    destruct (Qc_leb x y) eqn:E.
    - apply Qc_leb_iff in E. split; [discriminate|]. intros Hl. exfalso. apply (Qclt_not_le _ _ Hl). auto.
    - split; auto. intros _. destruct (Qc_lt_dec y x) as [|Hl]; auto. apply Qc_leb_iff in Hl. congruence.
  Qed.
  Lemma Qc_sorted l : StronglySorted (fun x y => (x <= y)%Qc) (stable_sort Qc_leb l).
  Proof.
    assert (G : StronglySorted (fun x y => Qc_leb x y = true) (stable_sort Qc_leb l)).
    { apply sort_sorted.
      - intros x y. rewrite !Qc_leb_iff. destruct (Qc_lt_dec x y); auto using Qclt_le_weak.
      - intros x y z. rewrite !Qc_leb_iff. apply Qcle_trans. }
    revert G. clear. induction 1; constructor; auto.
    rewrite Forall_forall in *. intros y Hy. apply Qc_leb_iff. auto.
  Qed.
  Lemma sorted_nth (l : list Qc) : StronglySorted (fun x y => (x <= y)%Qc) l ->
    forall i j x y, i <= j -> nth_error l i = Some x -> nth_error l j = Some y -> (x <= y)%Qc.
  Proof.
    induction 1 as [|z l Hs IH Hf]; intros i j x y Hij Ex Ey.
    - destruct i; discriminate.
    - rewrite Forall_forall in Hf. destruct i as [|i], j as [|j]; cbn [nth_error] in *.
      + assert (x = y) by congruence. subst. apply Qcle_refl.
      + injection Ex as <-. apply Hf. eapply nth_error_In; eauto.
      + lia.
      + eapply IH; [|eauto|eauto]. lia.
  Qed.
  Lemma of_Z_le a b : (a <= b)%Z -> (of_Z a <= of_Z b)%Qc.
  Proof.
    intros Hl. unfold of_Z, Qcle. cbn [this Q2Qc]. rewrite !Qred_correct. rewrite <- Zle_Qle. auto.
  Qed.
  Lemma of_Z_lt a b : (a < b)%Z -> (of_Z a < of_Z b)%Qc.
  Proof.
    intros Hl. unfold of_Z, Qclt. cbn [this Q2Qc]. rewrite !Qred_correct. rewrite <- Zlt_Qlt. auto.
  Qed.
  Lemma of_Z_sub a b : of_Z (a - b) = (of_Z a - of_Z b)%Qc.
  Proof.
    apply Qc_is_canon. unfold of_Z, Qcminus, Qcplus, Qcopp. cbn [this Q2Qc]. rewrite !Qred_correct.
    unfold Z.sub. rewrite inject_Z_plus, inject_Z_opp. reflexivity.
  Qed.
  Lemma of_Z_0 : of_Z 0 = 0%Qc.
  Proof. apply Qc_is_canon. reflexivity. Qed.

  Section Interp.
    Variables (s : list Qc) (n : nat).
    Hypothesis Hs : StronglySorted (fun x y => (x <= y)%Qc) s.
    Hypothesis Hn : 0 < n.
    Lemma n_pos : (0 < of_Z (Z.of_nat n))%Qc.
    Proof. rewrite <- of_Z_0. apply of_Z_lt. lia. Qed.
    (** x + (y - x) * k / n for k <= n lies between x and y and is monotone in k *)
    Lemma interp_mono x y k k' : (x <= y)%Qc -> k <= k' ->
      (x + (y - x) * of_Z (Z.of_nat k) / of_Z (Z.of_nat n) <= x + (y - x) * of_Z (Z.of_nat k') / of_Z (Z.of_nat n))%Qc.
    Proof.
      intros Hxy Hk. rewrite (Qcplus_comm x), (Qcplus_comm x). apply Qc_le_add. apply Qc_div_le; [apply n_pos|].
      rewrite (Qcmult_comm (y - x)), (Qcmult_comm (y - x)). apply Qcmult_le_compat_r.
      - apply of_Z_le. lia.
      - apply (Qc_le_add _ _ (- x)%Qc) in Hxy. rewrite Qcplus_opp_r in Hxy. exact Hxy.
    Qed.
    Lemma interp_0 x y : (x + (y - x) * of_Z (Z.of_nat 0) / of_Z (Z.of_nat n))%Qc = x.
    Proof. cbn [Z.of_nat]. rewrite of_Z_0. field. apply Qc_pos_neq, n_pos. Qed.
    Lemma interp_n x y : (x + (y - x) * of_Z (Z.of_nat n) / of_Z (Z.of_nat n))%Qc = y.
    Proof. field. apply Qc_pos_neq, n_pos. Qed.
    Lemma cut_point_mono i i' c c' : i <= i' -> cut_point s n i c -> cut_point s n i' c' -> (c <= c')%Qc.
    Proof.
      intros Hi (j & x & y & Ex & Ey & Hj & ->) (j' & x' & y' & Ex' & Ey' & Hj' & ->).
      assert (Hjj : j <= j'). { assert (i * (length s - 1) <= i' * (length s - 1)) by nia. nia. }
      destruct (Nat.eq_dec j j') as [<-|Hne].
      - replace x' with x by congruence. replace y' with y by congruence. apply interp_mono; [|nia].
        eapply (sorted_nth s Hs j (j + 1)); eauto. lia.
      - apply Qcle_trans with y.
        + rewrite <- (interp_n x y) at 2. apply interp_mono; [|nia]. eapply (sorted_nth s Hs j (j + 1)); eauto; lia.
        + apply Qcle_trans with x'.
          * eapply (sorted_nth s Hs (j + 1) j'); eauto. lia.
          * rewrite <- (interp_0 x' y') at 1. apply interp_mono; [|lia]. eapply (sorted_nth s Hs j' (j' + 1)); eauto; lia.
    Qed.
  End Interp.

  Lemma quantiles_ok vs n : 1 <= n -> 2 <= length vs ->
    let s := stable_sort Qc_leb vs in
    exists cuts, quantiles vs (Z.of_nat n) = Ok cuts /\ length cuts = n - 1 /\
      (forall i, 1 <= i < n -> exists c, nth_error cuts (i - 1) = Some c /\ cut_point s n i c) /\
      StronglySorted (fun x y => (x <= y)%Qc) cuts.
  Proof.
    intros Hn Hv s. unfold quantiles. destruct (Z.ltb_spec (Z.of_nat n) 1); [lia|].
    fold s. assert (Hl : length s = length vs) by apply sort_length. rewrite Hl.
    destruct (Nat.ltb_spec (length vs) 2); [lia|]. rewrite Nat2Z.id.
    destruct (mapM_some (fun i : nat => let j := (i * (length vs - 1)) / n in let delta := (i * (length vs - 1)) mod n in
                 do x <- of_option IndexError (nth_error s j) ;
                 do y <- of_option IndexError (nth_error s (j + 1)) ;
                 Ok ((x * of_Z (Z.of_nat (n - delta)) + y * of_Z (Z.of_nat delta)) / of_Z (Z.of_nat n))%Qc)
       (seq 1 (n - 1))) as (cuts & E & F).
    { intros i Hi. apply in_seq in Hi. cbv zeta.
      pose proof (Nat.div_mod (i * (length vs - 1)) n ltac:(lia)) as D.
      set (j := i * (length vs - 1) / n) in *. assert (j + 1 < length s) by nia.
      destruct (nth_error s j) eqn:E1; [|apply nth_error_None in E1; lia].
      destruct (nth_error s (j + 1)) eqn:E2; [|apply nth_error_None in E2; lia]. cbn. eauto. }
    exists cuts. split; [exact E|].
    assert (Hc : length cuts = n - 1).
    { rewrite <- (seq_length (n - 1) 1). clear - F. induction F; cbn; auto. }
    split; [auto|].
    assert (Hcut : forall i, 1 <= i < n -> exists c, nth_error cuts (i - 1) = Some c /\ cut_point s n i c).
    { intros i Hi. assert (En : nth_error (seq 1 (n - 1)) (i - 1) = Some i).
      { rewrite nth_error_nth' with (d := 0) by (rewrite seq_length; lia). rewrite seq_nth by lia. f_equal. lia. }
      destruct (Forall2_nth_error_l _ _ _ F (i - 1) i En) as (c & Ec & Ef). exists c. split; auto. cbv zeta in Ef.
      pose proof (Nat.div_mod (i * (length vs - 1)) n ltac:(lia)) as D.
      pose proof (Nat.mod_upper_bound (i * (length vs - 1)) n ltac:(lia)) as M.
      set (j := i * (length vs - 1) / n) in *. set (k := (i * (length vs - 1)) mod n) in *.
      destruct (nth_error s j) as [x|] eqn:E1; [|discriminate]. destruct (nth_error s (j + 1)) as [y|] eqn:E2; [|discriminate].
      cbn in Ef. exists j, x, y. split; [auto|]. split; [auto|]. rewrite Hl. split; [lia|].
      replace (i * (length vs - 1) - j * n) with k by lia. injection Ef as <-.
      rewrite Nat2Z.inj_sub by lia. rewrite of_Z_sub. field. apply Qc_pos_neq, n_pos. lia. }
    split; [auto|].
    (* ascending *)
    assert (G : forall l, (forall i j x y, i <= j -> nth_error l i = Some x -> nth_error l j = Some y -> (x <= y)%Qc) ->
       StronglySorted (fun x y => (x <= y)%Qc) l).
    { clear. induction l as [|x l IH]; intros Hl; constructor.
      - apply IH. intros i j y z Hij Ey Ez. apply (Hl (S i) (S j)); auto. lia.
      - apply Forall_forall. intros y Hy. apply In_nth_error in Hy. destruct Hy as [j Ej]. apply (Hl 0 (S j)); auto. lia. }
    apply G. intros i j x y Hij Ex Ey.
    assert (j < length cuts) by (apply nth_error_Some; congruence).
    destruct (Hcut (i + 1)) as (c & Ec & Hx); [lia|]. destruct (Hcut (j + 1)) as (c' & Ec' & Hy); [lia|].
    replace (i + 1 - 1) with i in Ec by lia. replace (j + 1 - 1) with j in Ec' by lia.
    assert (c = x) by congruence. assert (c' = y) by congruence. subst.
    apply (cut_point_mono s n (Qc_sorted vs) ltac:(lia) (i + 1) (j + 1)); auto. lia.
  Qed.

  Lemma scan_ok show v : forall cuts c0, nth_error cuts 0 = Some c0 -> (c0 < v)%Qc ->
    match scan show (combine cuts (tl cuts)) v with
    | Some l => exists k a b, nth_error cuts k = Some a /\ nth_error cuts (S k) = Some b /\ (a < v)%Qc /\ (v <= b)%Qc /\
                 l = ("(" ++ show a ++ ", " ++ show b ++ "]")%string
    | None => exists c, nth_error cuts (length cuts - 1) = Some c /\ (c < v)%Qc
    end.
  Proof.
    induction cuts as [|c cuts IH]; intros c0 E0 Hlt; [discriminate|]. injection E0 as <-.
    destruct cuts as [|b cuts]; cbn [tl combine scan].
    - exists c. cbn. auto.
    - rewrite (proj2 (Qc_leb_false v c) Hlt). cbn [negb andb]. destruct (Qc_leb v b) eqn:Eb.
      + apply Qc_leb_iff in Eb. exists 0, c, b. cbn. auto.
      + apply Qc_leb_false in Eb. specialize (IH b eq_refl Eb). cbn [tl] in IH.
        change (match cuts with [] => [] | y :: tl' => (b, y) :: combine cuts tl' end) with (combine (b :: cuts) cuts).
        destruct (scan show (combine (b :: cuts) cuts) v).
        * destruct IH as (k & a & b' & A & B & C). exists (S k), a, b'. auto.
        * destruct IH as (c' & A & B). exists c'. split; auto. cbn [length] in *.
          replace (S (S (length cuts)) - 1) with (S (S (length cuts) - 1)) by lia. auto.
  Qed.
  Lemma label_ok show v cuts mn mx : cuts <> [] ->
    exists l, label_for_value show v cuts mn mx = Ok l /\ interval_text show mn mx cuts v l.
  Proof.
    intros Hne. unfold label_for_value. destruct (nth_error cuts 0) as [c0|] eqn:E0; [|destruct cuts; [congruence|discriminate]].
    cbn [of_option bind]. destruct (Qc_leb v c0) eqn:E.
    - apply Qc_leb_iff in E. eexists. split; [reflexivity|]. left. eauto.
    - apply Qc_leb_false in E. pose proof (scan_ok show v cuts c0 E0 E) as G. destruct (scan show (combine cuts (tl cuts)) v).
      + eexists. split; [reflexivity|]. right; left. auto.
      + destruct G as (c & Ec & Hc). rewrite Ec. cbn. eexists. split; [reflexivity|]. right; right. eauto.
  Qed.
End Q.

Section D.
  Context {I T : Type} `{Base.Eq I}.
  Notation heap := (heap I val T).
  Notation dataset := (dataset val).

  (** what one step of the loop does to everything but the values of [n] *)
  Definition relabelled (h1 h2 : heap) (d1 d2 : dataset) (n : string) : Prop :=
    history true h2 d2 /\ insts d2 = insts d1 /\
    (forall m, kind_of d2 m = if eqb m n then Some Categorical else kind_of d1 m) /\
    only_features d1 h1 h2 /\
    (forall a m, In a (insts d1) -> m <> n -> value h2 a m = value h1 a m).

  Lemma uniques_iff (h : heap) (d : dataset) n us : history true h d -> uniques d n = Some us ->
    NoDup us /\ forall v, In v us <-> exists a, In a (insts d) /\ value h a n = Some v.
  Proof.
    intros Hh Hu. apply history_inv in Hh. unfold uniques in Hu. destruct (dict_get n (attrs d)) as [y|] eqn:E; [|discriminate].
    injection Hu as <-. apply (v_uniq _ _ _ Hh n y E).
  Qed.

  (** replacing the values of [n] by texts *)
  Lemma relabel_step (h1 : heap) (d1 : dataset) it n ls :
    history true h1 d1 -> Permutation it (insts d1) -> kind_of d1 n = Some Numerical -> length ls = length it ->
    exists h2 d2,
      (do (h', d') <- to_result (remove_attribute h1 d1 it n) ; to_result (add_attribute Categorical h' d' it n (map Txt ls))) = Ok (h2, d2) /\
      relabelled h1 h2 d1 d2 n /\
      forall i a l, nth_error it i = Some a -> nth_error ls i = Some l -> value h2 a n = Some (Txt l).
  Proof.
    intros Hh Hit Hk Hl. assert (Hn : has_attribute d1 n) by (unfold has_attribute; rewrite Hk; discriminate).
    destruct (replace_step h1 d1 it Categorical n (map Txt ls) Hh Hit Hn) as (h2 & d2 & E2 & G1 & G2 & G3 & G4 & G5).
    { rewrite map_length. auto. }
    exists h2, d2. split; [exact E2|].
    assert (Hval : forall i a l, nth_error it i = Some a -> nth_error ls i = Some l ->
       forall m, value h2 a m = if eqb m n then Some (Txt l) else value h1 a m).
    { intros i a l Ei El m. apply (G4 i a); auto. rewrite nth_error_map, El. auto. }
    split.
    - split; [auto|]. split; [auto|]. split; [auto|]. split; [auto|].
      intros a m Ha Hm. apply (Permutation_in _ (Permutation_sym Hit)), In_nth_error in Ha. destruct Ha as [i Ei].
      destruct (nth_error ls i) as [l|] eqn:El.
      + rewrite (Hval i a l Ei El). destruct (eqb_ok m n); congruence.
      + exfalso. apply nth_error_None in El. assert (i < length it) by (apply nth_error_Some; congruence). lia.
    - intros i a l Ei El. rewrite (Hval i a l Ei El), eqb_refl. auto.
  Qed.

  Lemma sorted_ends s mn mx : StronglySorted (fun x y => (x <= y)%Qc) s ->
    In mn s -> (forall y, In y s -> (mn <= y)%Qc) -> In mx s -> (forall y, In y s -> (y <= mx)%Qc) ->
    nth_error s 0 = Some mn /\ nth_error s (length s - 1) = Some mx.
  Proof.
    intros Hs I1 L1 I2 L2. assert (Hp : 0 < length s) by (destruct s; [destruct I1|cbn; lia]).
    destruct (nth_error s 0) as [a|] eqn:Ea; [|apply nth_error_None in Ea; lia].
    destruct (nth_error s (length s - 1)) as [b|] eqn:Eb; [|apply nth_error_None in Eb; lia].
    apply In_nth_error in I1, I2. destruct I1 as [i Ei], I2 as [j Ej].
    assert (j < length s) by (apply nth_error_Some; congruence). split; f_equal; apply Qcle_antisym.
    - apply (sorted_nth s Hs 0 i); auto. lia.
    - apply L1. eapply nth_error_In; eauto.
    - apply L2. eapply nth_error_In; eauto.
    - apply (sorted_nth s Hs j (length s - 1)); auto. lia.
  Qed.

  Lemma discretize_step show (bins : Z) it (h1 : heap) (d1 : dataset) n us0 us :
    history true h1 d1 -> Permutation it (insts d1) -> kind_of d1 n = Some Numerical -> uniques d1 n = Some us ->
    (forall a v, In a (insts d1) -> value h1 a n = Some v -> exists q, v = Num q) ->
    ((Z.of_nat (length us) <= bins)%Z ->
       exists h2 d2, discretize_attribute show bins it h1 d1 n us0 = Ok (h2, d2) /\ relabelled h1 h2 d1 d2 n /\ printed show h1 h2 d1 n) /\
    ((bins < Z.of_nat (length us))%Z -> (2 <= bins)%Z ->
       exists h2 d2, discretize_attribute show bins it h1 d1 n us0 = Ok (h2, d2) /\ relabelled h1 h2 d1 d2 n /\ binned show (Z.to_nat bins) h1 h2 d1 n) /\
    ((bins < Z.of_nat (length us))%Z -> bins = 1%Z -> discretize_attribute show bins it h1 d1 n us0 = Err IndexError) /\
    ((bins < Z.of_nat (length us))%Z -> (bins < 1)%Z -> discretize_attribute show bins it h1 d1 n us0 = Err ValueError).
  Proof.
    intros Hh Hit Hk Hu Hnum. assert (Hn : has_attribute d1 n) by (unfold has_attribute; rewrite Hk; discriminate).
    destruct (values_list h1 d1 it n Hh Hit Hn) as (vs & E & Hl & Hp & Hv).
    destruct (uniques_iff h1 d1 n us Hh Hu) as [Nus Hus].
    unfold discretize_attribute. rewrite E. cbn [bind].
    unfold uniques in Hu. destruct (dict_get n (attrs d1)) as [y|] eqn:Ey; [|discriminate]. injection Hu as Hu.
    cbn [of_option bind]. rewrite Hu. clear Hu.
    (* the values as numbers *)
    destruct (mapM_some number vs) as (qs & Eq & Fq).
    { intros v Hin. apply Hv in Hin. destruct Hin as (a & Ha & Ev). destruct (Hnum a v Ha Ev) as [q ->]. cbn. eauto. }
    assert (Evs : vs = map Num qs).
    { clear - Fq. induction Fq as [|v q vs qs Hq _ IH]; cbn; [auto|]. destruct v; cbn in Hq; [|discriminate]. congruence. }
    assert (Hlen : length us <= length qs).
    { rewrite <- (map_length Num qs), <- Evs. apply NoDup_incl_length; auto. intros v Hin. apply Hv. apply Hus. auto. }
    assert (Hpos : forall i a q, nth_error it i = Some a -> value h1 a n = Some (Num q) -> nth_error qs i = Some q).
    { intros i a q Ei Ev. destruct (Hp i a Ei) as (v & Ev' & Ea). assert (v = Num q) by congruence. subst v.
      rewrite Evs, nth_error_map in Ev'. destruct (nth_error qs i); cbn in Ev'; congruence. }
    split; [|split; [|split]].
    - intros Hle. destruct (Z.ltb_spec bins (Z.of_nat (length us))); [lia|]. cbn [bind].
      destruct (relabel_step h1 d1 it n (map (str show) vs) Hh Hit Hk) as (h2 & d2 & E2 & R & V).
      { rewrite map_length. auto. }
      exists h2, d2. split; [exact E2|]. split; [auto|]. intros a q Ha Ev.
      apply (Permutation_in _ (Permutation_sym Hit)), In_nth_error in Ha. destruct Ha as [i Ei].
      apply (V i a); auto. rewrite Evs, map_map, nth_error_map, (Hpos i a q Ei Ev). reflexivity.
    - intros Hlt Hb. destruct (Z.ltb_spec bins (Z.of_nat (length us))); [|lia]. rewrite Eq. cbn [bind].
      destruct (quantiles_ok qs (Z.to_nat bins)) as (cuts & Ec & Lc & Hc & Sc); [lia..|]. rewrite Z2Nat.id in Ec by lia. rewrite Ec. cbn [bind].
      assert (Hne : qs <> []) by (intros ->; cbn in Hlen; lia).
      destruct (Qc_min_ok qs Hne) as (mn & Emn & Imn & Lmn). destruct (Qc_max_ok qs Hne) as (mx & Emx & Imx & Lmx).
      rewrite Emn. cbn [bind]. rewrite Emx. cbn [bind].
      assert (Hcne : cuts <> []) by (intros ->; cbn in Lc; lia).
      destruct (mapM_some (fun v => label_for_value show v cuts mn mx) qs) as (ls & El & Fl).
      { intros v _. destruct (label_ok show v cuts mn mx Hcne) as (l & El & _). eauto. }
      rewrite El. cbn [bind].
      destruct (relabel_step h1 d1 it n ls Hh Hit Hk) as (h2 & d2 & E2 & R & V).
      { rewrite <- Hl, Evs, map_length. clear - Fl. induction Fl; cbn; auto. }
      exists h2, d2. split; [exact E2|]. split; [auto|].
      exists (stable_sort Qc_leb qs), mn, mx, cuts.
      destruct (sorted_ends (stable_sort Qc_leb qs) mn mx (Qc_sorted qs)) as [A B].
      { apply sort_In. auto. } { intros z Hz. apply sort_In in Hz. auto. } { apply sort_In. auto. } { intros z Hz. apply sort_In in Hz. auto. }
      split; [|split; [auto|split; [auto|split; [auto|split; [auto|split; [auto|]]]]]].
      + split; [apply Qc_sorted|]. transitivity (map (fun a => value h1 a n) it).
        * apply Permutation_map, Permutation_sym. auto.
        * transitivity (map (fun q => Some (Num q)) qs).
          -- assert (Eit : map (fun a => value h1 a n) it = map Some vs).
             { clear - Hp Hl. revert vs Hp Hl. induction it as [|a it' IH]; intros [|v vs] Hp Hl; try discriminate; auto.
               cbn [map]. f_equal.
               - destruct (Hp 0 a eq_refl) as (v' & Ev & ->). injection Ev as <-. auto.
               - apply IH; [|cbn in Hl; lia]. intros i b Ei. apply (Hp (S i) b Ei). }
             rewrite Eit, Evs, map_map. auto.
          -- apply Permutation_map, Permutation_sym, sort_perm.
      + intros a q Ha Ev.
        apply (Permutation_in _ (Permutation_sym Hit)), In_nth_error in Ha. destruct Ha as [i Ei].
        pose proof (Hpos i a q Ei Ev) as Eqi. destruct (Forall2_nth_error_l _ _ _ Fl i q Eqi) as (l & Eli & Ell).
        exists l. split; [eapply V; eauto|]. destruct (label_ok show q cuts mn mx Hcne) as (l' & El' & Ht). congruence.
    - intros Hlt ->. destruct (Z.ltb_spec 1 (Z.of_nat (length us))); [|lia]. rewrite Eq. cbn [bind].
      destruct (quantiles_ok qs 1) as (cuts & Ec & Lc & _); [lia..|]. change (Z.of_nat 1) with 1%Z in Ec. rewrite Ec. cbn [bind].
      assert (Hne : qs <> []) by (intros ->; cbn in Hlen; lia).
      destruct (Qc_min_ok qs Hne) as (mn & Emn & _). destruct (Qc_max_ok qs Hne) as (mx & Emx & _).
      rewrite Emn. cbn [bind]. rewrite Emx. cbn [bind]. destruct cuts; [|discriminate]. destruct qs; [congruence|]. reflexivity.
    - intros Hlt Hb. destruct (Z.ltb_spec bins (Z.of_nat (length us))); [|lia]. rewrite Eq. cbn [bind].
      unfold quantiles. destruct (Z.ltb_spec bins 1); [|lia]. reflexivity.
  Qed.

  (** the number of unique values only depends on the values *)
  Lemma uniques_length (h h1 : heap) (d d1 : dataset) n us us1 :
    history true h d -> history true h1 d1 -> insts d1 = insts d ->
    (forall a, In a (insts d) -> value h1 a n = value h a n) ->
    uniques d n = Some us -> uniques d1 n = Some us1 -> length us1 = length us.
  Proof.
    intros Hh Hh1 Ei Ev Eu Eu1. destruct (uniques_iff h d n us Hh Eu) as [N1 U1]. destruct (uniques_iff h1 d1 n us1 Hh1 Eu1) as [N2 U2].
    rewrite Ei in U2. apply Permutation_length, NoDup_Permutation; auto. intros v. rewrite U1, U2.
    split; intros (a & Ha & E); exists a; (split; [auto|]); [rewrite <- Ev|rewrite Ev]; auto.
  Qed.
  Lemma uniques_some (d : dataset) n k : kind_of d n = Some k -> exists us, uniques d n = Some us.
  Proof. unfold kind_of, uniques. destruct (dict_get n (attrs d)); [cbn; eauto|discriminate]. Qed.

  (** the state of the loop after the attributes [done] *)
  Definition progress (R : heap -> heap -> dataset -> string -> Prop) (h : heap) (d : dataset) (done : list string) (h1 : heap) (d1 : dataset) : Prop :=
    history true h1 d1 /\ insts d1 = insts d /\ only_features d h h1 /\
    (forall n, kind_of d1 n = if mem n done then option_map (fun _ => Categorical) (kind_of d n) else kind_of d n) /\
    (forall a n, In a (insts d) -> (~ In n done \/ kind_of d n <> Some Numerical) -> value h1 a n = value h a n) /\
    (forall n, In n done -> kind_of d n = Some Numerical -> R h h1 d n).
  (** [R] only looks at the values of [n] *)
  Definition local (R : heap -> heap -> dataset -> string -> Prop) : Prop :=
    forall h1 h1' h2 h2' d d' n, insts d' = insts d ->
      (forall a, In a (insts d) -> value h1' a n = value h1 a n) ->
      (forall a, In a (insts d) -> value h2' a n = value h2 a n) ->
      R h1 h2 d n -> R h1' h2' d' n.

  Lemma progress_start R (h : heap) (d : dataset) : history true h d -> progress R h d [] h d.
  Proof.
    intros Hh. split; [auto|]. split; [auto|]. split; [apply only_features_refl|]. split; [auto|]. split; [auto|]. intros n [].
  Qed.
  Lemma progress_skip R (h : heap) (d : dataset) done n h1 d1 : kind_of d n <> Some Numerical ->
    progress R h d done h1 d1 -> progress R h d (n :: done) h1 d1.
  Proof.
    intros Hk (H1 & H2 & H3 & H4 & H5 & H6). split; [auto|]. split; [auto|]. split; [auto|]. split; [|split].
    - intros m. rewrite H4. destruct (mem m done) eqn:Em.
      + rewrite (proj2 (mem_In m (n :: done))); auto. right. apply mem_In. auto.
      + destruct (mem m (n :: done)) eqn:Em'; auto. apply mem_In in Em'. destruct Em' as [<-|Hin].
        * destruct (kind_of d n) as [[]|]; auto. congruence.
        * apply mem_In in Hin. congruence.
    - intros a m Ha [Hm|Hm]; apply H5; auto. left. intros Hin. apply Hm. cbn; auto.
    - intros m [<-|Hm] Hkm; [contradiction|]. auto.
  Qed.
  Lemma progress_step R (h : heap) (d : dataset) done n h1 d1 h2 d2 : local R ->
    kind_of d n = Some Numerical -> ~ In n done -> progress R h d done h1 d1 ->
    relabelled h1 h2 d1 d2 n -> R h1 h2 d1 n -> progress R h d (n :: done) h2 d2.
  Proof.
    intros HR Hk Hnd (H1 & H2 & H3 & H4 & H5 & H6) (G1 & G2 & G3 & G4 & G5) Hr.
    split; [auto|]. split; [congruence|]. split; [|split; [|split]].
    - eapply only_features_trans; eauto.
    - intros m. rewrite G3, H4. destruct (eqb_ok m n) as [->|Hne].
      + rewrite (proj2 (mem_In n (n :: done))) by (cbn; auto). rewrite Hk. auto.
      + destruct (mem m done) eqn:Em.
        * rewrite (proj2 (mem_In m (n :: done))); auto. right. apply mem_In. auto.
        * destruct (mem m (n :: done)) eqn:Em'; auto. apply mem_In in Em'. destruct Em' as [<-|Hin]; [congruence|].
          apply mem_In in Hin. congruence.
    - intros a m Ha Hm. destruct (eqb_ok m n) as [->|Hne].
      + exfalso. destruct Hm as [Hm|Hm]; [apply Hm; cbn; auto|auto].
      + rewrite G5 by (auto; rewrite H2; auto). apply H5; auto. destruct Hm as [Hm|Hm]; auto. left. intros Hin. apply Hm. cbn; auto.
    - intros m Hm Hkm. destruct (eqb_ok m n) as [->|Hne].
      + refine (HR h1 h h2 h2 d1 d n _ _ _ Hr); [congruence|..]; rewrite H2; intros a Ha; [symmetry|]; auto.
      + destruct Hm as [Hm|Hm]; [congruence|]. refine (HR h h h1 h2 d d m _ _ _ (H6 m Hm Hkm)); auto.
        intros a Ha. apply G5; [rewrite H2|]; auto.
  Qed.
End D.

Section L.
  Context {I T : Type} `{Base.Eq I}.
  Notation heap := (heap I val T).
  Notation dataset := (dataset val).
  Lemma ascending_values_local (h h' : heap) (d d' : dataset) n s : insts d' = insts d ->
    (forall a, In a (insts d) -> value h' a n = value h a n) -> ascending_values h d n s -> ascending_values h' d' n s.
  Proof.
    intros E Ev [A B]. split; [auto|]. rewrite E. rewrite (map_ext_in (fun a => value h' a n) (fun a => value h a n)); auto.
  Qed.
  Lemma printed_local show : local (I := I) (T := T) (printed show).
  Proof.
    intros h1 h1' h2 h2' d d' n E E1 E2 P a q Ha Ev. rewrite E in Ha. rewrite E2 by auto. rewrite E1 in Ev by auto. auto.
  Qed.
  Lemma binned_local show bins : local (I := I) (T := T) (binned show bins).
  Proof.
    intros h1 h1' h2 h2' d d' n E E1 E2 (s & mn & mx & cuts & A & B & C & D & F & G & K).
    exists s, mn, mx, cuts. split; [eapply ascending_values_local; eauto|]. split; [auto|]. split; [auto|]. split; [auto|].
    split; [auto|]. split; [auto|]. intros a q Ha Ev. rewrite E in Ha. rewrite E2 by auto. rewrite E1 in Ev by auto. auto.
  Qed.
  Lemma in_bins_local bins : local (I := I) (T := T) (fun h h' d n => in_bins (bins n) h h' d n).
  Proof.
    intros h1 h1' h2 h2' d d' n E E1 E2 P a q Ha Ev. rewrite E in Ha. rewrite E2 by auto. rewrite E1 in Ev by auto. auto.
  Qed.
  Lemma has_kind_In (d : dataset) n k : kind_of d n = Some k -> has_attribute d n.
  Proof. unfold has_attribute. intros ->. discriminate. Qed.
  Lemma progress_end R (h h' : heap) (d d' : dataset) done : (forall n, In n done <-> has_attribute d n) ->
    progress R h d done h' d' ->
    history true h' d' /\ insts d' = insts d /\ only_features d h h' /\
    (forall n, kind_of d' n = option_map (fun _ => Categorical) (kind_of d n)) /\
    (forall a n, In a (insts d) -> kind_of d n = Some Categorical -> value h' a n = value h a n) /\
    (forall n, kind_of d n = Some Numerical -> R h h' d n).
  Proof.
    intros Hd (H1 & H2 & H3 & H4 & H5 & H6). split; [auto|]. split; [auto|]. split; [auto|]. split; [|split].
    - intros n. rewrite H4. destruct (mem n done) eqn:Em; auto. destruct (kind_of d n) as [k|] eqn:Ek; auto.
      apply has_kind_In, Hd, mem_In in Ek. congruence.
    - intros a n Ha Hk. apply H5; auto. right. rewrite Hk. discriminate.
    - intros n Hk. apply H6; auto. apply Hd. eapply has_kind_In; eauto.
  Qed.
  (** what the loop knows about an attribute that is still to come *)
  Lemma progress_coming R (h : heap) (d : dataset) done n us h1 d1 :
    history true h d -> kind_of d n = Some Numerical -> uniques d n = Some us -> ~ In n done -> progress R h d done h1 d1 ->
    (forall a, In a (insts d) -> value h1 a n = value h a n) /\ kind_of d1 n = Some Numerical /\
    exists us1, uniques d1 n = Some us1 /\ length us1 = length us.
  Proof.
    intros Hh Hk Hu Hnd (H1 & H2 & H3 & H4 & H5 & H6).
    assert (Hv : forall a, In a (insts d) -> value h1 a n = value h a n) by (intros; apply H5; auto).
    assert (Hk1 : kind_of d1 n = Some Numerical).
    { rewrite H4. destruct (mem n done) eqn:Em; auto. apply mem_In in Em. contradiction. }
    split; [auto|]. split; [auto|]. destruct (uniques_some d1 n _ Hk1) as [us1 E1]. exists us1. split; [auto|].
    exact (uniques_length h h1 d d1 n us us1 Hh H1 H2 Hv Hu E1).
  Qed.
  Lemma bin_label_ok bins v : bins <> [] -> exists l, bin_label bins v = Ok l /\ bin_text bins v l.
  Proof.
    intros Hne. unfold bin_label, bin_text. destruct (find (in_bin v) bins) as [b|] eqn:E.
    - exists (snd b). split; [auto|]. left.
      assert (G : forall l, find (in_bin v) l = Some b -> exists k, nth_error l k = Some b /\ (fst (fst b) < v)%Qc /\ (v <= snd (fst b))%Qc /\
         forall j c, j < k -> nth_error l j = Some c -> ~ ((fst (fst c) < v)%Qc /\ (v <= snd (fst c))%Qc)).
      { induction l as [|c l IH]; cbn [find]; [discriminate|]. destruct (in_bin v c) eqn:Ec.
        - intros E0. injection E0 as ->. unfold in_bin in Ec. apply andb_true_iff in Ec. destruct Ec as [Ec1 Ec2].
          apply negb_true_iff, Qc_leb_false in Ec1. apply Qc_leb_iff in Ec2. exists 0. split; [auto|]. split; [auto|]. split; [auto|]. intros; lia.
        - intros E0. destruct (IH E0) as (k & A & B & C & D). exists (S k). split; [auto|]. split; [auto|]. split; [auto|].
          intros [|j] c' Hj Ej; [|apply (D j); [lia|auto]]. injection Ej as <-. intros [F1 F2].
          unfold in_bin in Ec. apply Qc_leb_false in F1. apply Qc_leb_iff in F2. rewrite F1, F2 in Ec. discriminate. }
      destruct (G bins E) as (k & A & B & C & D). exists k, (fst (fst b)), (snd (fst b)). destruct b as [[lo hi] t]. cbn [fst snd] in *.
      split; [auto|]. split; [auto|]. split; [auto|]. intros j lo' hi' t' Hj Ej. exact (D j _ Hj Ej).
    - destruct (nth_error bins (length bins - 1)) as [[[lo hi] t]|] eqn:El.
      + cbn [of_option bind snd]. exists t. split; [auto|]. right. split; [|eauto]. intros j lo' hi' t' Ej [F1 F2].
        pose proof (find_none _ _ E _ (nth_error_In _ _ Ej)) as G. unfold in_bin in G. cbn [fst snd] in G.
        apply Qc_leb_false in F1. apply Qc_leb_iff in F2. rewrite F1, F2 in G. discriminate.
      + exfalso. apply nth_error_None in El. destruct bins; [congruence|]. cbn [length] in El. lia.
  Qed.
  Lemma bin_step bd bins it (h1 : heap) (d1 : dataset) n us0 :
    history true h1 d1 -> Permutation it (insts d1) -> kind_of d1 n = Some Numerical ->
    dict_get n bd = Some bins -> bins <> [] ->
    (forall a v, In a (insts d1) -> value h1 a n = Some v -> exists q, v = Num q) ->
    exists h2 d2, bin_attribute bd it h1 d1 n us0 = Ok (h2, d2) /\ relabelled h1 h2 d1 d2 n /\ in_bins bins h1 h2 d1 n.
  Proof.
    intros Hh Hit Hk Hb Hne Hnum. assert (Hn : has_attribute d1 n) by (eapply has_kind_In; eauto).
    unfold bin_attribute. rewrite Hb. cbn [of_option bind].
    assert (Hval : forall a, In a it -> exists q, value h1 a n = Some (Num q)).
    { intros a Ha. apply (Permutation_in _ Hit) in Ha. destruct (value_some true h1 d1 a n Hh Ha Hn) as (v & us & Ev & _).
      destruct (Hnum a v Ha Ev) as [q ->]. eauto. }
    destruct (mapM_some (fun a => do v <- getitem h1 n a ; do q <- number v ; bin_label bins q) it) as (ls & El & Fl).
    { intros a Ha. destruct (Hval a Ha) as [q Eq]. rewrite (getitem_value h1 a n _ Eq). cbn [bind number].
      destruct (bin_label_ok bins q Hne) as (l & E & _). eauto. }
    rewrite El. cbn [bind].
    destruct (relabel_step h1 d1 it n ls Hh Hit Hk) as (h2 & d2 & E2 & R & V).
    { clear - Fl. induction Fl; cbn; auto. }
    exists h2, d2. split; [exact E2|]. split; [auto|]. intros a q Ha Ev.
    apply (Permutation_in _ (Permutation_sym Hit)), In_nth_error in Ha. destruct Ha as [i Ei].
    destruct (Forall2_nth_error_l _ _ _ Fl i a Ei) as (l & Eli & Ell).
    exists l. split; [eapply V; eauto|]. rewrite (getitem_value h1 a n _ Ev) in Ell. cbn [bind number] in Ell.
    destruct (bin_label_ok bins q Hne) as (l' & El' & Ht). congruence.
  Qed.
End L.

(*P C87 Quantile based discretization *)
(** All numerical attributes become categorical, everything else is unchanged.
    If there are more than nr_of_bins different values, the new value is the
    text of the interval the old one lies in; the inner bounds of the intervals
    are the (ascending) quantiles.  Otherwise it is the text of the old value. *)
Lemma C87_discretization : forall (I T : Type) (EI : Base.Eq I) (show : Qc -> string) (bins : nat) (h : heap I val T) (d : dataset val) it,
  history true h d -> Permutation it (insts d) -> 2 <= bins ->
  (forall a n v, In a (insts d) -> kind_of d n = Some Numerical -> value h a n = Some v -> exists q, v = Num q) ->
  exists h' d', discretize show (Z.of_nat bins) it h d = Ok (h', d') /\
    history true h' d' /\ insts d' = insts d /\ only_features d h h' /\
    (forall n, kind_of d' n = option_map (fun _ => Categorical) (kind_of d n)) /\
    (forall a n, In a (insts d) -> kind_of d n = Some Categorical -> value h' a n = value h a n) /\
    (forall n us, kind_of d n = Some Numerical -> uniques d n = Some us ->
       (length us <= bins -> printed show h h' d n) /\ (bins < length us -> binned show bins h h' d n)).
Proof.
  intros I T EI show bins h d it Hh Hit Hb Hnum. pose proof (history_inv _ _ _ Hh) as Hi.
  set (R := fun (h1 h2 : heap I val T) (d' : dataset val) n => forall us, uniques d n = Some us ->
       (length us <= bins -> printed show h1 h2 d' n) /\ (bins < length us -> binned show bins h1 h2 d' n)).
  assert (HR : local R).
  { intros h1 h1' h2 h2' d1 d1' n E E1 E2 P us Hu. destruct (P us Hu) as [A B].
    split; intros Hl; [exact (printed_local show _ _ _ _ _ _ _ E E1 E2 (A Hl))|exact (binned_local show bins _ _ _ _ _ _ _ E E1 E2 (B Hl))]. }
  destruct (each_loop Numerical (discretize_attribute show (Z.of_nat bins) it) d (progress R h d)) with (h := h)
    as (h' & d' & done & E & HP & Hdone).
  - apply Hi.
  - intros done n us h1 d1 Hk Hu Hnd HP. destruct (progress_coming R h d done n us h1 d1 Hh Hk Hu Hnd HP) as (Hv & Hk1 & us1 & Eu1 & El).
    pose proof HP as (H1 & H2 & _).
    destruct (discretize_step show (Z.of_nat bins) it h1 d1 n us us1 H1) as (S1 & S2 & _).
    + rewrite H2. auto.
    + auto.
    + auto.
    + rewrite H2. intros a v Ha Ev. rewrite Hv in Ev by auto. eapply Hnum; eauto.
    + rewrite Nat2Z.id in S2. destruct (le_lt_dec (length us) bins) as [Hle|Hlt].
      * destruct S1 as (h2 & d2 & E2 & Rl & Pr); [lia|]. exists h2, d2. split; [auto|].
        eapply progress_step; eauto. intros us' Hu'. assert (us' = us) by congruence. subst us'. split; [auto|lia].
      * destruct S2 as (h2 & d2 & E2 & Rl & Pr); [lia|lia|]. exists h2, d2. split; [auto|].
        eapply progress_step; eauto. intros us' Hu'. assert (us' = us) by congruence. subst us'. split; [lia|auto].
  - intros done n h1 d1 Hk HP. apply progress_skip; auto.
  - apply progress_start. auto.
  - destruct (progress_end R h h' d d' done Hdone HP) as (A & B & C & D & F & G).
    exists h', d'. split; [auto|]. split; [auto|]. split; [auto|]. split; [auto|]. split; [auto|]. split; [auto|].
    intros n us Hk Hu. exact (G n Hk us Hu).
Qed.
(** A value lies in only one of the intervals. *)
Lemma C87_one_interval : forall (show : Qc -> string) mn mx cuts v l l',
  StronglySorted (fun x y => (x <= y)%Qc) cuts ->
  interval_text show mn mx cuts v l -> interval_text show mn mx cuts v l' -> l = l'.
Proof.
  intros show mn mx cuts v l l' Hs.
  assert (Hnlt : forall x y, (x < y)%Qc -> (y <= x)%Qc -> False) by (intros x y A B; exact (Qclt_not_le _ _ A B)).
  assert (Hmono := sorted_nth cuts Hs).
  intros [(c & E & L & ->)|[(k & a & b & Ea & Eb & La & Lb & ->)|(c & E & L & ->)]]
         [(c' & E' & L' & ->)|[(k' & a' & b' & Ea' & Eb' & La' & Lb' & ->)|(c' & E' & L' & ->)]].
  - replace c' with c by congruence. auto.
  - exfalso. apply (Hnlt a' v); auto. eapply Qcle_trans; [exact L|]. eapply (Hmono 0 k'); eauto. lia.
  - exfalso. apply (Hnlt c' v); auto. eapply Qcle_trans; [exact L|]. eapply (Hmono 0 (length cuts - 1)); eauto. lia.
  - exfalso. apply (Hnlt a v); auto. eapply Qcle_trans; [exact L'|]. eapply (Hmono 0 k); eauto. lia.
  - destruct (lt_eq_lt_dec k k') as [[Hk|<-]|Hk].
    + exfalso. apply (Hnlt a' v); auto. eapply Qcle_trans; [exact Lb|]. eapply (Hmono (S k) k'); eauto.
    + replace a' with a by congruence. replace b' with b by congruence. auto.
    + exfalso. apply (Hnlt a v); auto. eapply Qcle_trans; [exact Lb'|]. eapply (Hmono (S k') k); eauto.
  - exfalso. apply (Hnlt c' v); auto. eapply Qcle_trans; [exact Lb|]. eapply (Hmono (S k) (length cuts - 1)); eauto.
    assert (S k < length cuts) by (apply nth_error_Some; congruence). lia.
  - exfalso. apply (Hnlt c v); auto. eapply Qcle_trans; [exact L'|]. eapply (Hmono 0 (length cuts - 1)); eauto. lia.
  - exfalso. apply (Hnlt c v); auto. eapply Qcle_trans; [exact Lb'|]. eapply (Hmono (S k') (length cuts - 1)); eauto.
    assert (S k' < length cuts) by (apply nth_error_Some; congruence). lia.
  - replace c' with c by congruence. auto.
Qed.
(** A single bin (or none, or a negative number) is an error as soon as an
    attribute has more different values. *)
Lemma C87_undefined : forall (I T : Type) (EI : Base.Eq I) (show : Qc -> string) (bins : Z) (h : heap I val T) (d : dataset val) it n us,
  history true h d -> Permutation it (insts d) ->
  (forall a n v, In a (insts d) -> kind_of d n = Some Numerical -> value h a n = Some v -> exists q, v = Num q) ->
  kind_of d n = Some Numerical -> uniques d n = Some us -> (bins < Z.of_nat (length us))%Z ->
  (bins = 1%Z -> discretize show bins it h d = Err IndexError) /\
  ((bins < 1)%Z -> discretize show bins it h d = Err ValueError).
Proof.
  intros I T EI show bins h d it n us Hh Hit Hnum Hk Hu Hlt. pose proof (history_inv _ _ _ Hh) as Hi.
  set (R := fun (h1 h2 : heap I val T) (d' : dataset val) (n : string) => True).
  assert (HR : local R) by (intros h1 h1' h2 h2' d1 d1' m E E1 E2 P; exact Logic.I).
  assert (Hcase : forall m um done h1 d1, kind_of d m = Some Numerical -> uniques d m = Some um -> ~ In m done -> progress R h d done h1 d1 ->
     (exists h2 d2, discretize_attribute show bins it h1 d1 m um = Ok (h2, d2) /\ progress R h d (m :: done) h2 d2 /\ (Z.of_nat (length um) <= bins)%Z) \/
     ((2 <= bins)%Z) \/
     ((bins = 1%Z -> discretize_attribute show bins it h1 d1 m um = Err IndexError) /\
      ((bins < 1)%Z -> discretize_attribute show bins it h1 d1 m um = Err ValueError))).
  { intros m um done h1 d1 Hkm Hum Hnd HP.
    destruct (progress_coming R h d done m um h1 d1 Hh Hkm Hum Hnd HP) as (Hv & Hk1 & us1 & Eu1 & El).
    pose proof HP as (H1 & H2 & _).
    destruct (discretize_step show bins it h1 d1 m um us1 H1) as (S1 & S2 & S3 & S4).
    - rewrite H2. auto.
    - auto.
    - auto.
    - rewrite H2. intros a v Ha Ev. rewrite Hv in Ev by auto. eapply Hnum; eauto.
    - destruct (Z.le_gt_cases (Z.of_nat (length um)) bins) as [Hle|Hgt].
      + left. destruct S1 as (h2 & d2 & E2 & Rl & Pr); [lia|]. exists h2, d2. split; [auto|]. split; [|auto].
        apply (progress_step R h d done m h1 d1 h2 d2 HR); auto. exact Logic.I.
      + destruct (Z.le_gt_cases 2 bins); [right; left; auto|]. right; right. split; intros; [apply S3|apply S4]; lia. }
  split; intros Hb.
  - apply (each_loop_err IndexError n Numerical _ d (progress R h d)); [apply Hi|auto| | | |apply progress_start; auto].
    + intros done m um h1 d1 Hkm Hum Hnd HP. destruct (Hcase m um done h1 d1 Hkm Hum Hnd HP) as [(h2 & d2 & E2 & P2 & _)|[?|[A B]]]; [eauto|lia|auto].
    + intros done m h1 d1 Hkm HP. apply progress_skip; auto.
    + intros done um h1 d1 Hnd Hum HP. assert (um = us) by congruence. subst um.
      destruct (Hcase n us done h1 d1 Hk Hum Hnd HP) as [(h2 & d2 & E2 & P2 & ?)|[?|[A B]]]; [lia|lia|auto].
  - apply (each_loop_err ValueError n Numerical _ d (progress R h d)); [apply Hi|auto| | | |apply progress_start; auto].
    + intros done m um h1 d1 Hkm Hum Hnd HP. destruct (Hcase m um done h1 d1 Hkm Hum Hnd HP) as [(h2 & d2 & E2 & P2 & _)|[?|[A B]]]; [eauto|lia|auto].
    + intros done m h1 d1 Hkm HP. apply progress_skip; auto.
    + intros done um h1 d1 Hnd Hum HP. assert (um = us) by congruence. subst um.
      destruct (Hcase n us done h1 d1 Hk Hum Hnd HP) as [(h2 & d2 & E2 & P2 & ?)|[?|[A B]]]; [lia|lia|auto].
Qed.

(*P C88 Discretization with trained bins *)
(** All numerical attributes become categorical, everything else is unchanged.
    The new value is the text of the first bin that contains the old one; a
    value in no bin - above all bins, below all bins or in a gap - gets the
    text of the last bin. *)
Lemma C88_trained_bins : forall (I T : Type) (EI : Base.Eq I) (bins : dict string (list (Qc * Qc * string))) (h : heap I val T) (d : dataset val) it,
  history true h d -> Permutation it (insts d) ->
  (forall n, kind_of d n = Some Numerical -> exists b, dict_get n bins = Some b /\ b <> []) ->
  (forall a n v, In a (insts d) -> kind_of d n = Some Numerical -> value h a n = Some v -> exists q, v = Num q) ->
  exists h' d', discretize_trained bins it h d = Ok (h', d') /\
    history true h' d' /\ insts d' = insts d /\ only_features d h h' /\
    (forall n, kind_of d' n = option_map (fun _ => Categorical) (kind_of d n)) /\
    (forall a n, In a (insts d) -> kind_of d n = Some Categorical -> value h' a n = value h a n) /\
    (forall n b, kind_of d n = Some Numerical -> dict_get n bins = Some b -> in_bins b h h' d n).
Proof.
  intros I T EI bins h d it Hh Hit Hbins Hnum. pose proof (history_inv _ _ _ Hh) as Hi.
  set (get := fun n => match dict_get n bins with Some b => b | None => [] end).
  set (R := fun (h1 h2 : heap I val T) (d' : dataset val) n => in_bins (get n) h1 h2 d' n).
  assert (HR : local R) by apply in_bins_local.
  destruct (each_loop Numerical (bin_attribute bins it) d (progress R h d)) with (h := h)
    as (h' & d' & done & E & HP & Hdone).
  - apply Hi.
  - intros done n us h1 d1 Hk Hu Hnd HP. destruct (progress_coming R h d done n us h1 d1 Hh Hk Hu Hnd HP) as (Hv & Hk1 & us1 & Eu1 & El).
    pose proof HP as (H1 & H2 & _). destruct (Hbins n Hk) as (b & Eb & Hne).
    destruct (bin_step bins b it h1 d1 n us H1) as (h2 & d2 & E2 & Rl & Pr); auto.
    + rewrite H2. auto.
    + rewrite H2. intros a v Ha Ev. rewrite Hv in Ev by auto. eapply Hnum; eauto.
    + exists h2, d2. split; [auto|]. eapply progress_step; eauto. unfold R, get. rewrite Eb. auto.
  - intros done n h1 d1 Hk HP. apply progress_skip; auto.
  - apply progress_start. auto.
  - destruct (progress_end R h h' d d' done Hdone HP) as (A & B & C & D & F & G).
    exists h', d'. split; [auto|]. split; [auto|]. split; [auto|]. split; [auto|]. split; [auto|]. split; [auto|].
    intros n b Hk Hb. specialize (G n Hk). unfold R, get in G. rewrite Hb in G. auto.
Qed.
(** A numerical attribute that was not trained is a KeyError, if the others
    can be transformed. *)
Lemma C88_untrained : forall (I T : Type) (EI : Base.Eq I) (bins : dict string (list (Qc * Qc * string))) (h : heap I val T) (d : dataset val) it n,
  history true h d -> Permutation it (insts d) ->
  kind_of d n = Some Numerical -> dict_get n bins = None ->
  (forall m b, kind_of d m = Some Numerical -> dict_get m bins = Some b -> b <> []) ->
  (forall a n v, In a (insts d) -> kind_of d n = Some Numerical -> value h a n = Some v -> exists q, v = Num q) ->
  discretize_trained bins it h d = Err KeyError.
Proof.
  intros I T EI bins h d it n Hh Hit Hk Hn Hbins Hnum. pose proof (history_inv _ _ _ Hh) as Hi.
  set (R := fun (h1 h2 : heap I val T) (d' : dataset val) (n : string) => True).
  assert (HR : local R) by (intros h1 h1' h2 h2' d1 d1' m E E1 E2 P; exact Logic.I).
  apply (each_loop_err KeyError n Numerical _ d (progress R h d)); [apply Hi|auto| | | |apply progress_start; auto].
  - intros done m us h1 d1 Hkm Hum Hnd HP. destruct (dict_get m bins) as [b|] eqn:Eb.
    + right. destruct (progress_coming R h d done m us h1 d1 Hh Hkm Hum Hnd HP) as (Hv & Hk1 & us1 & Eu1 & El).
      pose proof HP as (H1 & H2 & _).
      destruct (bin_step bins b it h1 d1 m us H1) as (h2 & d2 & E2 & Rl & Pr); eauto.
      * rewrite H2. auto.
      * rewrite H2. intros a v Ha Ev. rewrite Hv in Ev by auto. eapply Hnum; eauto.
      * exists h2, d2. split; [auto|]. apply (progress_step R h d done m h1 d1 h2 d2 HR); auto. exact Logic.I.
    + left. unfold bin_attribute. rewrite Eb. reflexivity.
  - intros done m h1 d1 Hkm HP. apply progress_skip; auto.
  - intros done us h1 d1 Hnd Hum HP. unfold bin_attribute. rewrite Hn. reflexivity.
Qed.
