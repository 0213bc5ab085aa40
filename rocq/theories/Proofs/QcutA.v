(** Training of the bins of quantile based discretization (C134) *)
From Coq Require Import Permutation Sorted QArith Qcanon String Ascii.
From Verif.Model Require Import Base Sort LogNoise Dataset Transformers Discretization.
From Verif.Spec Require Import DatasetSpec TransformSpec QuantileSpec.
From Verif.Lib Require Import ListLib DictLib SortLib.
From Verif.Proofs Require Import PetriA ParallelB LogNoise DatasetA DatasetB DatasetC TransformersA TransformersB TransformersC Quantiles EqualBins.
From Verif.Proofs Require RcA.
Open Scope string_scope.
Open Scope list_scope.
Open Scope nat_scope.

Lemma sorted_from_nth (R : Qc -> Qc -> Prop) l : (forall i j x y, i < j -> nth_error l i = Some x -> nth_error l j = Some y -> R x y) -> StronglySorted R l.
Proof.
  induction l as [|x l IH]; intros H; constructor.
  - apply IH. intros i j y z Hij Ey Ez. apply (H (S i) (S j)); auto. lia.
  - apply Forall_forall. intros y Hy. apply In_nth_error in Hy. destruct Hy as [j Ej]. apply (H 0 (S j)); auto. lia.
Qed.
Lemma sorted_app_inv (R : Qc -> Qc -> Prop) l x : StronglySorted R (l ++ [x]) -> StronglySorted R l /\ forall y, In y l -> R y x.
Proof.
  induction l as [|z l IH]; cbn [app]; intros H; [split; [constructor|intros y []]|]. inversion H as [|? ? H1 H2]; subst. destruct (IH H1) as [I1 I2].
  rewrite Forall_forall in H2. split.
  - constructor; [auto|]. apply Forall_forall. intros y Hy. apply H2. apply in_or_app. auto.
  - intros y [<-|Hy]; [apply H2; apply in_or_app; cbn; auto|auto].
Qed.
Lemma sorted_app (R : Qc -> Qc -> Prop) l x : StronglySorted R l -> (forall y, In y l -> R y x) -> StronglySorted R (l ++ [x]).
Proof.
  induction 1 as [|z l H1 IH H2]; intros H; cbn [app]; [constructor; constructor|]. rewrite Forall_forall in H2. constructor.
  - apply IH. intros; apply H; cbn; auto.
  - apply Forall_forall. intros y Hy. apply in_app_or in Hy. destruct Hy as [Hy|[<-|[]]]; [auto|apply H; cbn; auto].
Qed.
Lemma set_of_strict (l : list Qc) : StronglySorted (fun x y => (x <= y)%Qc) l -> StronglySorted (fun x y => (x < y)%Qc) (set_of l).
Proof.
  induction l as [|x l IH] using rev_ind; intros H; [constructor|]. apply sorted_app_inv in H. destruct H as [H1 H2].
  rewrite RcA.set_of_app. unfold set_add. destruct (mem x (set_of l)) eqn:E; [auto|]. apply sorted_app; [auto|].
  intros y Hy. apply (proj1 (RcA.set_of_In _ _)) in Hy. destruct (Qc_lt_dec y x) as [|L]; [auto|]. exfalso.
  assert (y = x) by (apply Qcle_antisym; auto). subst y. apply (proj2 (RcA.set_of_In l x)) in Hy. apply mem_In in Hy. congruence.
Qed.
Lemma set_of_same (l : list Qc) : NoDup l -> set_of l = l.
Proof.
  induction l as [|x l IH] using rev_ind; intros H; [auto|]. apply NoDup_remove in H. rewrite app_nil_r in H. destruct H as [H1 H2].
  rewrite RcA.set_of_app. unfold set_add. rewrite IH by auto. destruct (mem x l) eqn:E; [apply mem_In in E; contradiction|auto].
Qed.
Lemma set_of_length (l : list Qc) : length (set_of l) <= length l.
Proof.
  induction l as [|x l IH] using rev_ind; [cbn; lia|]. rewrite RcA.set_of_app, app_length. unfold set_add. cbn [length]. destruct (mem x (set_of l)); [lia|]. rewrite app_length. cbn [length]. lia.
Qed.
Lemma strict_NoDup (l : list Qc) : StronglySorted (fun x y => (x < y)%Qc) l -> NoDup l.
Proof.
  induction 1 as [|x l H IH F]; constructor; [|auto]. intros Hx. rewrite Forall_forall in F. apply (Qclt_not_le x x); [auto|apply Qcle_refl].
Qed.

Section E.
  Variables (s : list Qc) (n : nat).
  Hypothesis Hs : StronglySorted (fun x y => (x <= y)%Qc) s.
  Hypothesis Hn : 1 <= n.
  Lemma quantile_mono i i' c c' : i <= i' -> quantile s n i c -> quantile s n i' c' -> (c <= c')%Qc.
  Proof.
    intros Hi [[Li H]|[-> H]] [[Li' H']|[-> H']].
    - exact (cut_point_mono s n Hs Hn i i' c c' Hi H H').
    - destruct H as (j & x & y & Ex & Ey & Hj & ->). apply Qcle_trans with y.
      + rewrite <- (interp_n n Hn x y) at 2. apply interp_mono; [auto| |lia]. eapply (sorted_nth s Hs j (j + 1)); eauto. lia.
      + assert (j + 1 < length s) by (apply nth_error_Some; congruence). eapply (sorted_nth s Hs (j + 1) (length s - 1)); eauto. lia.
    - lia.
    - replace c' with c by congruence. apply Qcle_refl.
  Qed.
  Lemma quantile_first c : quantile s n 0 c -> nth_error s 0 = Some c.
  Proof.
    intros [[Li (j & x & y & Ex & Ey & Hj & ->)]|[X _]]; [|lia]. assert (j = 0) by nia. subst j. cbn [Nat.mul Nat.sub]. rewrite interp_0 by auto. auto.
  Qed.
  Lemma quantile_det i c c' : quantile s n i c -> quantile s n i c' -> c = c'.
  Proof. intros H H'. apply Qcle_antisym; apply (quantile_mono i i); auto. Qed.
End E.

Lemma quantile_edges_ok vs n : 1 <= n -> 2 <= length vs ->
  exists es, quantile_edges vs n = Ok es /\ length es = n + 1 /\
    (forall i, i <= n -> exists e, nth_error es i = Some e /\ quantile (stable_sort Qc_leb vs) n i e) /\ StronglySorted (fun x y => (x <= y)%Qc) es.
Proof.
  intros Hn Hv. unfold quantile_edges. set (s := stable_sort Qc_leb vs). assert (Hl : length s = length vs) by apply sort_length. set (m := length s - 1).
  destruct (mapM_some (fun i : nat => let j := (i * m) / n in let delta := (i * m) mod n in
                 do x <- of_option IndexError (nth_error s j) ;
                 do y <- of_option IndexError (nth_error s (Nat.min (j + 1) m)) ;
                 Ok (x + (y - x) * of_Z (Z.of_nat delta) / of_Z (Z.of_nat n))%Qc)
       (seq 0 (n + 1))) as (es & E & F).
  { intros i Hi. apply in_seq in Hi. cbv zeta. assert (J : i * m / n <= m) by (apply Nat.div_le_upper_bound; nia).
    destruct (nth_error s (i * m / n)) eqn:E1; [|apply nth_error_None in E1; lia].
    destruct (nth_error s (Nat.min (i * m / n + 1) m)) eqn:E2; [|apply nth_error_None in E2; lia]. cbn. eauto. }
  exists es. split; [exact E|].
  assert (Le : length es = n + 1). { rewrite <- (seq_length (n + 1) 0). clear - F. induction F; cbn; auto. }
  split; [auto|].
  assert (Hq : forall i, i <= n -> exists e, nth_error es i = Some e /\ quantile s n i e).
  { intros i Hi. assert (En : nth_error (seq 0 (n + 1)) i = Some i) by (rewrite nth_error_nth' with (d := 0) by (rewrite seq_length; lia); rewrite seq_nth by lia; auto).
    destruct (Forall2_nth_error_l _ _ _ F i i En) as (e & Ee & Ef). exists e. split; [auto|]. cbv zeta in Ef.
    pose proof (Nat.div_mod (i * m) n ltac:(lia)) as D. pose proof (Nat.mod_upper_bound (i * m) n ltac:(lia)) as M.
    destruct (Nat.eq_dec i n) as [->|Ni].
    - right. split; [auto|]. rewrite (Nat.mul_comm n m), Nat.div_mul, Nat.mod_mul in Ef by lia. fold m. destruct (nth_error s m) as [x|]; [|discriminate]. cbn [of_option bind] in Ef.
      destruct (nth_error s (Nat.min (m + 1) m)) as [y|]; [|discriminate]. cbn [of_option bind] in Ef. injection Ef as <-. f_equal. symmetry. change 0%Z with (Z.of_nat 0). apply interp_0. auto.
    - left. split; [lia|]. set (j := i * m / n) in *. set (k := (i * m) mod n) in *. assert (j < m) by nia. rewrite Nat.min_l in Ef by lia.
      destruct (nth_error s j) as [x|] eqn:E1; [|discriminate]. destruct (nth_error s (j + 1)) as [y|] eqn:E2; [|discriminate]. cbn [of_option bind] in Ef. injection Ef as <-.
      exists j, x, y. split; [auto|]. split; [auto|]. fold m. split; [lia|]. replace (i * m - j * n) with k by lia. auto. }
  split; [auto|]. apply sorted_from_nth. intros i j x y Hij Ex Ey.
  assert (i < length es) by (apply nth_error_Some; congruence). assert (j < length es) by (apply nth_error_Some; congruence).
  destruct (Hq i ltac:(lia)) as (e & Ee & Qe). destruct (Hq j ltac:(lia)) as (e' & Ee' & Qe'). replace x with e by congruence. replace y with e' by congruence.
  apply (quantile_mono s n (Qc_sorted vs) Hn i j); auto. lia.
Qed.

Lemma nth_pairs {X} (l : list X) k a b : nth_error (combine l (tl l)) k = Some (a, b) <-> nth_error l k = Some a /\ nth_error l (k + 1) = Some b.
Proof.
  revert k. induction l as [|x l IH]; intros k; [cbn; destruct k; cbn; split; [discriminate|intros [X0 _]; discriminate|discriminate|intros [X0 _]; discriminate]|].
  cbn [tl]. destruct l as [|y l]. { cbn [combine]. destruct k as [|[|k]]; cbn; split; try discriminate; intros [? ?]; discriminate. }
  cbn [combine]. destruct k as [|k]; cbn [nth_error Nat.add]; [split; [intros E; injection E as <- <-; auto|intros [E1 E2]; congruence]|]. apply IH.
Qed.
Lemma pairs_length {X} (l : list X) : length (combine l (tl l)) = length l - 1.
Proof. rewrite combine_length. destruct l as [|x l]; [auto|]. cbn [length tl]. lia. Qed.
Lemma nth_breaks rnd gap edges k : nth_error (breaks rnd gap edges) k = option_map (fun a => if k =? 0 then rnd edges a - gap edges else rnd edges a)%Qc (nth_error edges k).
Proof.
  unfold breaks. destruct edges as [|e es]; [destruct k; auto|]. cbn [map]. set (f := rnd (e :: es)). set (g := gap (e :: es)). destruct k as [|k]; [auto|]. cbn [nth_error Nat.eqb]. apply nth_error_map.
Qed.
Lemma breaks_length rnd gap edges : length (breaks rnd gap edges) = length edges.
Proof. unfold breaks. destruct edges as [|e es]; [auto|]. cbn [map length]. rewrite map_length. auto. Qed.

Lemma qcut_ok show rnd gap vs n : 1 <= n -> (exists x y, In x vs /\ In y vs /\ x <> y) ->
  exists es b, quantile_edges vs n = Ok es /\ qcut show rnd gap vs (Z.of_nat n) = Ok b /\ length es = n + 1 /\
    (forall i, i <= n -> exists e, nth_error es i = Some e /\ quantile (stable_sort Qc_leb vs) n i e) /\ StronglySorted (fun x y => (x <= y)%Qc) es /\
    bins_between show (rnd (set_of es)) (gap (set_of es)) (set_of es) b /\ 1 <= length b <= n.
Proof.
  intros Hn (x & y & Hx & Hy & Hxy). assert (Hv : 2 <= length vs). { destruct vs as [|a [|c vs]]; [destruct Hx|destruct Hx as [<-|[]], Hy as [<-|[]]; congruence|cbn; lia]. }
  destruct (quantile_edges_ok vs n Hn Hv) as (es & E & Le & Hq & Ss). set (s := stable_sort Qc_leb vs) in *.
  assert (Ls : length s = length vs) by apply sort_length.
  assert (H2 : 2 <= length (set_of es)).
  { destruct (Hq 0 ltac:(lia)) as (e & Ee & Qe). destruct (Hq n ltac:(lia)) as (e' & Ee' & Qe'). apply (quantile_first s n Hn) in Qe.
    destruct Qe' as [[X _]|[_ Qe']]; [lia|].
    assert (Ne : e <> e').
    { intros <-. apply Hxy. assert (K : forall z, In z vs -> z = e). { intros z Hz. apply (proj2 (sort_In Qc_leb _ _)) in Hz. apply In_nth_error in Hz. destruct Hz as [i Hi]. fold s in Hi.
        assert (i < length s) by (apply nth_error_Some; congruence). apply Qcle_antisym; [apply (sorted_nth s (Qc_sorted vs) i (length s - 1)); auto; lia|apply (sorted_nth s (Qc_sorted vs) 0 i); auto; lia]. }
      rewrite (K x Hx), (K y Hy). auto. }
    assert (I1 : In e (set_of es)) by (apply (proj2 (RcA.set_of_In _ _)); eapply nth_error_In; eauto).
    assert (I2 : In e' (set_of es)) by (apply (proj2 (RcA.set_of_In _ _)); eapply nth_error_In; eauto).
    destruct (set_of es) as [|a [|c l]]; [destruct I1|destruct I1 as [<-|[]], I2 as [<-|[]]; congruence|cbn; lia]. }
  unfold qcut. destruct (Z.ltb_spec (Z.of_nat n) 1); [lia|]. rewrite Nat2Z.id, E. cbn [bind]. destruct (Nat.ltb_spec (length (set_of es)) 2); [lia|].
  eexists _, _. split; [reflexivity|]. split; [reflexivity|]. split; [auto|]. split; [auto|]. split; [auto|].
  assert (Lb := set_of_length es). unfold bins_between. rewrite map_length, pairs_length, breaks_length. split; [split; [lia|]|lia].
  intros k lo hi l Ek. rewrite nth_error_map in Ek. destruct (nth_error (combine (breaks rnd gap (set_of es)) (tl (breaks rnd gap (set_of es)))) k) as [[a b]|] eqn:Ec; [|discriminate].
  cbn [option_map] in Ek. injection Ek as <- <- <-. apply nth_pairs in Ec. rewrite !nth_breaks in Ec. destruct Ec as [E1 E2].
  destruct (nth_error (set_of es) k) as [a'|]; [|discriminate]. destruct (nth_error (set_of es) (k + 1)) as [b'|]; [|discriminate]. cbn [option_map] in E1, E2.
  exists a', b'. split; [auto|]. split; [auto|]. split; [congruence|]. split; [|auto]. destruct (Nat.eqb_spec (k + 1) 0); [lia|congruence].
Qed.

Section T.
  Context {I T : Type} `{Base.Eq I}.
  Notation heap := (heap I val T).
  Notation dataset := (dataset val).
  Definition numeric (h : heap) (d : dataset) : Prop :=
    forall a n v, In a (insts d) -> kind_of d n = Some Numerical -> value h a n = Some v -> exists q, v = Num q.
  Lemma numbers_of (h : heap) (d : dataset) it n : history true h d -> Permutation it (insts d) -> kind_of d n = Some Numerical -> numeric h d ->
    exists vs qs, mapM (getitem h n) it = Ok vs /\ mapM number vs = Ok qs /\ ascending_values h d n (stable_sort Qc_leb qs) /\
      forall q, In q qs <-> exists a, In a (insts d) /\ value h a n = Some (Num q).
  Proof.
    intros Hh Hit Hk Hnum. assert (Hn : has_attribute d n) by (eapply has_kind_In; eauto).
    destruct (values_list h d it n Hh Hit Hn) as (vs & E & Hl & Hp & Hv).
    destruct (mapM_some number vs) as (qs & Eq & Fq).
    { intros v Hin. apply Hv in Hin. destruct Hin as (a & Ha & Ev). destruct (Hnum a n v Ha Hk Ev) as [q ->]. cbn. eauto. }
    assert (Evs : vs = map Num qs).
    { clear - Fq. induction Fq as [|v q vs qs Hq _ IH]; cbn; [auto|]. destruct v; cbn in Hq; [|discriminate]. congruence. }
    exists vs, qs. split; [auto|]. split; [auto|]. split.
    - split; [apply Qc_sorted|]. transitivity (map (fun a => value h a n) it).
      + apply Permutation_map, Permutation_sym. auto.
      + transitivity (map (fun q => Some (Num q)) qs).
        * assert (Eit : map (fun a => value h a n) it = map Some vs).
          { clear - Hp Hl. revert vs Hp Hl. induction it as [|a it' IH]; intros [|v vs] Hp Hl; try discriminate; auto.
            cbn [map]. f_equal.
            - destruct (Hp 0 a eq_refl) as (v' & Ev & ->). injection Ev as <-. auto.
            - apply IH; [|cbn in Hl; lia]. intros i b Ei. apply (Hp (S i) b Ei). }
          rewrite Eit, Evs, map_map. auto.
        * apply Permutation_map, Permutation_sym, sort_perm.
    - intros q. rewrite <- Hv, Evs, in_map_iff. split; [eauto|]. intros (q' & E' & Hq). injection E' as ->. auto.
  Qed.
  (** what is trained for an attribute *)
  Definition trained show rnd gap (bins : nat) (h : heap) (d : dataset) n (b : list (Qc * Qc * string)) : Prop :=
    exists s es, ascending_values h d n s /\ length es = bins + 1 /\
      (forall i, i <= bins -> exists e, nth_error es i = Some e /\ quantile s bins i e) /\ StronglySorted (fun x y => (x <= y)%Qc) es /\
      bins_between show (rnd (set_of es)) (gap (set_of es)) (set_of es) b /\ 1 <= length b <= bins.
  Lemma train_ok show rnd gap bins (h : heap) (d : dataset) it :
    history true h d -> Permutation it (insts d) -> 1 <= bins -> numeric h d ->
    (forall n us, kind_of d n = Some Numerical -> uniques d n = Some us -> 2 <= length us) ->
    exists bd, train show rnd gap (Z.of_nat bins) it h d = Ok bd /\
      (forall n, kind_of d n <> Some Numerical -> dict_get n bd = None) /\
      (forall n, kind_of d n = Some Numerical -> exists b, dict_get n bd = Some b /\ trained show rnd gap bins h d n b).
  Proof.
    intros Hh Hit Hb Hnum Hu. pose proof (history_inv _ _ _ Hh) as Hi. unfold train.
    assert (G : forall l bd0, (forall n y, In (n, y) l -> dict_get n (attrs d) = Some y) -> exists bd,
      foldM (fun bins_dict '(n, y) => match akind y with Categorical => Ok bins_dict | Numerical =>
               do values <- mapM (getitem h n) it ; do qs <- mapM number values ; do bins <- qcut show rnd gap qs (Z.of_nat bins) ; Ok (dict_set n bins bins_dict) end) l bd0 = Ok bd /\
      forall n, (dict_get n bd = dict_get n bd0 /\ ~ (In n (map fst l) /\ kind_of d n = Some Numerical)) \/
                (kind_of d n = Some Numerical /\ exists b, dict_get n bd = Some b /\ trained show rnd gap bins h d n b)).
    { induction l as [|[n y] l IH]; intros bd0 Hl. { exists bd0. split; [reflexivity|]. intros n. left. split; [auto|]. intros [[] _]. }
      assert (Ey : dict_get n (attrs d) = Some y) by (apply Hl; cbn; auto). assert (Hl' : forall n y, In (n, y) l -> dict_get n (attrs d) = Some y) by (intros; apply Hl; cbn; auto).
      assert (Ek : kind_of d n = Some (akind y)) by (unfold kind_of; rewrite Ey; auto).
      cbn [foldM]. destruct (akind y) eqn:Ea.
      - cbn [bind]. destruct (IH bd0 Hl') as (bd & E & F). exists bd. split; [exact E|]. intros m. destruct (F m) as [[F1 F2]|F1]; [left|auto]. split; [auto|].
        cbn [map fst]. intros [[<-|X] Y]; [congruence|auto].
      - destruct (numbers_of h d it n Hh Hit Ek Hnum) as (vs & qs & E1 & E2 & As & Iq). rewrite E1. cbn [bind]. rewrite E2. cbn [bind].
        assert (D2 : exists x z, In x qs /\ In z qs /\ x <> z).
        { destruct (uniques_some d n _ Ek) as [us Eu]. assert (H2 := Hu n us Ek Eu). destruct (uniques_iff h d n us Hh Eu) as [Nu Iu].
          destruct us as [|u [|w us]]; cbn in H2; try lia. destruct (proj1 (Iu u)) as (a & Ha & Va); [cbn; auto|]. destruct (proj1 (Iu w)) as (a' & Ha' & Va'); [cbn; auto|].
          destruct (Hnum a n u Ha Ek Va) as [q ->]. destruct (Hnum a' n w Ha' Ek Va') as [q' ->]. exists q, q'. split; [apply Iq; eauto|]. split; [apply Iq; eauto|].
          intros ->. inversion Nu as [|? ? X _]; subst. apply X. cbn. auto. }
        destruct (qcut_ok show rnd gap qs bins Hb D2) as (es & b & _ & E3 & Q1 & Q2 & Q3 & Q4 & Q5). rewrite E3. cbn [bind].
        destruct (IH (dict_set n b bd0) Hl') as (bd & E & F). exists bd. split; [exact E|]. intros m. destruct (F m) as [[F1 F2]|F1]; [|auto].
        rewrite dict_get_set in F1. destruct (eqb_ok m n) as [Em|Nm]; [rewrite Em in F1 |- *|].
        + right. split; [auto|]. exists b. split; [auto|]. exists (stable_sort Qc_leb qs), es. exact (conj As (conj Q1 (conj Q2 (conj Q3 (conj Q4 Q5))))).
        + left. split; [auto|]. cbn [map fst]. intros [[X|X] Y]; [congruence|auto]. }
    destruct (G (attrs d) []) as (bd & E & F). { intros n y Hy. apply dict_In_get; [apply (v_attrs _ _ _ Hi)|auto]. }
    exists bd. split; [exact E|]. split.
    - intros n Hk. destruct (F n) as [[F1 _]|[X _]]; [auto|contradiction].
    - intros n Hk. destruct (F n) as [[_ F2]|[_ X]]; [|auto]. exfalso. apply F2. split; [|auto]. unfold kind_of in Hk. destruct (dict_get n (attrs d)) as [y|] eqn:Ey; [|discriminate]. apply dict_get_Some_key in Ey. exact Ey.
  Qed.
  Lemma bins_nonempty (b : list (Qc * Qc * string)) k : 1 <= length b <= k -> b <> [].
  Proof. intros X ->. cbn in X. lia. Qed.
End T.

(*P C134 Training of bins *)
(** The bins of a numerical attribute lie between neighbouring quantiles of its
    values; there are not more than asked for. *)
Lemma C134_bins : forall (I T : Type) (EI : Base.Eq I) show rnd gap (bins : nat) (h : heap I val T) (d : dataset val) it,
  history true h d -> Permutation it (insts d) -> 1 <= bins ->
  (forall a n v, In a (insts d) -> kind_of d n = Some Numerical -> value h a n = Some v -> exists q, v = Num q) ->
  (forall n us, kind_of d n = Some Numerical -> uniques d n = Some us -> 2 <= length us) ->
  exists bd, train show rnd gap (Z.of_nat bins) it h d = Ok bd /\
    (forall n, kind_of d n <> Some Numerical -> dict_get n bd = None) /\
    (forall n, kind_of d n = Some Numerical -> exists edges b, dict_get n bd = Some b /\
       quantile_edges_of bins h d n edges /\ bins_between show (rnd edges) (gap edges) edges b /\ 1 <= length b <= bins).
Proof.
  intros I T EI show rnd gap bins h d it Hh Hit Hb Hnum Hu. destruct (train_ok show rnd gap bins h d it Hh Hit Hb Hnum Hu) as (bd & E & F & G).
  exists bd. split; [exact E|]. split; [exact F|]. intros n Hk. destruct (G n Hk) as (b & Eb & s & es & As & Le & Hq & Ss & Hbt & Lb).
  exists (set_of es), b. split; [auto|]. split; [|auto]. exists s. split; [auto|]. split; [apply set_of_strict; auto|].
  intros e. rewrite (RcA.set_of_In es e). split.
  - intros He. apply In_nth_error in He. destruct He as [i Ei]. assert (i < length es) by (apply nth_error_Some; congruence). exists i. split; [lia|].
    destruct (Hq i ltac:(lia)) as (e' & Ee & Qe). replace e with e' by congruence. auto.
  - intros (i & Hi & Qe). destruct (Hq i Hi) as (e' & Ee & Qe'). destruct As as [As _]. rewrite (quantile_det s bins As Hb i e e' Qe Qe'). eapply nth_error_In; eauto.
Qed.
(** If rounding changes the least value by less than the gap, no value of the
    data the bins were trained with lies below its bin, and only the greatest
    ones, in the last bin, can lie above. *)
Lemma C134_training_data : forall (I T : Type) (EI : Base.Eq I) show rnd gap (bins : nat) (h : heap I val T) (d : dataset val) it it' bd,
  history true h d -> Permutation it (insts d) -> Permutation it' (insts d) -> 1 <= bins ->
  (forall a n v, In a (insts d) -> kind_of d n = Some Numerical -> value h a n = Some v -> exists q, v = Num q) ->
  (forall n us, kind_of d n = Some Numerical -> uniques d n = Some us -> 2 <= length us) ->
  (forall edges e, nth_error edges 0 = Some e -> (rnd edges e - gap edges < e)%Qc) ->
  train show rnd gap (Z.of_nat bins) it h d = Ok bd ->
  exists h' d', discretize_trained bd it' h d = Ok (h', d') /\
    forall n a q, kind_of d n = Some Numerical -> In a (insts d) -> value h a n = Some (Num q) ->
      exists b k lo hi l, dict_get n bd = Some b /\ nth_error b k = Some (lo, hi, l) /\ value h' a n = Some (Txt l) /\
        (lo < q)%Qc /\ ((q <= hi)%Qc \/ k + 1 = length b).
Proof.
  intros I T EI show rnd gap bins h d it it' bd Hh Hit Hit' Hb Hnum Hu Hr Et. destruct (train_ok show rnd gap bins h d it Hh Hit Hb Hnum Hu) as (bd' & E & F & G).
  assert (bd' = bd) by congruence. subst bd'.
  destruct (C88_trained_bins I T EI bd h d it' Hh Hit') as (h' & d' & E' & _ & _ & _ & _ & _ & R).
  { intros n Hk. destruct (G n Hk) as (b & Eb & s & es & _ & _ & _ & _ & _ & Lb). exists b. split; [auto|]. eapply bins_nonempty; eauto. }
  { exact Hnum. }
  exists h', d'. split; [exact E'|]. intros n a q Hk Ha Hq. destruct (G n Hk) as (b & Eb & s & es & [As Ap] & Le & Hes & Ss & [Lb' Hbt] & Lb).
  destruct (R n b Hk Eb a q Ha Hq) as (l & El & [(k & lo & hi & Ek & L1 & L2 & _)|(Hno & lo & hi & Ek)]).
  { exists b, k, lo, hi, l. auto 8. }
  exists b, (length b - 1), lo, hi, l. split; [auto|]. split; [auto|]. split; [auto|]. split; [|right; lia].
  (* the least value is above the lowest bound *)
  assert (Hmin : forall lo0 hi0 t, nth_error b 0 = Some (lo0, hi0, t) -> (lo0 < q)%Qc).
  { intros lo0 hi0 t E0. destruct (Hbt 0 lo0 hi0 t E0) as (a0 & b0 & Ea0 & _ & -> & _). cbn [Nat.eqb]. eapply Qclt_le_trans; [apply Hr; exact Ea0|].
    assert (Hi0 : In a0 es) by (apply (proj1 (RcA.set_of_In es a0)); eapply nth_error_In; eauto).
    destruct (Hes 0 ltac:(lia)) as (e & Ee & Qe). assert (Le0 : (a0 <= e)%Qc).
    { assert (Ie : In e (set_of es)) by (apply (proj2 (RcA.set_of_In es e)); eapply nth_error_In; eauto). apply In_nth_error in Ie. destruct Ie as [j Ej].
      apply (sorted_nth (set_of es) (strict_weak _ (set_of_strict es Ss)) 0 j); auto. lia. }
    apply (quantile_first s bins Hb) in Qe.
    assert (Hin : In (Some (Num q)) (map (fun x => Some (Num x)) s)) by (eapply Permutation_in; [exact Ap|]; apply in_map_iff; eauto).
    apply in_map_iff in Hin. destruct Hin as (x & Ex & Hx). injection Ex as ->. apply In_nth_error in Hx. destruct Hx as [j Ej].
    eapply Qcle_trans; [exact Le0|]. apply (sorted_nth s As 0 j); auto. lia. }
  assert (Down : forall k lo hi t, nth_error b k = Some (lo, hi, t) -> (lo < q)%Qc).
  { induction k as [|k IH]; intros lo' hi' t Ek'; [eapply Hmin; eauto|].
    destruct (nth_error b k) as [[[lo1 hi1] t1]|] eqn:E1; [|apply nth_error_None in E1; assert (S k < length b) by (apply nth_error_Some; congruence); lia].
    specialize (IH lo1 hi1 t1 eq_refl). destruct (Hbt k _ _ _ E1) as (a1 & b1 & Ea1 & Eb1 & _ & H1 & _). destruct (Hbt (S k) _ _ _ Ek') as (a2 & b2 & Ea2 & _ & H2 & _ & _).
    cbn [Nat.eqb] in H2. replace (k + 1) with (S k) in Eb1 by lia. assert (lo' = hi1) by congruence. subst lo'. destruct (Qc_lt_dec hi1 q) as [|X]; [congruence|]. exfalso. apply (Hno k lo1 hi1 t1 E1). auto. }
  eapply Down; eauto.
Qed.
(** If edges are not rounded and all instances have different values, the
    numbers of instances in the bins differ by at most one. *)
Lemma C134_equal_sized : forall (I T : Type) (EI : Base.Eq I) show rnd gap (bins : nat) (h : heap I val T) (d : dataset val) it it' n,
  history true h d -> Permutation it (insts d) -> Permutation it' (insts d) -> 1 <= bins < length (insts d) ->
  (forall a n v, In a (insts d) -> kind_of d n = Some Numerical -> value h a n = Some v -> exists q, v = Num q) ->
  (forall n us, kind_of d n = Some Numerical -> uniques d n = Some us -> 2 <= length us) ->
  (forall edges e, In e edges -> rnd edges e = e) -> (forall edges, (0 < gap edges)%Qc) ->
  kind_of d n = Some Numerical -> NoDup (map (fun a => value h a n) (insts d)) ->
  exists bd h' d' b groups, train show rnd gap (Z.of_nat bins) it h d = Ok bd /\ discretize_trained bd it' h d = Ok (h', d') /\
    dict_get n bd = Some b /\ length b = bins /\ length groups = bins /\ Permutation (concat groups) (insts d) /\
    forall k g lo hi l, nth_error groups k = Some g -> nth_error b k = Some (lo, hi, l) ->
      (length (insts d) - 1) / bins <= length g <= (length (insts d) - 1) / bins + 1 /\
      forall a, In a g -> value h' a n = Some (Txt l) /\ forall q, value h a n = Some (Num q) -> (lo < q)%Qc /\ (q <= hi)%Qc.
Proof.
  intros I T EI show rnd gap bins h d it it' n Hh Hit Hit' Hb Hnum Hu Hr Hg Hk Hnd.
  destruct (train_ok show rnd gap bins h d it Hh Hit ltac:(lia) Hnum Hu) as (bd & E & F & G).
  destruct (C88_trained_bins I T EI bd h d it' Hh Hit') as (h' & d' & E' & _ & _ & _ & _ & _ & R).
  { intros m Hm. destruct (G m Hm) as (b & Eb & s & es & _ & _ & _ & _ & _ & Lb). exists b. split; [auto|]. eapply bins_nonempty; eauto. }
  { exact Hnum. }
  destruct (G n Hk) as (b & Eb & s & es & [As Ap] & Le & Hes & Ss & [Lb' Hbt] & Lb).
  assert (Ls : length s = length (insts d)) by (apply Permutation_length in Ap; rewrite !map_length in Ap; auto).
  assert (Ns : NoDup s) by (apply (NoDup_map_inv (fun q => Some (Num q))); eapply Permutation_NoDup; eauto).
  assert (St := distinct_strict s As Ns). clear G.
  (* the quantiles are different *)
  assert (Hcut : forall i, 1 <= i < bins -> exists c, nth_error es i = Some c /\ cut_point s bins i c).
  { intros i Hi. destruct (Hes i ltac:(lia)) as (e & Ee & [[_ Q]|[X _]]); [eauto|lia]. }
  destruct (Hes bins ltac:(lia)) as (mx & Emx & Qmx). destruct Qmx as [[X _]|[_ Qmx]]; [lia|].
  destruct (Hes 0 ltac:(lia)) as (mn & Emn & Qmn).
  assert (Strict : forall i x y, i < bins -> nth_error es i = Some x -> nth_error es (i + 1) = Some y -> (x < y)%Qc).
  { intros i x y Hi Ex Ey. destruct (Hes i ltac:(lia)) as (e & Ee & [[_ Q]|[X _]]); [|lia]. assert (e = x) by congruence. subst e.
    pose proof (share s bins ltac:(lia) i Hi) as [S1 _]. assert (S2 : 1 <= (length s - 1) / bins) by (apply Nat.div_le_lower_bound; lia).
    set (p := (i + 1) * (length s - 1) / bins) in *.
    assert (Hp : p <= length s - 1) by (unfold p; apply Nat.div_le_upper_bound; nia).
    destruct (nth_error s p) as [v|] eqn:Ev; [|apply nth_error_None in Ev; lia].
    assert (A := cut_position s bins St ltac:(lia) i x p v Hi Q Ev).
    assert (Lv : (v <= y)%Qc).
    { destruct (Hes (i + 1) ltac:(lia)) as (e & Ee' & [[Hi1 Q']|[Hi1 Q']]); assert (e = y) by congruence; subst e.
      - apply (cut_position s bins St ltac:(lia) (i + 1) y p v Hi1 Q' Ev). auto.
      - eapply (sorted_nth s As p (length s - 1)); eauto. }
    eapply Qclt_le_trans; [|exact Lv]. destruct (Qc_lt_dec x v) as [|L]; [auto|]. apply A in L. lia. }
  assert (Ses : StronglySorted (fun x y => (x < y)%Qc) es).
  { apply sorted_from_nth. intros i j x y Hij Ex Ey. assert (j < length es) by (apply nth_error_Some; congruence).
    destruct (nth_error es (i + 1)) as [z|] eqn:Ez; [|apply nth_error_None in Ez; lia]. eapply Qclt_le_trans; [apply (Strict i x z); auto; lia|]. apply (sorted_nth es Ss (i + 1) j); auto. lia. }
  rewrite (set_of_same es (strict_NoDup es Ses)) in *. assert (Lbb : length b = bins) by lia.
  set (cuts := firstn (bins - 1) (tl es)).
  assert (Nc : forall i, i + 1 < bins -> nth_error cuts i = nth_error es (i + 1)).
  { intros i Hi. unfold cuts. rewrite nth_error_firstn. destruct (Nat.ltb_spec i (bins - 1)); [|lia]. destruct es as [|e0 es']; [destruct i; auto|]. cbn [tl]. replace (i + 1) with (S i) by lia. auto. }
  assert (Lc : length cuts = bins - 1). { unfold cuts. rewrite firstn_length. destruct es; cbn [tl length] in *; lia. }
  assert (Sc : StronglySorted (fun x y => (x <= y)%Qc) cuts).
  { apply sorted_from_nth. intros i j x y Hij Ex Ey. assert (j < length cuts) by (apply nth_error_Some; congruence). rewrite Nc in Ex, Ey by lia. apply (sorted_nth es Ss (i + 1) (j + 1)); auto. lia. }
  assert (Hc : forall i, 1 <= i < bins -> exists c, nth_error cuts (i - 1) = Some c /\ cut_point s bins i c).
  { intros i Hi. destruct (Hcut i Hi) as (c & Ec & Q). exists c. split; [|auto]. rewrite Nc by lia. replace (i - 1 + 1) with i by lia. auto. }
  assert (Hv : forall a, In a (insts d) -> exists q, value h a n = Some (Num q) /\ In q s).
  { intros a Ha. assert (X : In (value h a n) (map (fun q => Some (Num q)) s)) by (eapply Permutation_in; [exact Ap|]; apply in_map_iff; eauto).
    apply in_map_iff in X. destruct X as (q & X & Hq). eauto. }
  (* a bin contains what its bucket contains *)
  assert (Hbin : forall k lo hi l q, nth_error b k = Some (lo, hi, l) -> In q s -> ((lo < q)%Qc /\ (q <= hi)%Qc) <-> in_bucket cuts k q).
  { intros k lo hi l q Ek Hq. assert (Hkb : k < length b) by (apply nth_error_Some; congruence). destruct (Hbt k lo hi l Ek) as (a & c & Ea & Ec & -> & -> & _).
    rewrite !Hr by (eapply nth_error_In; eauto). apply In_nth_error in Hq. destruct Hq as [j Ej].
    assert (Hlow : ((if k =? 0 then a - gap es else a) < q)%Qc <-> (forall c0, 0 < k -> nth_error cuts (k - 1) = Some c0 -> (c0 < q)%Qc)).
    { destruct (Nat.eqb_spec k 0) as [->|Nk].
      - split; [intros _ c0 X; lia|]. intros _. apply (quantile_first s bins ltac:(lia)) in Qmn. assert (a = mn) by congruence. subst a.
        apply Qclt_le_trans with mn; [|apply (sorted_nth s As 0 j); auto; lia]. apply Qclt_minus_iff. replace (mn + - (mn - gap es))%Qc with (gap es) by ring. apply Hg.
      - rewrite Nc by lia. replace (k - 1 + 1) with k by lia. split; [intros X c0 _ Y; congruence|]. intros X. apply X; [lia|auto]. }
    assert (Hhigh : (q <= c)%Qc <-> (forall c0, nth_error cuts k = Some c0 -> (q <= c0)%Qc)).
    { destruct (Nat.eq_dec (k + 1) bins) as [Eq|Nq].
      - split; [intros _ c0 X; assert (k < length cuts) by (apply nth_error_Some; congruence); lia|]. intros _. assert (c = mx) by congruence. subst c.
        assert (j < length s) by (apply nth_error_Some; congruence). apply (sorted_nth s As j (length s - 1)); auto. lia.
      - rewrite Nc by lia. split; [intros X c0 Y; congruence|]. intros X. apply X. auto. }
    unfold in_bucket. rewrite Hhigh. destruct (k =? 0); tauto. }
  set (index := fun a => match value h a n with Some (Num q) => bucket_of cuts q | _ => 0 end).
  assert (Hi : forall a, In a (insts d) -> index a < bins).
  { intros a _. unfold index. destruct (value h a n) as [[q|t]|]; try lia. assert (X := bucket_of_le cuts q). lia. }
  exists bd, h', d', b, (map (fun k => filter (fun a => index a =? k) (insts d)) (seq 0 bins)).
  split; [exact E|]. split; [exact E'|]. split; [auto|]. split; [auto|]. split; [rewrite map_length, seq_length; auto|]. split.
  - rewrite grouped, filter_all; [auto|]. intros a Ha. apply Nat.ltb_lt. auto.
  - intros k g lo hi l Eg Ek. assert (Hkb : k < bins) by (rewrite <- Lbb; apply nth_error_Some; congruence).
    rewrite nth_error_map, (nth_error_nth' _ 0), seq_nth in Eg by (rewrite ?seq_length; auto). cbn [option_map Nat.add] in Eg. injection Eg as <-. split.
    + set (P := fun o : option val => match o with Some (Num q) => bucket_of cuts q | _ => 0 end =? k).
      assert (L : length (filter (fun a => index a =? k) (insts d)) = length (filter (fun q => bucket_of cuts q =? k) s)).
      { change (length (filter (fun a => P (value h a n)) (insts d)) = length (filter (fun q => P (Some (Num q))) s)).
        rewrite <- (filter_map_length (fun a => value h a n) P), <- (filter_map_length (fun q => Some (Num q)) P). apply filter_perm_length. auto. }
      rewrite L, <- Ls. apply (bucket_size s bins St ltac:(lia) cuts k); [lia|auto|auto|auto|].
      intros v _. rewrite Nat.eqb_eq. symmetry. apply bucket_unique; [auto|lia].
    + intros a Ha. apply filter_In in Ha. destruct Ha as [Ha Ei]. apply Nat.eqb_eq in Ei. destruct (Hv a Ha) as (q & Eq & Hq). unfold index in Ei. rewrite Eq in Ei.
      assert (B : in_bucket cuts k q) by (apply bucket_unique; [auto|lia|auto]). assert (C := proj2 (Hbin k lo hi l q Ek Hq) B). split; [|intros q' Eq'; replace q' with q by congruence; exact C].
      destruct (R n b Hk Eb a q Ha Eq) as (t & El & [(j & lo' & hi' & Ej & L1 & L2 & _)|(Hno & _)]); [|exfalso; exact (Hno k lo hi l Ek C)].
      assert (j < length b) by (apply nth_error_Some; congruence).
      assert (Bj := proj1 (Hbin j lo' hi' t q Ej Hq) (conj L1 L2)). apply (bucket_unique cuts j q Sc ltac:(lia)) in Bj. assert (j = k) by lia. subst j. congruence.
Qed.
Lemma history_fold {I T} `{Base.Eq I} (h : heap I val T) l : forall d d', history true h d -> foldM (add_instance h) l d = Ok d' -> history true h d'.
Proof.
  induction l as [|a l IH]; intros d d' Hd E; cbn [foldM] in E; [injection E as <-; auto|].
  destruct (add_instance h d a) as [d1|] eqn:E1; [|discriminate]. cbn [bind] in E. eapply IH; [|exact E]. eapply hist_add; eauto.
Qed.
Lemma round3_close x : (round3 x - of_Z 1 / of_Z 1000 < x)%Qc.
Proof.
  apply Qclt_minus_iff. unfold round3. set (z := Qround.Qfloor (this x * 1000 + (1 # 2))).
  assert (F : (inject_Z z <= this x * 1000 + (1 # 2))%Q) by apply Qround.Qfloor_le.
  replace (x + - (of_Z z / of_Z 1000 - of_Z 1 / of_Z 1000))%Qc with ((x * of_Z 1000 + of_Z 1 - of_Z z) * / of_Z 1000)%Qc by (field; discriminate).
  assert (P : (0 < x * of_Z 1000 + of_Z 1 - of_Z z)%Qc).
  { unfold Qclt. cbn [this Qcplus Qcminus Qcmult Qcopp of_Z Q2Qc]. rewrite !Qred_correct. change (Qred 0) with 0%Q. unfold Qle, Qlt, Qplus, Qmult, Qopp, inject_Z in *. cbn [Qnum Qden] in *. lia. }
  apply Qcle_lt_trans with (0 * / of_Z 1000)%Qc; [rewrite Qcmult_0_l; apply Qcle_refl|]. apply Qcmult_lt_compat_r; [reflexivity|auto].
Qed.
(** Rounding can make the bins very different: of eleven instances with
    different values one is in the first and ten are in the second of two bins. *)
Lemma C134_rounding_witness : exists (h : heap nat val unit) (d : dataset val) bd h' d' b first second,
  history true h d /\ length (insts d) = 11 /\ NoDup (map (fun a => value h a "x") (insts d)) /\
  (forall a n v, In a (insts d) -> kind_of d n = Some Numerical -> value h a n = Some v -> exists q, v = Num q) /\
  (forall e, (round3 e - of_Z 1 / of_Z 1000 < e)%Qc) /\
  train (fun q => if Qc_leb q (of_Z 0) then "-0.001" else if Qc_leb (of_Z 1) q then "1.0" else "0.333") (fun _ => round3) (fun _ => of_Z 1 / of_Z 1000)%Qc 2 (insts d) h d = Ok bd /\
  discretize_trained bd (insts d) h d = Ok (h', d') /\ dict_get "x" bd = Some b /\ map snd b = [first; second] /\ first = "(-0.001, 0.333]" /\ second = "(0.333, 1.0]" /\
  map (fun a => value h' a "x") (insts d) = Some (Txt first) :: repeat (Some (Txt second)) 10.
Proof.
  set (h := map (fun '(i, v) => {| iid := i; feats := [("x", Num (of_Z v / of_Z 1000000)%Qc)]; target := tt |})
    (combine (seq 0 11) [0; 333331; 333332; 333333; 333334; 333335; 333336; 333337; 333338; 333339; 1000000]%Z) : heap nat val unit).
  set (d := match foldM (add_instance h) (seq 0 11) (new [] ["x"]) with Ok d => d | Err _ => new [] [] end).
  set (sh := fun q => if Qc_leb q (of_Z 0) then "-0.001" else if Qc_leb (of_Z 1) q then "1.0" else "0.333").
  set (gap := fun _ : list Qc => (of_Z 1 / of_Z 1000)%Qc).
  set (bd := match train sh (fun _ => round3) gap 2 (insts d) h d with Ok bd => bd | Err _ => [] end).
  set (r := match discretize_trained bd (insts d) h d with Ok r => r | Err _ => (h, d) end).
  set (b := match dict_get "x" bd with Some b => b | None => [] end).
  assert (Hi : insts d = seq 0 11) by (vm_compute; reflexivity).
  exists h, d, bd, (fst r), (snd r), b, "(-0.001, 0.333]", "(0.333, 1.0]".
  assert (P : proper h).
  { intros a x E. do 11 (destruct a as [|a]; [injection E as <-; repeat constructor; cbn; intuition discriminate|]). destruct a; discriminate. }
  split. { apply (history_fold h (seq 0 11) (new [] ["x"])); [apply hist_new; [auto|]; intros _; repeat constructor; intros []|]. vm_compute. reflexivity. }
  split; [rewrite Hi; reflexivity|].
  split. { rewrite Hi. apply (NoDup_map_inv (fun o => match o with Some (Num q) => Some (this q) | _ => None end)). rewrite map_map.
    match goal with |- NoDup ?x => let y := eval vm_compute in x in change x with y end. repeat (constructor; [cbn; intuition discriminate|]). constructor. }
  split. { intros a n v Ha Hk Ev. destruct (eqb_ok n "x") as [->|N].
    - rewrite Hi in Ha. cbn [seq In] in Ha. repeat (destruct Ha as [<-|Ha]; [injection Ev as <-; eauto|]). destruct Ha.
    - exfalso. assert (X : keys (attrs d) = ["x"]) by (vm_compute; reflexivity). unfold kind_of in Hk. destruct (dict_get n (attrs d)) as [y|] eqn:Ey; [|discriminate].
      apply dict_get_Some_key in Ey. rewrite X in Ey. destruct Ey as [Ey|[]]. congruence. }
  split; [exact round3_close|]. fold sh gap.
  split; [vm_compute; reflexivity|]. split; [vm_compute; reflexivity|]. split; [vm_compute; reflexivity|]. split; [vm_compute; reflexivity|].
  split; [reflexivity|]. split; [reflexivity|]. vm_compute. reflexivity.
Qed.
