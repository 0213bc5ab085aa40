(** Sizes of the bins of quantile based discretization (C133) *)
From Coq Require Import Permutation Sorted QArith Qcanon String Ascii.
From Verif.Model Require Import Base Sort LogNoise Dataset Transformers Discretization.
From Verif.Spec Require Import DatasetSpec TransformSpec QuantileSpec.
From Verif.Lib Require Import ListLib DictLib SortLib.
From Verif.Proofs Require Import PetriA ParallelB LogNoise DatasetA DatasetB DatasetC TransformersA TransformersB TransformersC Quantiles.
Open Scope string_scope.
Open Scope list_scope.
Open Scope nat_scope.

Lemma filter_range {X} (P : X -> bool) (s : list X) lo hi : lo <= hi <= length s ->
  (forall k v, nth_error s k = Some v -> P v = true <-> lo <= k < hi) -> length (filter P s) = hi - lo.
Proof.
  revert lo hi. induction s as [|x s IH]; intros lo hi Hl H; cbn [length filter] in *; [lia|].
  assert (H0 := H 0 x eq_refl). destruct (P x) eqn:E.
  - assert (lo = 0 /\ 0 < hi) as [-> Hh] by (destruct H0 as [H0 _]; specialize (H0 eq_refl); lia). cbn [length]. rewrite (IH 0 (hi - 1)); [lia|lia|].
    intros k v Hk. rewrite (H (S k) v Hk). lia.
  - assert (~ (lo <= 0 < hi)) by (intros X0; apply H0 in X0; discriminate). rewrite (IH (lo - 1) (hi - 1)); [lia|lia|].
    intros k v Hk. rewrite (H (S k) v Hk). lia.
Qed.
Lemma strict_nth (l : list Qc) : StronglySorted (fun x y => (x < y)%Qc) l ->
  forall i j x y, i < j -> nth_error l i = Some x -> nth_error l j = Some y -> (x < y)%Qc.
Proof.
  induction 1 as [|z l Hs IH Hf]; intros i j x y Hij Ex Ey; [destruct i; discriminate|].
  destruct j as [|j]; [lia|]. cbn in Ey. destruct i as [|i]; cbn in Ex.
  - injection Ex as <-. rewrite Forall_forall in Hf. apply Hf. eapply nth_error_In; eauto.
  - eapply (IH i j); eauto. lia.
Qed.
Lemma strict_weak (l : list Qc) : StronglySorted (fun x y => (x < y)%Qc) l -> StronglySorted (fun x y => (x <= y)%Qc) l.
Proof. induction 1 as [|x l H IH F]; constructor; auto. eapply Forall_impl; [|exact F]. intros y. apply Qclt_le_weak. Qed.
Lemma distinct_strict (l : list Qc) : StronglySorted (fun x y => (x <= y)%Qc) l -> NoDup l -> StronglySorted (fun x y => (x < y)%Qc) l.
Proof.
  induction 1 as [|x l H IH F]; intros N; [constructor|]. inversion N as [|? ? Nx Nl]; subst. constructor; [apply IH; exact Nl|].
  rewrite Forall_forall in F. apply Forall_forall. intros y Hy. destruct (Qc_lt_dec x y) as [L|L]; [exact L|]. exfalso. apply Nx.
  assert (E : y = x) by (apply Qcle_antisym; [exact L|exact (F y Hy)]). rewrite <- E. exact Hy.
Qed.

Section B.
  Variables (s : list Qc) (n : nat).
  Hypothesis Hs : StronglySorted (fun x y => (x < y)%Qc) s.
  Hypothesis Hn : 1 <= n.
  Notation m := (length s - 1).
  Lemma interp_lt x y k : (x < y)%Qc -> k < n -> (x + (y - x) * of_Z (Z.of_nat k) / of_Z (Z.of_nat n) < y)%Qc.
  Proof.
    intros Hxy Hk. assert (P := n_pos n Hn).
    assert (E : (y - (x + (y - x) * of_Z (Z.of_nat k) / of_Z (Z.of_nat n)) = (y - x) * (of_Z (Z.of_nat n) - of_Z (Z.of_nat k)) / of_Z (Z.of_nat n))%Qc) by (field; apply Qc_pos_neq; auto).
    apply Qclt_minus_iff. fold (y - (x + (y - x) * of_Z (Z.of_nat k) / of_Z (Z.of_nat n)))%Qc. rewrite E.
    assert (P1 : (0 < y - x)%Qc) by (apply Qclt_minus_iff in Hxy; exact Hxy).
    assert (P2 : (0 < of_Z (Z.of_nat n) - of_Z (Z.of_nat k))%Qc) by (rewrite <- of_Z_sub, <- of_Z_0; apply of_Z_lt; lia).
    unfold Qcdiv. assert (P3 : (0 < / of_Z (Z.of_nat n))%Qc).
    { destruct (Qc_lt_dec 0 (/ of_Z (Z.of_nat n))) as [L|L]; [auto|]. exfalso. assert (X : (/ of_Z (Z.of_nat n) * of_Z (Z.of_nat n) <= 0 * of_Z (Z.of_nat n))%Qc) by (apply Qcmult_le_compat_r; [auto|apply Qclt_le_weak; auto]).
      rewrite Qcmult_inv_l in X by (apply Qc_pos_neq; auto). rewrite Qcmult_0_l in X. apply (Qclt_not_le 0 1); [reflexivity|auto]. }
    replace 0%Qc with (0 * / of_Z (Z.of_nat n))%Qc by ring. apply Qcmult_lt_compat_r; [auto|].
    replace 0%Qc with (0 * (of_Z (Z.of_nat n) - of_Z (Z.of_nat k)))%Qc by ring. apply Qcmult_lt_compat_r; auto.
  Qed.
  Lemma cut_position i c k v : i < n -> cut_point s n i c -> nth_error s k = Some v -> (v <= c)%Qc <-> k <= i * m / n.
  Proof.
    intros Hi (j & x & y & Ex & Ey & Hj & Ec) Ek.
    assert (Ej : i * m / n = j) by (symmetry; apply (Nat.div_unique (i * m) n j (i * m - j * n)); lia). rewrite Ej.
    assert (Hxy : (x < y)%Qc) by (eapply (strict_nth s Hs j (j + 1)); eauto; lia).
    assert (Cy : (c < y)%Qc) by (rewrite Ec; apply interp_lt; [auto|lia]).
    assert (Cx : (x <= c)%Qc). { rewrite Ec, <- (interp_0 n Hn x y) at 1. apply interp_mono; [auto|apply Qclt_le_weak; auto|lia]. }
    split.
    - intros Hv. destruct (Nat.le_gt_cases k j) as [|Hk]; [auto|]. exfalso. assert (Y : (y <= v)%Qc) by (eapply (sorted_nth s (strict_weak s Hs) (j + 1) k); eauto; lia).
      apply (Qclt_not_le _ _ Cy). eapply Qcle_trans; eauto.
    - intros Hk. apply Qcle_trans with x; [|auto]. eapply (sorted_nth s (strict_weak s Hs) k j); eauto.
  Qed.
  Lemma share i : i < n -> m / n <= (i + 1) * m / n - i * m / n <= m / n + 1 /\ i * m / n <= (i + 1) * m / n.
  Proof.
    intros _. pose proof (Nat.div_mod m n ltac:(lia)). pose proof (Nat.div_mod (i * m) n ltac:(lia)). pose proof (Nat.div_mod ((i + 1) * m) n ltac:(lia)).
    pose proof (Nat.mod_upper_bound m n ltac:(lia)). pose proof (Nat.mod_upper_bound (i * m) n ltac:(lia)). pose proof (Nat.mod_upper_bound ((i + 1) * m) n ltac:(lia)).
    set (a := m / n) in *. set (b := i * m / n) in *. set (c := (i + 1) * m / n) in *. set (ra := m mod n) in *. set (rb := (i * m) mod n) in *. set (rc := ((i + 1) * m) mod n) in *.
    assert (E : n * c + rc = n * b + rb + (n * a + ra)) by lia. nia.
  Qed.
  Lemma bucket_size cuts k P : 2 <= length s -> length cuts = n - 1 ->
    (forall i, 1 <= i < n -> exists c, nth_error cuts (i - 1) = Some c /\ cut_point s n i c) -> k < n ->
    (forall v, In v s -> P v = true <-> in_bucket cuts k v) -> m / n <= length (filter P s) <= m / n + 1.
  Proof.
    intros H2 Hc Hcut Hk HP.
    set (lo := if k =? 0 then 0 else k * m / n + 1). set (hi := (k + 1) * m / n + 1).
    assert (Sh := share k Hk). assert (Last : n * m / n = m) by (rewrite Nat.mul_comm; apply Nat.div_mul; lia).
    assert (Hhi : hi <= length s). { unfold hi. assert ((k + 1) * m / n <= n * m / n) by (apply Nat.div_le_mono; nia). lia. }
    rewrite (filter_range P s lo hi).
    - unfold lo, hi. destruct (Nat.eqb_spec k 0) as [->|]; [|lia]. cbn [Nat.add Nat.mul]. rewrite Nat.add_0_r. lia.
    - split; [|auto]. unfold lo, hi. destruct (k =? 0); lia.
    - intros j v Hj. rewrite HP by (eapply nth_error_In; eauto). unfold in_bucket.
      assert (Low : (forall c, 0 < k -> nth_error cuts (k - 1) = Some c -> (c < v)%Qc) <-> lo <= j).
      { unfold lo. destruct (Nat.eqb_spec k 0) as [->|Nk]; [split; [lia|intros _ c X; lia]|].
        destruct (Hcut k ltac:(lia)) as (c & Ec & Pc). assert (Q := cut_position k c j v Hk Pc Hj). split.
        - intros X. destruct (Nat.le_gt_cases (k * m / n + 1) j) as [|L]; [auto|]. exfalso. apply (Qclt_not_le _ _ (X c ltac:(lia) Ec)). apply Q. lia.
        - intros X c' _ Ec'. replace c' with c by congruence. destruct (Qc_lt_dec c v) as [|L]; [auto|]. apply Q in L. lia. }
      assert (High : (forall c, nth_error cuts k = Some c -> (v <= c)%Qc) <-> j < hi).
      { unfold hi. destruct (Nat.eq_dec (k + 1) n) as [En|Nk].
        - split; [|intros _ c Ec; assert (k < length cuts) by (apply nth_error_Some; congruence); lia]. intros _. rewrite En, Last. assert (j < length s) by (apply nth_error_Some; congruence). lia.
        - destruct (Hcut (k + 1) ltac:(lia)) as (c & Ec & Pc). replace (k + 1 - 1) with k in Ec by lia. assert (Q := cut_position (k + 1) c j v ltac:(lia) Pc Hj). split.
          + intros X. specialize (X c Ec). apply Q in X. lia.
          + intros X c' Ec'. replace c' with c by congruence. apply Q. lia. }
      tauto.
  Qed.
End B.

(** the interval a number lies in *)
Fixpoint bucket_of (cuts : list Qc) (q : Qc) : nat :=
  match cuts with [] => 0 | c :: cuts => if Qc_leb q c then 0 else S (bucket_of cuts q) end.
Lemma bucket_of_le cuts q : bucket_of cuts q <= length cuts.
Proof. induction cuts as [|c cuts IH]; cbn [bucket_of length]; [lia|]. destruct (Qc_leb q c); lia. Qed.
Lemma bucket_of_in cuts q : in_bucket cuts (bucket_of cuts q) q.
Proof.
  induction cuts as [|c cuts IH]; cbn [bucket_of].
  - split; intros c; [lia|discriminate].
  - destruct (Qc_leb q c) eqn:E.
    + split; intros c'; [lia|]. cbn. intros X. injection X as <-. apply Qc_leb_iff. auto.
    + apply Qc_leb_false in E. destruct IH as [I1 I2]. split; intros c'; [|apply I2]. intros _. cbn [Nat.sub]. rewrite Nat.sub_0_r.
      destruct (bucket_of cuts q) as [|k] eqn:Ek; cbn [nth_error]; [intros X; injection X as <-; auto|]. intros X. apply I1; [lia|]. cbn [Nat.sub]. rewrite Nat.sub_0_r. auto.
Qed.
Lemma bucket_order cuts k k' q q' : StronglySorted (fun x y => (x <= y)%Qc) cuts -> k < k' <= length cuts -> in_bucket cuts k q -> in_bucket cuts k' q' -> (q < q')%Qc.
Proof.
  intros Hs Hk [_ H1] [H2 _].
  destruct (nth_error cuts k) as [c|] eqn:Ec; [|apply nth_error_None in Ec; lia].
  destruct (nth_error cuts (k' - 1)) as [c'|] eqn:Ec'; [|apply nth_error_None in Ec'; lia].
  specialize (H1 c eq_refl). specialize (H2 c' ltac:(lia) eq_refl).
  assert (L : (c <= c')%Qc) by (eapply (sorted_nth cuts Hs k (k' - 1)); eauto; lia).
  eapply Qcle_lt_trans; [exact H1|]. eapply Qcle_lt_trans; eauto.
Qed.
Lemma bucket_unique cuts k q : StronglySorted (fun x y => (x <= y)%Qc) cuts -> k <= length cuts -> in_bucket cuts k q <-> bucket_of cuts q = k.
Proof.
  intros Hs Hk. split; [|intros <-; apply bucket_of_in]. intros H. assert (I := bucket_of_in cuts q). assert (L := bucket_of_le cuts q).
  destruct (Nat.lt_total (bucket_of cuts q) k) as [X|[X|X]]; [|auto|]; exfalso; eapply (Qclt_not_le q q); try apply Qcle_refl; eapply bucket_order; eauto; lia.
Qed.

Lemma grouped {X} (f : X -> nat) (l : list X) n : Permutation (concat (map (fun k => filter (fun x => f x =? k) l) (seq 0 n))) (filter (fun x => f x <? n) l).
Proof.
  induction n as [|n IH].
  - cbn [seq map concat]. induction l as [|x l IH]; [constructor|]. cbn [filter]. destruct (Nat.ltb_spec (f x) 0); [lia|exact IH].
  - rewrite seq_S, map_app, concat_app. cbn [map concat Nat.add]. rewrite app_nil_r. rewrite IH. clear.
    induction l as [|x l IH]; [auto|]. cbn [filter]. destruct (Nat.ltb_spec (f x) n), (Nat.eqb_spec (f x) n), (Nat.ltb_spec (f x) (S n)); try lia; cbn [app]; auto.
    rewrite <- Permutation_middle. auto.
Qed.
Lemma filter_all {X} (P : X -> bool) l : (forall x, In x l -> P x = true) -> filter P l = l.
Proof. induction l as [|x l IH]; intros H; [auto|]. cbn [filter]. rewrite (H x) by (cbn; auto). f_equal. apply IH. intros; apply H; cbn; auto. Qed.
Lemma filter_map_length {X Y} (g : X -> Y) (P : Y -> bool) l : length (filter P (map g l)) = length (filter (fun x => P (g x)) l).
Proof. induction l as [|x l IH]; [auto|]. cbn [map filter]. destruct (P (g x)); cbn [length]; auto. Qed.
Lemma filter_perm_length {X} (P : X -> bool) l l' : Permutation l l' -> length (filter P l) = length (filter P l').
Proof. induction 1; cbn [filter]; repeat match goal with |- context [P ?x] => destruct (P x) end; cbn [length]; congruence. Qed.

(** the texts of the intervals *)
Definition interval_label (show : Qc -> string) mn mx (cuts : list Qc) k : string :=
  match k with
  | 0 => "[" ++ show mn ++ ", " ++ show (nth 0 cuts mx) ++ "]"
  | S j => "(" ++ show (nth j cuts mx) ++ ", " ++ show (nth k cuts mx) ++ "]"
  end%string.
Lemma label_interval show mn mx cuts k q : cuts <> [] -> k <= length cuts -> in_bucket cuts k q -> interval_text show mn mx cuts q (interval_label show mn mx cuts k).
Proof.
  intros Hne Hk [H1 H2]. assert (0 < length cuts) by (destruct cuts; [congruence|cbn; lia]). destruct k as [|j]; cbn [interval_label].
  - left. assert (E : nth_error cuts 0 = Some (nth 0 cuts mx)) by (apply nth_error_nth'; auto). exists (nth 0 cuts mx). split; [exact E|]. split; [apply H2; exact E|reflexivity].
  - right. assert (E : nth_error cuts j = Some (nth j cuts mx)) by (apply nth_error_nth'; lia).
    assert (L : (nth j cuts mx < q)%Qc) by (apply H1; [lia|]; cbn [Nat.sub]; rewrite Nat.sub_0_r; auto).
    destruct (Nat.eq_dec (S j) (length cuts)) as [El|Nl].
    + right. exists (nth j cuts mx). split; [rewrite <- El; cbn [Nat.sub]; rewrite Nat.sub_0_r; auto|]. split; [auto|]. rewrite (nth_overflow cuts mx (n := S j)) by lia. auto.
    + left. assert (E' : nth_error cuts (S j) = Some (nth (S j) cuts mx)) by (apply nth_error_nth'; lia). exists j, (nth j cuts mx), (nth (S j) cuts mx). split; [exact E|]. split; [exact E'|]. split; [exact L|]. split; [apply H2; exact E'|reflexivity].
Qed.
Lemma comma_split a b a' b' : ~ In ","%char (list_ascii_of_string a) -> ~ In ","%char (list_ascii_of_string a') ->
  (a ++ ", " ++ b)%string = (a' ++ ", " ++ b')%string -> a = a'.
Proof.
  revert a'. induction a as [|x a IH]; intros [|y a'] H H' E; [auto| | |]; cbn in E.
  - injection E as Ex _. exfalso. apply H'. cbn. auto.
  - injection E as Ex _. exfalso. apply H. cbn. auto.
  - injection E as -> E. f_equal. apply IH; [| |exact E]; intros X; [apply H|apply H']; cbn; auto.
Qed.
Lemma labels_differ show mn mx cuts n : (forall x y, show x = show y -> x = y) -> (forall x, ~ In ","%char (list_ascii_of_string (show x))) ->
  NoDup cuts -> n = length cuts + 1 -> NoDup (map (interval_label show mn mx cuts) (seq 0 n)).
Proof.
  intros Inj Nc Nd ->. apply NoDup_nth_error. intros i j Hi E. rewrite map_length, seq_length in Hi.
  assert (Hj : j < length cuts + 1). { destruct (Nat.lt_ge_cases j (length cuts + 1)) as [|G]; [auto|]. exfalso.
    assert (X : nth_error (map (interval_label show mn mx cuts) (seq 0 (length cuts + 1))) j = None) by (apply nth_error_None; rewrite map_length, seq_length; auto).
    rewrite X in E. apply nth_error_None in E. rewrite map_length, seq_length in E. lia. }
  rewrite !nth_error_map in E. rewrite !(nth_error_nth' _ 0) in E by (rewrite seq_length; auto). rewrite !seq_nth in E by auto. cbn [option_map Nat.add] in E.
  injection E as E. destruct i as [|i], j as [|j]; [auto| | |]; cbn [interval_label] in E; cbn [append] in E; try discriminate.
  injection E as E. apply comma_split in E; auto. apply Inj in E. f_equal. eapply NoDup_nth; eauto; lia.
Qed.

(*P C133 Equal-sized buckets *)
(** If all instances have different values, the instances of each interval get
    its text, the intervals follow one another, and the numbers of instances in
    them differ by at most one.  The texts differ if the texts of numbers do and
    have no comma. *)
Lemma C133_equal_sized : forall (I T : Type) (EI : Base.Eq I) (show : Qc -> string) (bins : nat) (h : heap I val T) (d : dataset val) it n,
  history true h d -> Permutation it (insts d) -> 2 <= bins < length (insts d) ->
  (forall a n v, In a (insts d) -> kind_of d n = Some Numerical -> value h a n = Some v -> exists q, v = Num q) ->
  kind_of d n = Some Numerical -> NoDup (map (fun a => value h a n) (insts d)) ->
  exists h' d' groups labels, discretize show (Z.of_nat bins) it h d = Ok (h', d') /\
    length groups = bins /\ length labels = bins /\ Permutation (concat groups) (insts d) /\
    (forall k g l, nth_error groups k = Some g -> nth_error labels k = Some l ->
       (length (insts d) - 1) / bins <= length g <= (length (insts d) - 1) / bins + 1 /\
       forall a, In a g -> value h' a n = Some (Txt l)) /\
    (forall k k' g g' a a' q q', k < k' -> nth_error groups k = Some g -> nth_error groups k' = Some g' -> In a g -> In a' g' ->
       value h a n = Some (Num q) -> value h a' n = Some (Num q') -> (q < q')%Qc) /\
    ((forall x y, show x = show y -> x = y) -> (forall x, ~ In ","%char (list_ascii_of_string (show x))) -> NoDup labels).
Proof.
  intros I T EI show bins h d it n Hh Hit Hb Hnum Hk Hnd.
  destruct (C87_discretization I T EI show bins h d it Hh Hit ltac:(lia) Hnum) as (h' & d' & E & _ & _ & _ & _ & _ & F).
  destruct (uniques_some d n Numerical Hk) as [us Hu]. destruct (F n us Hk Hu) as [_ Hbin]. clear F.
  destruct (uniques_iff h d n us Hh Hu) as [Nu Iu].
  assert (Hlen : length us = length (insts d)).
  { assert (M : forall a, In a (insts d) -> exists v, value h a n = Some v).
    { intros a Ha. destruct (value h a n) as [v|] eqn:Ev; [eauto|]. exfalso. apply history_inv in Hh.
      destruct (v_valid _ _ _ Hh a Ha) as [x Ex]. unfold value in Ev. rewrite Ex in Ev. apply dict_get_None in Ev. apply Ev.
      apply (v_feats _ _ _ Hh a x (conj Ha Ex)). unfold kind_of in Hk. destruct (dict_get n (attrs d)) as [y|] eqn:Ey; [|discriminate]. eapply dict_get_Some_key; eauto. }
    rewrite <- (map_length Some us), <- (map_length (fun a => value h a n) (insts d)). apply Permutation_length. apply NoDup_Permutation; [apply FinFun.Injective_map_NoDup; [intros x y X; congruence|auto]|auto|].
    intros o. rewrite !in_map_iff. split.
    - intros (v & <- & Hv). apply Iu in Hv. destruct Hv as (a & Ha & Ev). eauto.
    - intros (a & <- & Ha). destruct (M a Ha) as [v Ev]. exists v. split; [auto|]. apply Iu. eauto. }
  destruct (Hbin ltac:(lia)) as (s & mn & mx & cuts & [As Ap] & _ & _ & Lc & Hc & Sc & Hl). clear Hbin.
  assert (Ls : length s = length (insts d)) by (apply Permutation_length in Ap; rewrite !map_length in Ap; auto).
  assert (Ns : NoDup s) by (apply (NoDup_map_inv (fun q => Some (Num q))); eapply Permutation_NoDup; eauto).
  assert (Ss := distinct_strict s As Ns).
  set (index := fun a => match value h a n with Some (Num q) => bucket_of cuts q | _ => 0 end).
  assert (Hv : forall a, In a (insts d) -> exists q, value h a n = Some (Num q)).
  { intros a Ha. assert (X : In (value h a n) (map (fun q => Some (Num q)) s)) by (eapply Permutation_in; [exact Ap|]; apply in_map_iff; eauto).
    apply in_map_iff in X. destruct X as (q & X & _). eauto. }
  assert (Hi : forall a, In a (insts d) -> index a < bins).
  { intros a _. unfold index. destruct (value h a n) as [[q|t]|]; try lia. assert (X := bucket_of_le cuts q). lia. }
  assert (Hcn : cuts <> []) by (intros ->; cbn in Lc; lia).
  exists h', d', (map (fun k => filter (fun a => index a =? k) (insts d)) (seq 0 bins)), (map (interval_label show mn mx cuts) (seq 0 bins)).
  assert (Hg : forall k g, nth_error (map (fun k => filter (fun a => index a =? k) (insts d)) (seq 0 bins)) k = Some g -> k < bins /\ g = filter (fun a => index a =? k) (insts d)).
  { intros k g Eg. assert (Hkb : k < bins). { assert (X : nth_error (map (fun k => filter (fun a => index a =? k) (insts d)) (seq 0 bins)) k <> None) by congruence. apply nth_error_Some in X. rewrite map_length, seq_length in X. auto. }
    split; [auto|]. rewrite nth_error_map, (nth_error_nth' _ 0), seq_nth in Eg by (rewrite ?seq_length; auto). cbn in Eg. congruence. }
  split; [exact E|]. split; [rewrite map_length, seq_length; auto|]. split; [rewrite map_length, seq_length; auto|]. split; [|split; [|split]].
  - rewrite grouped, filter_all; [auto|]. intros a Ha. apply Nat.ltb_lt. auto.
  - intros k g l Eg El. destruct (Hg k g Eg) as [Hkb ->]. rewrite nth_error_map, (nth_error_nth' _ 0), seq_nth in El by (rewrite ?seq_length; auto). cbn [option_map Nat.add] in El. injection El as <-. split.
    + set (P := fun o : option val => match o with Some (Num q) => bucket_of cuts q | _ => 0 end =? k).
      assert (L : length (filter (fun a => index a =? k) (insts d)) = length (filter (fun q => bucket_of cuts q =? k) s)).
      { change (length (filter (fun a => P (value h a n)) (insts d)) = length (filter (fun q => P (Some (Num q))) s)).
        rewrite <- (filter_map_length (fun a => value h a n) P), <- (filter_map_length (fun q => Some (Num q)) P). apply filter_perm_length. auto. }
      rewrite L, <- Ls. apply (bucket_size s bins Ss ltac:(lia) cuts k); [lia|auto|auto|auto|].
      intros v _. rewrite Nat.eqb_eq. symmetry. apply bucket_unique; [auto|lia].
    + intros a Ha. apply filter_In in Ha. destruct Ha as [Ha Ei]. apply Nat.eqb_eq in Ei. destruct (Hv a Ha) as [q Eq]. unfold index in Ei. rewrite Eq in Ei.
      destruct (Hl a q Ha Eq) as (l & El & Hi'). rewrite El. do 2 f_equal. eapply C87_one_interval; [exact Sc|exact Hi'|]. apply label_interval; [auto|lia|]. apply bucket_unique; [auto|lia|auto].
  - intros k k' g g' a a' q q' Hkk Eg Eg' Ha Ha' Eq Eq'. destruct (Hg k g Eg) as [Hkb ->]. destruct (Hg k' g' Eg') as [Hkb' ->].
    apply filter_In in Ha, Ha'. destruct Ha as [_ Ha], Ha' as [_ Ha']. apply Nat.eqb_eq in Ha, Ha'. unfold index in Ha, Ha'. rewrite Eq in Ha. rewrite Eq' in Ha'.
    apply (bucket_order cuts k k' q q'); [auto|lia| |]; apply bucket_unique; auto; lia.
  - intros Inj Nc. apply labels_differ; [auto|auto| |lia].
    apply NoDup_nth_error. intros i j Hi' Eij. assert (Hj : j < length cuts) by (apply nth_error_Some; rewrite <- Eij; apply nth_error_Some; auto).
    destruct (Hc (i + 1) ltac:(lia)) as (c & Ec & Pc). destruct (Hc (j + 1) ltac:(lia)) as (c' & Ec' & Pc'). replace (i + 1 - 1) with i in Ec by lia. replace (j + 1 - 1) with j in Ec' by lia.
    assert (c' = c) by congruence. subst c'.
    (* the cut points have different positions *)
    assert (K : forall i j, i < j -> i + 1 < bins -> j + 1 < bins -> cut_point s bins (i + 1) c -> cut_point s bins (j + 1) c -> False).
    { clear - Ss Hb Ls. intros i j Hij Hi Hj Pi Pj. set (p := (j + 1) * (length s - 1) / bins).
      assert (Hlt : (i + 1) * (length s - 1) / bins < p).
      { unfold p. pose proof (share s bins ltac:(lia) (i + 1) ltac:(lia)) as [S1 _]. assert (1 <= (length s - 1) / bins) by (apply Nat.div_le_lower_bound; lia).
        assert ((i + 1 + 1) * (length s - 1) / bins <= (j + 1) * (length s - 1) / bins) by (apply Nat.div_le_mono; [lia|apply Nat.mul_le_mono_r; lia]). lia. }
      assert (Hp : p < length s). { unfold p. apply Nat.div_lt_upper_bound; nia. }
      destruct (nth_error s p) as [v|] eqn:Ev; [|apply nth_error_None in Ev; lia].
      assert (A := cut_position s bins Ss ltac:(lia) (i + 1) c p v Hi Pi Ev). assert (B := cut_position s bins Ss ltac:(lia) (j + 1) c p v Hj Pj Ev).
      assert (X : (v <= c)%Qc) by (apply B; auto). apply A in X. lia. }
    destruct (Nat.lt_total i j) as [X|[X|X]]; [exfalso; apply (K i j); auto; lia|auto|exfalso; apply (K j i); auto; lia].
Qed.
