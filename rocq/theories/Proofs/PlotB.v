(** Histograms, heatmaps, Min and colors *)
From Coq Require Import String QArith Sorted Permutation Reals Lra.
From Verif.Model Require Import Base Sort EventLog Histogram Heatmap FuncTools Color.
From Verif.Spec Require Import FigureSpec.
From Verif.Lib Require Import ListLib DictLib SortLib.
From Verif.Proofs Require Import EventLogA.
Open Scope string_scope.
Open Scope list_scope.
Open Scope nat_scope.

(** a stable sort keeps the order of elements that are equivalent *)
Lemma sort_insert_filter {A} (leb : A -> A -> bool) P x l : (forall a, P a = true -> P x = true -> leb x a = true) -> filter P (sort_insert leb x l) = filter P (x :: l).
Proof.
  intros E. induction l as [|y l IH]; [auto|]. cbn [sort_insert]. destruct (leb x y) eqn:L; [auto|]. cbn [filter] in *. rewrite IH.
  destruct (P y) eqn:Py; [|auto]. destruct (P x) eqn:Px; [|auto]. rewrite E in L by auto. discriminate.
Qed.
Lemma stable_filter {A} (leb : A -> A -> bool) P l : (forall a b, P a = true -> P b = true -> leb a b = true) -> filter P (stable_sort leb l) = filter P l.
Proof. intros E. induction l as [|x l IH]; [auto|]. cbn [stable_sort fold_right]. rewrite sort_insert_filter by auto. cbn [filter]. fold (stable_sort leb l). rewrite IH. auto. Qed.
Section C.
  Context {V : Type} `{Eq V}.
  Lemma frequency_occ v l : frequency v l = count_occ eq_dec_of l v.
  Proof.
    unfold frequency. induction l as [|u l IH]; [auto|]. cbn [filter count_occ]. destruct (eqb_ok v u) as [E|N]; [subst u|]; destruct (eq_dec_of _ v); try congruence; cbn; auto.
  Qed.
  Lemma counter_snoc l v : counter (l ++ [v]) = counter_inc v (counter l).
  Proof. unfold counter. rewrite fold_left_app. auto. Qed.
  Lemma counter_get l v : dict_get v (counter l) = if mem v l then Some (frequency v l) else None.
  Proof.
    unfold counter. pose proof (counter_incs (fun v : V => v) l [] v) as E. rewrite map_id in E. rewrite E. rewrite frequency_occ. cbn.
    destruct (mem v l) eqn:M.
    - apply mem_In in M. apply (count_occ_In eq_dec_of) in M. destruct (count_occ eq_dec_of l v); [lia|auto].
    - assert (N : ~ In v l) by (intros Q; apply mem_In in Q; congruence). apply (count_occ_not_In eq_dec_of) in N. rewrite N. auto.
  Qed.
  Lemma counter_NoDup l : NoDup (keys (counter l)).
  Proof. apply (counter_incs_NoDup (fun v : V => v)). constructor. Qed.
  Lemma counter_keys l v : In v (keys (counter l)) <-> In v l.
  Proof.
    split.
    - intros Hv. destruct (dict_get_key _ _ Hv) as [n E]. rewrite counter_get in E. destruct (mem v l) eqn:M; [apply mem_In; auto|discriminate].
    - intros Hv. apply (dict_get_Some_key _ _ (frequency v l)). rewrite counter_get, (proj2 (mem_In _ _) Hv). auto.
  Qed.
  Lemma counter_items l : counter l = map (fun v => (v, frequency v l)) (keys (counter l)).
  Proof.
    assert (Q : forall d : dict V nat, (forall v n, In (v, n) d -> n = frequency v l) -> d = map (fun v => (v, frequency v l)) (keys d)).
    { induction d as [|[v n] d IH]; intros E; [auto|]. change (keys ((v, n) :: d)) with (v :: keys d). cbn [map]. rewrite <- IH by (intros; apply E; right; auto). rewrite (E v n (or_introl eq_refl)). auto. }
    apply Q. intros v n Hv. apply dict_In_get in Hv; [|apply counter_NoDup]. rewrite counter_get in Hv. destruct (mem v l); congruence.
  Qed.
  Lemma first_lt v l : In v l -> first v l < length l.
  Proof. induction l as [|u l IH]; intros Hv; [destruct Hv|]. cbn. destruct (eqb_ok v u); [lia|]. destruct Hv as [->|Hv]; [congruence|]. apply IH in Hv. lia. Qed.
  Lemma first_app v l m : In v l -> first v (l ++ m) = first v l.
  Proof. induction l as [|u l IH]; intros Hv; [destruct Hv|]. cbn. destruct (eqb_ok v u); [auto|]. destruct Hv as [->|Hv]; [congruence|]. rewrite IH; auto. Qed.
  Lemma first_new v l m : ~ In v l -> first v (l ++ v :: m) = length l.
  Proof. induction l as [|u l IH]; intros Hv; cbn; [destruct (eqb_ok v v); congruence|]. destruct (eqb_ok v u) as [->|]; [exfalso; apply Hv; left; auto|]. rewrite IH; [auto|]. intros Q. apply Hv. right. auto. Qed.
  Lemma sorted_snoc {A} (R : A -> A -> Prop) l x : StronglySorted R l -> Forall (fun a => R a x) l -> StronglySorted R (l ++ [x]).
  Proof.
    induction 1 as [|y l S IH F]; intros G; cbn; [repeat constructor|]. inversion G; subst. constructor; [auto|]. apply Forall_app. split; [auto|]. repeat constructor. auto.
  Qed.
  Lemma sorted_impl {A} (R R' : A -> A -> Prop) l : (forall a b, In a l -> In b l -> R a b -> R' a b) -> StronglySorted R l -> StronglySorted R' l.
  Proof.
    intros I S. induction S as [|x l S IH F]; constructor.
    - apply IH. intros a b Ha Hb. apply I; right; auto.
    - apply Forall_forall. intros y Hy. rewrite Forall_forall in F. apply I; [left; auto|right; auto|auto].
  Qed.
  Lemma counter_order l : StronglySorted (fun v u => first v l < first u l) (keys (counter l)).
  Proof.
    induction l as [|v l IH] using rev_ind; [constructor|]. rewrite counter_snoc. unfold counter_inc. rewrite keys_dict_set.
    assert (S : StronglySorted (fun a b => first a (l ++ [v]) < first b (l ++ [v])) (keys (counter l))).
    { revert IH. apply sorted_impl. intros a b Ha Hb L. apply (proj1 (counter_keys _ _)) in Ha, Hb. rewrite !first_app by auto. auto. }
    match goal with |- StronglySorted _ (if ?b then _ else _) => destruct b eqn:E end; [auto|]. apply sorted_snoc; [auto|]. apply Forall_forall. intros a Ha. apply (proj1 (counter_keys _ _)) in Ha.
    assert (N : ~ In v l) by (intros Q; apply (proj2 (counter_keys _ _)) in Q; apply mem_In in Q; congruence). rewrite first_new, first_app by auto. apply first_lt. auto.
  Qed.
End C.
(** sorting by a key: later components decide if the keys are the same *)
Lemma sort_by_key {A} (key : A -> Z) leb (R : A -> A -> Prop) l : (forall a b, leb a b = (key a <=? key b)%Z) -> StronglySorted R l ->
  StronglySorted (fun a b => (key a < key b)%Z \/ (key a = key b /\ R a b)) (stable_sort leb l).
Proof.
  intros K S. induction S as [|x l S IH F]; [constructor|]. cbn [stable_sort fold_right]. fold (stable_sort leb l).
  assert (G : Forall (R x) (stable_sort leb l)) by (eapply Permutation_Forall; [symmetry; apply sort_perm|auto]). revert IH G. generalize (stable_sort leb l). clear l S F.
  induction l as [|y l IH]; intros S G; cbn [sort_insert]; [repeat constructor|]. inversion G as [|? ? G1 G2]; subst. apply StronglySorted_inv in S. destruct S as [S1 S2]. rewrite K.
  destruct (Z.leb_spec (key x) (key y)).
  - constructor; [constructor; auto|]. constructor; [destruct (Z.eq_dec (key x) (key y)); [right; auto|left; lia]|]. rewrite Forall_forall in *. intros z Hz. specialize (S2 z Hz). specialize (G2 z Hz).
    destruct (Z.eq_dec (key x) (key z)); [right; auto|left; lia].
  - constructor; [apply IH; auto|]. eapply Permutation_Forall; [symmetry; apply insert_perm|]. constructor; [left; lia|auto].
Qed.
Lemma map_sorted {A B} (f : A -> B) (R : B -> B -> Prop) l : StronglySorted R (map f l) -> StronglySorted (fun a b => R (f a) (f b)) l.
Proof.
  induction l as [|x l IH]; intros S; [constructor|]. cbn in S. apply StronglySorted_inv in S. destruct S as [S F]. constructor; [auto|]. rewrite Forall_map in F. auto.
Qed.
Lemma sorted_map {A B} (f : A -> B) (R : B -> B -> Prop) l : StronglySorted (fun a b => R (f a) (f b)) l -> StronglySorted R (map f l).
Proof. induction 1 as [|x l S IH F]; cbn; constructor; [auto|]. rewrite Forall_map. auto. Qed.

Section D.
  Context {V : Type} `{Eq V}.
  Variable values : list V.
  Notation item v := (v, frequency v values).
  Lemma bars_of l : Permutation l (counter values) -> bars values (map fst l) (map snd l).
  Proof.
    intros P. split; [|split].
    - eapply Permutation_NoDup; [apply Permutation_map; symmetry; exact P|]. apply counter_NoDup.
    - intros v. rewrite <- (counter_keys values v). split; apply Permutation_in; [|symmetry]; apply Permutation_map; auto.
    - rewrite map_map. apply map_ext_in. intros [v n] Hv. cbn. apply (Permutation_in _ P) in Hv. rewrite counter_items in Hv. apply in_map_iff in Hv. destruct Hv as (u & E & _). congruence.
  Qed.
  Lemma counter_nonempty : values <> [] -> counter values <> [].
  Proof.
    intros N E. destruct values as [|v l]; [congruence|]. assert (Q : In v (keys (counter (v :: l)))) by (apply counter_keys; left; auto). rewrite E in Q. destruct Q.
  Qed.
  Lemma unzip_sorted leb : values <> [] -> unzip (stable_sort leb (counter values)) = Ok (map fst (stable_sort leb (counter values)), map snd (stable_sort leb (counter values))).
  Proof.
    intros N. destruct (stable_sort leb (counter values)) eqn:E; [|auto]. exfalso. apply counter_nonempty; [auto|]. apply Permutation_nil. rewrite <- E. apply sort_perm.
  Qed.
  Lemma counter_first : StronglySorted (fun a b : V * nat => first (fst a) values < first (fst b) values) (counter values).
  Proof.
    rewrite counter_items. apply sorted_map. cbn. apply counter_order.
  Qed.
  Lemma item_fst l a : Permutation l (counter values) -> In a l -> snd a = frequency (fst a) values.
  Proof. intros P Ha. apply (Permutation_in _ P) in Ha. rewrite counter_items in Ha. apply in_map_iff in Ha. destruct Ha as (u & <- & _). auto. Qed.
End D.

(*P C118 Histograms show frequencies *)
Lemma C118_value : forall (V : Type) (EV : Eq V) leb (values : list V) width, total_order leb -> values <> [] ->
  exists x y, plot_counts leb values "value" width = Ok (x, y, width) /\ bars values x y /\ StronglySorted (fun v u => leb v u = true /\ v <> u) x.
Proof.
  intros V EV leb values w (T1 & T2 & T3) N. unfold plot_counts. cbn [String.eqb Ascii.eqb Bool.eqb]. rewrite unzip_sorted by auto. cbn [bind fst snd].
  eexists _, _. split; [reflexivity|]. split; [apply bars_of, sort_perm|].
  set (le2 := item_leb leb). assert (S : StronglySorted (fun a b => le2 a b = true) (stable_sort le2 (counter values))).
  { apply sort_sorted; unfold le2, item_leb.
    - intros a b. destruct (eqb_ok (fst a) (fst b)) as [E|E]; destruct (eqb_ok (fst b) (fst a)); try congruence; [rewrite !Nat.leb_le; lia|auto].
    - intros a b c. destruct (eqb_ok (fst a) (fst b)) as [E1|E1]; destruct (eqb_ok (fst b) (fst c)) as [E2|E2]; destruct (eqb_ok (fst a) (fst c)) as [E3|E3]; try congruence; rewrite ?Nat.leb_le; intros; try lia.
      + exfalso. apply E1. apply T3; congruence.
      + eauto. }
  apply sorted_map. assert (ND : NoDup (map fst (stable_sort le2 (counter values)))) by (eapply Permutation_NoDup; [apply Permutation_map; symmetry; apply sort_perm|apply counter_NoDup]).
  revert ND. induction S as [|a l S IH F]; intros ND; constructor; inversion ND as [|? ? Na Nl]; subst; [auto|]. rewrite Forall_forall in *. intros b Hb. specialize (F b Hb). unfold le2, item_leb in F.
  assert (fst a <> fst b) by (intros Q; apply Na; rewrite Q; apply in_map; auto). destruct (eqb_ok (fst a) (fst b)); [congruence|]. auto.
Qed.
(** values with the same frequency are in the order in which they were seen first *)
Lemma C118_ascending : forall (V : Type) (EV : Eq V) leb (values : list V) width, values <> [] ->
  exists x y, plot_counts leb values "frequency_asc" width = Ok (x, y, width) /\ bars values x y /\
    StronglySorted (fun v u => frequency v values < frequency u values \/ (frequency v values = frequency u values /\ first v values < first u values)) x.
Proof.
  intros V EV leb values w N. unfold plot_counts. cbn [String.eqb Ascii.eqb Bool.eqb]. rewrite unzip_sorted by auto. cbn [bind fst snd].
  eexists _, _. split; [reflexivity|]. split; [apply bars_of, sort_perm|]. apply sorted_map.
  set (l := stable_sort _ _). assert (P : Permutation l (counter values)) by apply sort_perm.
  assert (S : StronglySorted (fun a b : V * nat => (Z.of_nat (snd a) < Z.of_nat (snd b))%Z \/ (Z.of_nat (snd a) = Z.of_nat (snd b) /\ first (fst a) values < first (fst b) values)) l).
  { unfold l. apply (sort_by_key (fun a => Z.of_nat (snd a))); [|apply counter_first]. intros a b. destruct (Nat.leb_spec (snd a) (snd b)); destruct (Z.leb_spec (Z.of_nat (snd a)) (Z.of_nat (snd b))); auto; lia. }
  revert S. apply sorted_impl. intros a b Ha Hb Q. rewrite !(item_fst values l) in Q by auto. lia.
Qed.
Lemma C118_descending : forall (V : Type) (EV : Eq V) leb (values : list V) width, values <> [] ->
  exists x y, plot_counts leb values "frequency_desc" width = Ok (x, y, width) /\ bars values x y /\
    StronglySorted (fun v u => frequency u values < frequency v values \/ (frequency v values = frequency u values /\ first v values < first u values)) x.
Proof.
  intros V EV leb values w N. unfold plot_counts. cbn [String.eqb Ascii.eqb Bool.eqb]. rewrite unzip_sorted by auto. cbn [bind fst snd].
  eexists _, _. split; [reflexivity|]. split; [apply bars_of, sort_perm|]. apply sorted_map.
  set (l := stable_sort _ _). assert (P : Permutation l (counter values)) by apply sort_perm.
  assert (S : StronglySorted (fun a b : V * nat => (- Z.of_nat (snd a) < - Z.of_nat (snd b))%Z \/ ((- Z.of_nat (snd a) = - Z.of_nat (snd b))%Z /\ first (fst a) values < first (fst b) values)) l).
  { unfold l. apply (sort_by_key (fun a => (- Z.of_nat (snd a))%Z)); [auto|apply counter_first]. }
  revert S. apply sorted_impl. intros a b Ha Hb Q. rewrite !(item_fst values l) in Q by auto. lia.
Qed.
(** the heights sum up to the number of values *)
Lemma C118_total : forall (V : Type) (EV : Eq V) (values x : list V) y, bars values x y -> fold_right Nat.add 0 y = length values.
Proof.
  intros V EV values x y (ND & I & ->).
  assert (Q : forall vs, (forall v, In v vs -> In v x) -> fold_right Nat.add 0 (map (fun v => frequency v vs) x) = length vs).
  { clear - ND. induction vs as [|u vs IH]; intros I.
    - clear. induction x as [|v x IH]; [auto|]. cbn. auto.
    - cbn [length]. rewrite <- IH by (intros; apply I; right; auto). assert (U : In u x) by (apply I; left; auto). clear - ND U. induction x as [|v x IH]; [destruct U|].
      inversion ND as [|? ? Nv Nx]; subst. cbn [map fold_right]. unfold frequency at 1. cbn [filter]. destruct U as [->|U].
      + destruct (eqb_ok u u); [|congruence]. cbn [length]. fold (frequency u vs). assert (Z : map (fun v => frequency v (u :: vs)) x = map (fun v => frequency v vs) x).
        { apply map_ext_in. intros v Hv. unfold frequency. cbn. destruct (eqb_ok v u); [congruence|auto]. } rewrite Z. lia.
      + destruct (eqb_ok v u) as [->|]; [congruence|]. fold (frequency v vs). rewrite IH by auto. lia. }
  apply Q. intros v. apply I.
Qed.
Lemma C118_errors : forall (V : Type) (EV : Eq V) leb (values : list V) order_by width,
  values = [] \/ ~ In order_by ["value"; "frequency_asc"; "frequency_desc"] -> plot_counts leb values order_by width = Err ValueError.
Proof.
  intros V EV leb values o w [->|N]; unfold plot_counts.
  - destruct (String.eqb o "value"); [auto|]. destruct (String.eqb o "frequency_asc"); [auto|]. destruct (String.eqb o "frequency_desc"); auto.
  - destruct (String.eqb_spec o "value"); [exfalso; apply N; left; auto|]. destruct (String.eqb_spec o "frequency_asc"); [exfalso; apply N; right; left; auto|].
    destruct (String.eqb_spec o "frequency_desc"); [exfalso; apply N; right; right; left; auto|]. auto.
Qed.
Lemma C118_bins : forall (A : Type) (values : list A) bins,
  (bins = None \/ bins = Some 0%Z -> (values = [] -> nr_of_bins values bins = Err ValueError) /\
     (values <> [] -> exists k, nr_of_bins values bins = Ok k /\ (1 <= k /\ k * k <= Z.of_nat (length values) < (k + 1) * (k + 1))%Z)) /\
  (forall k, bins = Some k -> k <> 0%Z -> nr_of_bins values bins = if (k <? 0)%Z then Err ValueError else Ok k).
Proof.
  intros A values bins. split.
  - intros B. assert (E : nr_of_bins values bins = if (Z.sqrt (Z.of_nat (length values)) <? 1)%Z then Err ValueError else Ok (Z.sqrt (Z.of_nat (length values)))) by (destruct B as [->| ->]; auto).
    rewrite E. split; [intros ->; auto|]. intros N. assert (L : (1 <= Z.of_nat (length values))%Z) by (destruct values; [congruence|cbn [length]; lia]).
    pose proof (Z.sqrt_spec (Z.of_nat (length values)) ltac:(lia)) as Q. pose proof (Z.sqrt_le_mono _ _ L) as M. change (Z.sqrt 1) with 1%Z in M.
    destruct (Z.ltb_spec (Z.sqrt (Z.of_nat (length values))) 1); [lia|]. eexists. split; [reflexivity|]. cbv zeta in Q. lia.
  - intros k -> N. unfold nr_of_bins. destruct (Z.eqb_spec k 0); [congruence|]. destruct (Z.ltb_spec k 1); destruct (Z.ltb_spec k 0); auto; lia.
Qed.
