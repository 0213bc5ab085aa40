(** The data of the plots *)
From Coq Require Import String QArith Permutation Sorted.
From Verif.Model Require Import Base Sort TwoWayDict Statistics ResultCollector.
From Verif.Spec Require Import Moments ResultSpec.
From Verif.Lib Require Import ListLib DictLib SortLib.
From Verif.Proofs Require Statistics.
From Verif.Proofs Require Import RcA.
Open Scope string_scope.
Open Scope list_scope.
Open Scope nat_scope.

Lemma sort_map {A B} (f : A -> B) leb leb' l : (forall a b, leb' (f a) (f b) = leb a b) -> stable_sort leb' (map f l) = map f (stable_sort leb l).
Proof.
  intros E. unfold stable_sort. induction l as [|x l IH]; [auto|]. cbn [map fold_right]. rewrite IH. generalize (fold_right (sort_insert leb) [] l). clear IH.
  intros r. induction r as [|y r IH]; [auto|]. cbn [map sort_insert]. rewrite E. destruct (leb x y); [auto|]. cbn [map]. f_equal. auto.
Qed.
Lemma mapM_map {A B C} (f : A -> B) (g : B -> result C) (h : A -> C) l : (forall a, g (f a) = Ok (h a)) -> mapM g (map f l) = Ok (map h l).
Proof. intros E. induction l as [|x l IH]; [auto|]. cbn [map mapM]. rewrite E, IH. auto. Qed.

Lemma filter_le {A} (f : A -> bool) l : length (filter f l) <= length l.
Proof. induction l as [|x l IH]; cbn; [auto|]. destruct (f x); cbn; lia. Qed.
Section B.
  Variables (m : mode) (ks : list call) (t : string).
  Notation X n := (x_table m ks (of_miner t n ks)).
  Definition zs (n : string) : list Z := stable_sort Z.leb (numbers ks t n).
  Definition val (n : string) (z : Z) : list Q := values_at ks t n z.
  Lemma X_eq n : X n = map (fun z => (z, collect m (val n z))) (numbers ks t n).
  Proof. reflexivity. Qed.
  Lemma M_eq : miner_table m ks (of_type t ks) = map (fun n => (n, X n)) (miners ks t).
  Proof. reflexivity. Qed.
  Definition series (n : string) : list (Z * Q) :=
    match m with
    | Line => map (fun z => (z, st_get_mean (st_of (val n z)))) (zs n)
    | Scatter => flat_map (fun z => map (pair z) (val n z)) (numbers ks t n)
    end.
  Lemma zs_In n z : In z (zs n) <-> In z (numbers ks t n).
  Proof. apply sort_In. Qed.
  Lemma numbers_nonempty n : In n (miners ks t) -> numbers ks t n <> [].
  Proof.
    intros Hn E. apply set_of_In, in_map_iff in Hn. destruct Hn as (k & <- & Hk).
    assert (Q : In (number ks (c_x k)) (numbers ks t (c_miner k))); [|rewrite E in Q; destruct Q].
    apply set_of_In. apply in_map_iff. exists k. split; [auto|]. unfold of_miner. rewrite filter_In. split; [auto|]. destruct (eqb_ok (c_miner k) (c_miner k)); congruence.
  Qed.
  Lemma val_nonempty n z : In z (numbers ks t n) -> val n z <> [].
  Proof.
    intros Hz E. apply set_of_In, in_map_iff in Hz. destruct Hz as (k & <- & Hk). unfold val, values_at in E. apply map_eq_nil in E.
    assert (Q : In k (filter (fun k0 => eqb (number ks (c_x k0)) (number ks (c_x k))) (of_miner t n ks))); [|rewrite E in Q; destruct Q].
    rewrite filter_In. split; [auto|]. destruct (eqb_ok (number ks (c_x k)) (number ks (c_x k))); congruence.
  Qed.
  Lemma series_xy n : In n (miners ks t) -> get_x_y m (X n) = Ok (map fst (series n), map snd (series n)).
  Proof.
    intros Hn. rewrite X_eq. unfold get_x_y, series. destruct m; cbn [collect].
    - rewrite (mapM_map _ _ (fun z => (z, st_get_mean (st_of (val n z))))) by auto. cbn [bind].
      rewrite (sort_map (fun z => (z, st_get_mean (st_of (val n z)))) Z.leb).
      + fold (zs n). pose proof (numbers_nonempty n Hn) as NE. destruct (zs n) as [|z l] eqn:Ez; [|auto].
        exfalso. apply NE. apply Permutation_nil. rewrite <- Ez. unfold zs. apply sort_perm.
      + intros a b. unfold pair_leb. cbn [fst snd]. destruct (Z.ltb_spec a b), (Z.eqb_spec a b), (Z.leb_spec a b); subst; try lia; auto; cbn; try lia.
        apply Qle_bool_iff. apply Qle_refl.
    - rewrite (mapM_map _ _ (fun z => (z, val n z))) by auto. cbn [bind]. do 2 f_equal.
      + induction (numbers ks t n) as [|z l IH]; [auto|]. cbn [map flat_map]. rewrite map_app, IH. f_equal. generalize (val n z). clear. intros l. induction l; cbn; congruence.
      + induction (numbers ks t n) as [|z l IH]; [auto|]. cbn [map flat_map]. rewrite map_app, IH. f_equal. rewrite map_map. cbn. symmetry. apply map_id.
  Qed.
  Lemma values_total (f : call -> Z) l : fold_right Nat.add 0 (map (fun z => length (filter (fun k => eqb (f k) z) l)) (set_of (map f l))) = length l.
  Proof.
    enough (Q : forall s, NoDup s -> (forall k, In k l -> In (f k) s) -> fold_right Nat.add 0 (map (fun z => length (filter (fun k => eqb (f k) z) l)) s) = length l).
    { apply Q; [apply set_of_NoDup|]. intros k Hk. apply set_of_In. apply in_map. auto. }
    intros s N I. revert I. induction l as [|k l IH]; intros I.
    - clear. induction s; cbn; auto.
    - cbn [length]. rewrite <- IH by (intros; apply I; right; auto). assert (Hk : In (f k) s) by (apply I; left; auto). clear I IH.
      induction s as [|z s IHs]; [destruct Hk|]. inversion N as [|? ? N1 N2]; subst. cbn [map fold_right filter]. destruct (eqb_ok (f k) z) as [<-|D0].
      + cbn [length]. rewrite Nat.add_succ_l. do 2 f_equal. clear - N1. induction s as [|z s IHs]; [auto|]. cbn [map fold_right filter].
        destruct (eqb_ok (f k) z) as [<-|]; [exfalso; apply N1; left; auto|]. f_equal. apply IHs. intros Q. apply N1. right. auto.
      + destruct Hk as [Hk|Hk]; [congruence|]. cbn [filter] in IHs. rewrite (IHs N2 Hk). lia.
  Qed.
  Lemma series_length n : length (series n) = points m ks t n.
  Proof.
    unfold series, points. destruct m; [rewrite map_length; apply sort_length|]. unfold val, values_at, numbers.
    rewrite <- (values_total (fun k => number ks (c_x k)) (of_miner t n ks)).
    generalize (set_of (map (fun k => number ks (c_x k)) (of_miner t n ks))). intros l. induction l as [|z l IH]; [auto|].
    cbn [flat_map map fold_right]. rewrite app_length, !map_length, IH. auto.
  Qed.
  Hypothesis small : (Z.of_nat (length ks) < 2 ^ 63)%Z.
  Lemma val_small n z : (Z.of_nat (length (val n z)) < 2 ^ 63)%Z.
  Proof.
    unfold val, values_at. rewrite map_length. eapply Z.le_lt_trans; [|exact small]. apply inj_le.
    unfold of_miner, of_type. rewrite !filter_le. auto.
  Qed.
  Lemma ascending_strict l : NoDup l -> StronglySorted (fun a b => Z.leb a b = true) l -> StronglySorted Z.lt l.
  Proof.
    induction l as [|x l IH]; intros N S; [constructor|]. inversion N; inversion S; subst. constructor; [auto|]. rewrite Forall_forall in *. intros y Hy.
    specialize (H6 y Hy). apply Z.leb_le in H6. assert (x <> y) by (intros ->; auto). lia.
  Qed.
  Lemma zs_strict n : StronglySorted Z.lt (zs n).
  Proof.
    apply ascending_strict.
    - eapply Permutation_NoDup; [apply Permutation_sym, sort_perm|]. apply set_of_NoDup.
    - apply sort_sorted; intros; rewrite ?Z.leb_le in *; try lia. 
  Qed.
  Lemma series_ok n : In n (miners ks t) -> is_series m ks t n (series n).
  Proof.
    intros Hn. unfold is_series, series. destruct m; [|auto]. rewrite map_map. cbn [fst]. rewrite map_id. split; [apply zs_strict|]. split; [apply zs_In|].
    intros z q Hq. apply in_map_iff in Hq. destruct Hq as (z' & Q & Hz). injection Q as <- <-.
    destruct (Proofs.Statistics.push_report (val n z') (val_small n z')) as (_ & _ & A & _). apply A. apply val_nonempty. apply zs_In. auto.
  Qed.
End B.
