(** The order of strings; sorted lists are determined by their elements *)
From Coq Require Import Permutation Sorted String Ascii.
From Verif.Model Require Import Base Sort.
From Verif.Lib Require Import SortLib.

Lemma ascii_compare_Lt_trans a b c :
  Ascii.compare a b = Lt -> Ascii.compare b c = Lt -> Ascii.compare a c = Lt.
Proof. unfold Ascii.compare. rewrite !N.compare_lt_iff. apply N.lt_trans. Qed.
Lemma ascii_compare_refl a : Ascii.compare a a = Datatypes.Eq.
Proof. unfold Ascii.compare. apply N.compare_refl. Qed.

Lemma str_compare_trans : forall x y z, String.compare x y <> Gt -> String.compare y z <> Gt ->
  String.compare x z <> Gt.
Proof.
  induction x as [|a x IH]; intros [|b y] [|c z]; cbn; try congruence.
  destruct (Ascii.compare a b) eqn:E1; [|destruct (Ascii.compare b c) eqn:E2|congruence].
  - apply Ascii.compare_eq_iff in E1. subst b. destruct (Ascii.compare a c); [apply IH|congruence|congruence].
  - apply Ascii.compare_eq_iff in E2. subst c. rewrite E1. congruence.
  - rewrite (ascii_compare_Lt_trans _ _ _ E1 E2). congruence.
  - congruence.
Qed.
Lemma str_leb_trans x y z : String.leb x y = true -> String.leb y z = true -> String.leb x z = true.
Proof.
  unfold String.leb. intros E1 E2.
  assert (Hn : String.compare x z <> Gt)
    by (apply (str_compare_trans x y z); [destruct (String.compare x y)|destruct (String.compare y z)]; congruence).
  destruct (String.compare x z); congruence.
Qed.

Lemma sorted_unique {X} (leb : X -> X -> bool) (l m : list X) :
  (forall x y, In x l -> In y l -> leb x y = true -> leb y x = true -> x = y) ->
  StronglySorted (fun a b => leb a b = true) l -> StronglySorted (fun a b => leb a b = true) m ->
  Permutation l m -> l = m.
Proof.
  intros Ha Hl. revert m Ha. induction Hl as [|x l Hs IH Hx]; intros m Ha Hm Hp.
  - apply Permutation_nil in Hp. auto.
  - destruct m as [|y m]; [apply Permutation_sym, Permutation_nil in Hp; discriminate|].
    apply StronglySorted_inv in Hm as [Hm Hy]. rewrite Forall_forall in Hx, Hy.
    assert (x = y).
    { assert (I1 : In x (y :: m)) by (eapply Permutation_in; [exact Hp|now left]).
      assert (I2 : In y (x :: l)) by (eapply Permutation_in; [symmetry; exact Hp|now left]).
      destruct I1 as [->|I1]; [auto|]. destruct I2 as [->|I2]; [auto|].
      apply Ha; [now left|now right|now apply Hx|now apply Hy]. }
    subst y. f_equal. apply IH; auto.
    + intros u v Hu Hv. apply Ha; now right.
    + eapply Permutation_cons_inv; eauto.
Qed.
Lemma sort_str_ext l m : Permutation l m -> stable_sort String.leb l = stable_sort String.leb m.
Proof.
  intros Hp. apply (sorted_unique String.leb).
  - intros x y _ _. apply String.leb_antisym.
  - apply sort_sorted; [apply String.leb_total|apply str_leb_trans].
  - apply sort_sorted; [apply String.leb_total|apply str_leb_trans].
  - rewrite !sort_perm. exact Hp.
Qed.
