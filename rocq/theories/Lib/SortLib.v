From Verif.Model Require Import Base Sort.
From Coq Require Import Permutation Sorted.

Section S.
  Context {A : Type}.
  Variable leb : A -> A -> bool.
  Hypothesis total : forall x y, leb x y = true \/ leb y x = true.
  Hypothesis trans : forall x y z, leb x y = true -> leb y z = true -> leb x z = true.

  Lemma insert_perm x l : Permutation (sort_insert leb x l) (x :: l).
  Proof.
    induction l as [|y l IH]; cbn; auto. destruct (leb x y); auto.
    rewrite IH. apply perm_swap.
  Qed.
  Lemma sort_perm l : Permutation (stable_sort leb l) l.
  Proof.
    induction l as [|x l IH]; cbn; auto. rewrite insert_perm. auto.
  Qed.
  Lemma sort_In x l : In x (stable_sort leb l) <-> In x l.
  Proof. split; apply Permutation_in; [|symmetry]; apply sort_perm. Qed.
  Lemma sort_length l : length (stable_sort leb l) = length l.
  Proof. apply Permutation_length, sort_perm. Qed.
  Lemma insert_sorted x l : StronglySorted (fun a b => leb a b = true) l ->
    StronglySorted (fun a b => leb a b = true) (sort_insert leb x l).
  Proof.
    induction l as [|y l IH]; cbn; intros Hs; [repeat constructor|].
    apply StronglySorted_inv in Hs as [Hs Hy]. destruct (leb x y) eqn:E.
    - constructor; [constructor; auto|]. constructor; auto.
      eapply Forall_impl; [|apply Hy]. intros z Hz. eapply trans; eauto.
    - constructor; auto. eapply Permutation_Forall; [symmetry; apply insert_perm|].
      constructor; auto. destruct (total x y); congruence.
  Qed.
  Lemma sort_sorted l : StronglySorted (fun a b => leb a b = true) (stable_sort leb l).
  Proof. induction l as [|x l IH]; cbn; [constructor|]. apply insert_sorted; auto. Qed.

  (** a sorted list is left alone *)
  Lemma sort_id l : StronglySorted (fun a b => leb a b = true) l -> stable_sort leb l = l.
  Proof.
    induction 1 as [|x l Hs IH Hx]; cbn; auto. change (fold_right (sort_insert leb) [] l) with (stable_sort leb l).
    rewrite IH. destruct l as [|y l]; cbn; auto. inversion Hx as [|? ? E _]; subst. rewrite E. reflexivity.
  Qed.
End S.
