(** Lemmas about the sets and dictionaries of Base.v *)
From Coq Require Import Permutation.
From Verif.Model Require Import Base.
From Verif.Lib Require Import ListLib.

Section S.
  Context {X : Type} `{Eq X}.
  Lemma set_add_In (x y : X) s : In y (set_add x s) <-> y = x \/ In y s.
  Proof.
    unfold set_add. destruct (mem x s) eqn:E.
    - apply mem_In in E. split; [auto|]. intros [->|Hy]; auto.
    - rewrite in_app_iff. cbn. split; [intros [Hy|[Hy|[]]]; auto|intros [Hy|Hy]; auto].
  Qed.
  Lemma set_add_NoDup (x : X) s : NoDup s -> NoDup (set_add x s).
  Proof.
    intros Hs. unfold set_add. destruct (mem x s) eqn:E; auto.
    apply mem_not_In in E. apply NoDup_rev in Hs. rewrite <- (rev_involutive (s ++ [x])).
    apply NoDup_rev. rewrite rev_app_distr. cbn. constructor; auto. rewrite <- in_rev; auto.
  Qed.
  Lemma set_adds_In {Y} (f : Y -> X) (xs : list Y) acc x :
    In x (fold_left (fun s y => set_add (f y) s) xs acc) <-> In x acc \/ In x (map f xs).
  Proof.
    revert acc; induction xs as [|y xs IH]; intros acc; cbn [fold_left map].
    - cbn; tauto.
    - rewrite IH, set_add_In. cbn. intuition congruence.
  Qed.
  Lemma set_adds_NoDup {Y} (f : Y -> X) (xs : list Y) acc :
    NoDup acc -> NoDup (fold_left (fun s y => set_add (f y) s) xs acc).
  Proof.
    revert acc; induction xs as [|y xs IH]; intros acc Ha; cbn [fold_left]; auto.
    apply IH, set_add_NoDup; auto.
  Qed.
  Lemma set_of_In (xs : list X) x : In x (set_of xs) <-> In x xs.
  Proof. unfold set_of. rewrite (set_adds_In (fun y => y)), map_id. cbn. tauto. Qed.
  Lemma set_of_NoDup (xs : list X) : NoDup (set_of xs).
  Proof. apply (set_adds_NoDup (fun y => y)). constructor. Qed.
  Lemma mem_ext (x : X) l m : (forall y, In y l <-> In y m) -> mem x l = mem x m.
  Proof.
    intros Hlm. destruct (mem x l) eqn:E; symmetry.
    - apply mem_In. apply mem_In in E. apply Hlm; auto.
    - apply mem_not_In. apply mem_not_In in E. rewrite <- Hlm. auto.
  Qed.
End S.

Section D.
  Context {K W : Type} `{Eq K}.
  Implicit Types d : dict K W.
  Lemma dict_get_In d k v : dict_get k d = Some v -> In (k, v) d.
  Proof.
    induction d as [|[k' v'] d IH]; cbn; [discriminate|].
    destruct (eqb_ok k k') as [->|Hne]; [|auto]. intros E; injection E as ->; auto.
  Qed.
  Lemma dict_get_None d k : dict_get k d = None <-> ~ In k (keys d).
  Proof.
    induction d as [|[k' v'] d IH]; cbn; [tauto|].
    destruct (eqb_ok k k') as [->|Hne]; [split; [discriminate|tauto]|]. rewrite IH. intuition congruence.
  Qed.
  Lemma dict_get_Some_key d k v : dict_get k d = Some v -> In k (keys d).
  Proof. intros E. apply dict_get_In in E. apply (in_map fst) in E. auto. Qed.
  Lemma dict_get_key d k : In k (keys d) -> exists v, dict_get k d = Some v.
  Proof.
    intros Hin. destruct (dict_get k d) eqn:E; eauto. apply dict_get_None in E. contradiction.
  Qed.
  Lemma dict_In_get d k v : NoDup (keys d) -> In (k, v) d -> dict_get k d = Some v.
  Proof.
    induction d as [|[k' v'] d IH]; cbn; intros Hn; [intros []|]. inversion Hn; subst.
    intros [E|Hin]; [injection E as -> ->; rewrite eqb_refl; auto|].
    destruct (eqb_ok k k') as [->|Hne]; [|auto].
    exfalso. apply (in_map fst) in Hin. auto.
  Qed.
  Lemma keys_dict_set d k v :
    keys (dict_set k v d) = if mem k (keys d) then keys d else keys d ++ [k].
  Proof.
    induction d as [|[k' v'] d IH]; cbn; auto.
    destruct (eqb_ok k k') as [->|Hne]; cbn; auto.
    unfold keys in *. rewrite IH. unfold mem. destruct (existsb (eqb k) (map fst d)); auto.
  Qed.
  Lemma keys_dict_set_In d k v k' : In k' (keys (dict_set k v d)) <-> k' = k \/ In k' (keys d).
  Proof. rewrite keys_dict_set. apply (set_add_In k k' (keys d)). Qed.
  Lemma keys_dict_set_NoDup d k v : NoDup (keys d) -> NoDup (keys (dict_set k v d)).
  Proof. rewrite keys_dict_set. apply (set_add_NoDup k (keys d)). Qed.
  Lemma dict_has_In d k : dict_has k d = true <-> In k (keys d).
  Proof.
    unfold dict_has. destruct (dict_get k d) eqn:E.
    - split; auto. intros _. eapply dict_get_Some_key; eauto.
    - split; [discriminate|]. intros Hin. apply dict_get_None in E. contradiction.
  Qed.
  Lemma dict_get_del d k k' : NoDup (keys d) ->
    dict_get k (dict_del k' d) = if eqb k k' then None else dict_get k d.
  Proof.
    induction d as [|[k1 v1] d IH]; cbn; intros Hn.
    - destruct (eqb k k'); auto.
    - inversion Hn; subst. destruct (eqb_ok k' k1) as [->|Hne].
      + destruct (eqb_ok k k1) as [E|Hne]; auto. rewrite E. apply dict_get_None; auto.
      + cbn. destruct (eqb_ok k k1) as [E|Hne'].
        * destruct (eqb_ok k k'); congruence.
        * apply IH; auto.
  Qed.
  Lemma keys_dict_del_In d k k' : NoDup (keys d) ->
    In k (keys (dict_del k' d)) <-> k <> k' /\ In k (keys d).
  Proof.
    intros Hn. pose proof (dict_get_del d k k' Hn) as E.
    destruct (eqb_ok k k') as [->|Hne].
    - apply dict_get_None in E. tauto.
    - rewrite <- !dict_has_In. unfold dict_has. rewrite E. tauto.
  Qed.
  Lemma keys_dict_del_NoDup d k : NoDup (keys d) -> NoDup (keys (dict_del k d)).
  Proof.
    induction d as [|[k1 v1] d IH]; cbn; intros Hn; auto. inversion Hn as [|? ? Hni Hn']; subst.
    destruct (eqb_ok k k1) as [->|Hne]; auto. cbn. constructor; auto.
    intros Hin. apply (keys_dict_del_In d k1 k Hn') in Hin. apply Hni. tauto.
  Qed.
End D.
