From Verif.Model Require Import Base TwoWayDict.
From Verif.Lib Require Import ListLib.

Section P.
  Context {K V : Type} `{Eq K} `{Eq V}.
  Implicit Types (h : list (K * V)).

  Lemma run_snoc h k v : twd_run (h ++ [(k, v)]) = twd_setitem (twd_run h) k v.
  Proof. unfold twd_run. rewrite fold_left_app. reflexivity. Qed.

  Lemma set_add_In {X} `{Eq X} (x y : X) s : In y (set_add x s) <-> y = x \/ In y s.
  Proof.
    unfold set_add. destruct (mem x s) eqn:E.
    - apply mem_In in E. split; [auto|]. intros [->|Hy]; auto.
    - rewrite in_app_iff. cbn. split; [intros [Hy|[Hy|[]]]; auto|intros [Hy|Hy]; auto].
  Qed.
  Lemma set_add_NoDup {X} `{Eq X} (x : X) s : NoDup s -> NoDup (set_add x s).
  Proof.
    intros Hs. unfold set_add. destruct (mem x s) eqn:E; auto.
    apply mem_not_In in E. apply NoDup_rev in Hs. rewrite <- (rev_involutive (s ++ [x])).
    apply NoDup_rev. rewrite rev_app_distr. cbn. constructor; auto. rewrite <- in_rev; auto.
  Qed.

  Definition last_assigned h k v : Prop :=
    exists h1 h2, h = h1 ++ (k, v) :: h2 /\ forall v', ~ In (k, v') h2.

  Lemma getitem_fold h k :
    (forall v, dict_get k (twd_dict (twd_run h)) = Some v <-> last_assigned h k v) /\
    (dict_get k (twd_dict (twd_run h)) = None <-> forall v, ~ In (k, v) h).
  Proof.
    induction h as [|[k0 v0] h [IH1 IH2]] using rev_ind.
    - split; [intros v; split; [discriminate|]|split; [intros _ v []|auto]].
      intros (h1 & h2 & E & _). destruct h1; discriminate.
    - rewrite run_snoc. cbn [twd_setitem twd_dict]. rewrite dict_get_set.
      destruct (eqb_ok k k0) as [<-|Hne].
      + split.
        * intros v; split.
          -- intros E; injection E as <-. exists h, []. split; auto.
          -- intros (h1 & h2 & E & Hn). destruct (exists_last (l := (k, v) :: h2)) as (h2' & x & E2); [discriminate|].
             rewrite E2 in E. rewrite app_assoc in E. apply app_inj_tail in E as [_ <-].
             destruct h2' as [|y h2']; injection E2; [congruence|]. intros E3 _. exfalso.
             apply (Hn v0). rewrite E3. apply in_or_app; right; left; auto.
        * split; [discriminate|]. intros Hn. exfalso. apply (Hn v0). apply in_or_app; right; left; auto.
      + split.
        * intros v. rewrite IH1. split.
          -- intros (h1 & h2 & -> & Hn). exists h1, (h2 ++ [(k0, v0)]). rewrite <- app_assoc. split; auto.
             intros v' Hv. apply in_app_or in Hv as [Hv|[Hv|[]]]; [apply (Hn v'); auto|congruence].
          -- intros (h1 & h2 & E & Hn).
             destruct (exists_last (l := (k, v) :: h2)) as (h2' & x & E2); [discriminate|].
             rewrite E2, app_assoc in E. apply app_inj_tail in E as [-> <-].
             destruct h2' as [|y h2']; injection E2; [congruence|]. intros E3 <-.
             exists h1, h2'. split; auto. intros v' Hv. apply (Hn v'). rewrite E3. apply in_or_app; auto.
        * rewrite IH2. split; intros Hn v Hv; apply (Hn v).
          -- apply in_app_or in Hv as [Hv|[Hv|[]]]; [auto|congruence].
          -- apply in_or_app; auto.
  Qed.

  Lemma inverse_fold h v :
    match dict_get v (twd_inverse (twd_run h)) with
    | Some ks => NoDup ks /\ (forall k, In k ks <-> In (k, v) h) /\ exists k, In (k, v) h
    | None => forall k, ~ In (k, v) h
    end.
  Proof.
    induction h as [|[k0 v0] h IH] using rev_ind.
    - cbn. intros k [].
    - rewrite run_snoc. cbn [twd_setitem twd_inverse].
      set (inv := twd_inverse (twd_run h)) in *.
      assert (Hg : dict_get v0 (if dict_has v0 inv then inv else dict_set v0 [] inv) =
                   Some (match dict_get v0 inv with Some ks => ks | None => [] end)).
      { unfold dict_has. destruct (dict_get v0 inv) as [ks|] eqn:E; [auto|].
        rewrite dict_get_set, eqb_refl. reflexivity. }
      rewrite Hg, dict_get_set. destruct (eqb_ok v v0) as [->|Hne].
      + split; [|split].
        * apply set_add_NoDup. destruct (dict_get v0 inv); [tauto|constructor].
        * intros k. rewrite set_add_In, in_app_iff. cbn. destruct (dict_get v0 inv) as [ks|].
          -- destruct IH as (_ & IH & _). rewrite IH. split; [intros [->|]; auto|].
             intros [|[E|[]]]; auto. injection E as ->; auto.
          -- cbn. split; [intros [->|[]]; auto|]. intros [Hk|[E|[]]]; [exfalso; apply (IH k); auto|].
             injection E as ->; auto.
        * exists k0. apply in_or_app; right; left; auto.
      + assert (E : dict_get v (if dict_has v0 inv then inv else dict_set v0 [] inv) = dict_get v inv).
        { destruct (dict_has v0 inv); auto. rewrite dict_get_set. destruct (eqb_ok v v0); congruence. }
        rewrite E. destruct (dict_get v inv) as [ks|].
        * destruct IH as (H1 & H2 & k & H3). split; auto. split.
          -- intros k1. rewrite H2, in_app_iff. cbn. split; [auto|]. intros [|[E2|[]]]; [auto|congruence].
          -- exists k. apply in_or_app; auto.
        * intros k Hk. apply in_app_or in Hk as [Hk|[E2|[]]]; [apply (IH k); auto|congruence].
  Qed.

  Theorem getitem_ok h k :
    (exists v, twd_getitem (twd_run h) k = Ok v /\ last_assigned h k v /\ twd_contains (twd_run h) k = true) \/
    (twd_getitem (twd_run h) k = Err KeyError /\ (forall v, ~ In (k, v) h) /\
     twd_contains (twd_run h) k = false).
  Proof.
    destruct (getitem_fold h k) as [H1 H2]. unfold twd_getitem, twd_contains, dict_has.
    destruct (dict_get k (twd_dict (twd_run h))) as [v|].
    - left. exists v. split; auto. split; auto. apply H1; auto.
    - right. split; auto. split; auto. apply H2; auto.
  Qed.
  Theorem inverse_ok h v :
    (exists ks, twd_inverse_lookup (twd_run h) v = Ok ks /\ NoDup ks /\ ks <> [] /\
                forall k, In k ks <-> In (k, v) h) \/
    (twd_inverse_lookup (twd_run h) v = Err KeyError /\ forall k, ~ In (k, v) h).
  Proof.
    pose proof (inverse_fold h v) as Hi. unfold twd_inverse_lookup.
    destruct (dict_get v (twd_inverse (twd_run h))) as [ks|].
    - left. exists ks. destruct Hi as (H1 & H2 & k & H3). split; auto. split; auto. split; auto.
      intros ->. apply (H2 k); auto.
    - right; auto.
  Qed.
  Theorem inverse_exact h v :
    (forall k v1 v2, In (k, v1) h -> In (k, v2) h -> v1 = v2) ->
    forall ks, twd_inverse_lookup (twd_run h) v = Ok ks ->
    forall k, In k ks <-> twd_getitem (twd_run h) k = Ok v.
  Proof.
    intros Hfun ks Hks k. destruct (inverse_ok h v) as [(ks' & E & _ & _ & Hi)|[E _]]; rewrite E in Hks;
      [|discriminate]. injection Hks as <-. rewrite Hi.
    destruct (getitem_ok h k) as [(v' & E' & (h1 & h2 & -> & Hn) & _)|(E' & Hn & _)]; rewrite E'.
    - split.
      + intros Hin. f_equal. eapply Hfun; eauto. apply in_or_app; right; left; auto.
      + intros E2. injection E2 as ->. apply in_or_app; right; left; auto.
    - split; [intros Hin; exfalso; apply (Hn v); auto|discriminate].
  Qed.
End P.
