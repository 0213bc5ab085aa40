(** Noise on target sequences: exactly what happens for given random outcomes (C62) *)
From Coq Require Import Permutation QArith Qcanon String.
From Verif.Model Require Import Base LogNoise Dataset Transformers.
From Verif.Spec Require Import Lists Logs DatasetSpec TransformSpec.
From Verif.Lib Require Import ListLib DictLib.
From Verif.Proofs Require Import LogNoise Selection.
Open Scope list_scope.
Open Scope nat_scope.

(** exactly the events whose random number is above the probability stay *)
Lemma C62_removed_events : forall (A : Type) (p : Q) (rand : nat -> Q) i (s : list A) i' t,
  remove_noise p rand i s = (i', t) -> selection s t (fun k _ => (p < rand (i + k)%nat)%Q).
Proof.
  intros A p rand i s. unfold remove_noise. set (f := fun '(i, r) e => _).
  assert (HH : forall s, exists t, fold_left f s (i, []) = (i + length s, t) /\ selection s t (fun k _ => (p < rand (i + k)%nat)%Q)).
  { clear s. induction s as [|e s IH] using rev_ind.
    - exists []. cbn. rewrite Nat.add_0_r. split; [auto|apply selection_nil].
    - destruct IH as (t & E & Hs). rewrite fold_left_app, E. cbn [fold_left f].
      eexists. split; [rewrite app_length; cbn [length]; f_equal; lia|].
      pose proof (selection_snoc s t (fun k _ => (p < rand (i + k)%nat)%Q) e Hs) as [H1 H2].
      destruct (Qlt_bool p (rand (i + length s))) eqn:Eq.
      + apply H1. now apply Qlt_bool_iff.
      + apply H2. intros Hc. apply Qlt_bool_iff in Hc. congruence. }
  intros i' t E. destruct (HH s) as (t' & E' & Hs). rewrite E' in E. injection E as <- <-. exact Hs.
Qed.

Lemma or_not_outcome (A : Type) (alphabet : list A) p rand pick i j g :
  noise_or_not alphabet p rand pick i = Ok (j, g) <-> gap_noise alphabet p rand pick i g j.
Proof.
  unfold noise_or_not. split.
  - destruct (Qlt_bool (rand i) p) eqn:E.
    + destruct (nth_error alphabet _) as [x|] eqn:Ex; [|discriminate]. intros Q; injection Q as <- <-. apply gap_hit; auto. now apply Qlt_bool_iff.
    + intros Q; injection Q as <- <-. apply gap_miss. now apply Qlt_bool_false.
  - intros H. inversion H; subst.
    + rewrite (proj2 (Qlt_bool_iff _ _)) by auto. now rewrite H1.
    + rewrite (proj2 (Qlt_bool_false _ _)) by auto. auto.
Qed.
(** adding noise: each gap gets what its random numbers say *)
Lemma C62_added_events : forall (A : Type) (alphabet : list A) (p : Q) (rand : nat -> Q) (pick : nat -> nat) i (s : list A) i' t,
  add_noise alphabet p rand pick i s = Ok (i', t) <-> add_outcome alphabet p rand pick i s i' t.
Proof.
  intros A alphabet p rand pick i s i' t. unfold add_noise.
  assert (HH : forall (s : list A) j r i' t, foldM (fun '(i, r) e => do (i', x) <- noise_or_not alphabet p rand pick i ; Ok (i', (r ++ [e]) ++ x)) s (j, r) = Ok (i', t) <->
     match s with
     | [] => (i', t) = (j, r)
     | e :: s' => exists u, t = r ++ e :: u /\ add_outcome alphabet p rand pick j s' i' u
     end).
  { clear. induction s as [|e s IH]; intros j r i' t; cbn [foldM].
    - split; [intros Q; injection Q as <- <-; auto|intros Q; injection Q as -> ->; auto].
    - split.
      + destruct (noise_or_not alphabet p rand pick j) as [[k x]|] eqn:E; cbn [bind]; [|discriminate]. apply or_not_outcome in E.
        intros Hf. apply IH in Hf. destruct s as [|e' s].
        * injection Hf as -> ->. exists x. rewrite <- app_assoc. split; [auto|]. now apply add_last.
        * destruct Hf as (u & -> & Hu). exists (x ++ e' :: u). rewrite <- !app_assoc. split; [auto|]. eapply add_event; eauto.
      + intros (u & -> & Hu). inversion Hu as [j0 g k Hg|j0 g k e' s' k' t' Hg Ht]; subst.
        * apply or_not_outcome in Hg. rewrite Hg. cbn [bind foldM]. rewrite <- app_assoc. auto.
        * apply or_not_outcome in Hg. rewrite Hg. cbn [bind]. apply IH. exists t'. rewrite <- !app_assoc. auto. }
  split.
  - destruct (noise_or_not alphabet p rand pick i) as [[k x]|] eqn:E; cbn [bind]; [|discriminate]. apply or_not_outcome in E.
    intros Hf. apply HH in Hf. destruct s as [|e s].
    + injection Hf as -> ->. now apply add_last.
    + destruct Hf as (u & -> & Hu). eapply add_event; eauto.
  - intros Hu. inversion Hu as [j0 g k Hg|j0 g k e' s' k' t' Hg Ht]; subst; apply or_not_outcome in Hg; rewrite Hg; cbn [bind]; apply HH; auto.
    exists t'. auto.
Qed.
(** swap noise: neighbours change places exactly when their random number says so *)
Lemma C62_swapped_events : forall (A : Type) (multiple : bool) (p : Q) (rand : nat -> Q) i (s : list A) i' t,
  swap_noise multiple p rand i s = (i', t) <-> swap_outcome multiple p rand i s i' t.
Proof.
  intros A multiple p rand i s i' t. unfold swap_noise.
  assert (HH : forall fuel i (s out : list A) i' t, length s <= fuel -> swap_noise_loop fuel multiple p rand i s out = (i', t) <->
     exists u, t = out ++ u /\ swap_outcome multiple p rand i s i' u).
  { clear. induction fuel as [|fuel IH]; intros i s out i' t Hl.
    - destruct s; [|cbn in Hl; lia]. cbn. split.
      + intros Q; injection Q as <- <-. exists []. split; [auto|constructor].
      + intros (u & -> & Hu). inversion Hu; subst. auto.
    - cbn [swap_noise_loop]. destruct s as [|a [|b s]].
      + split; [intros Q; injection Q as <- <-; exists []; split; [auto|constructor]|]. intros (u & -> & Hu). inversion Hu; subst. auto.
      + split; [intros Q; injection Q as <- <-; exists [a]; split; [auto|constructor]|]. intros (u & -> & Hu). inversion Hu; subst. auto.
      + cbn [length] in Hl. destruct (Qlt_bool (rand i) p) eqn:E.
        * assert (Hlt : (rand i < p)%Q) by now apply Qlt_bool_iff. destruct multiple.
          -- rewrite IH by (cbn [length]; lia). split.
             ++ intros (u & -> & Hu). exists (b :: u). rewrite <- app_assoc. split; [auto|]. apply swap_again; auto.
             ++ intros (u & -> & Hu). inversion Hu; subst; try discriminate; [exfalso; eapply Qlt_not_le; eauto|].
                eexists. rewrite <- app_assoc. split; [reflexivity|auto].
          -- rewrite IH by lia. split.
             ++ intros (u & -> & Hu). exists (b :: a :: u). rewrite <- !app_assoc. split; [auto|]. apply swap_pair; auto.
             ++ intros (u & -> & Hu). inversion Hu; subst; try discriminate; [exfalso; eapply Qlt_not_le; eauto|].
                eexists. rewrite <- !app_assoc. split; [reflexivity|auto].
        * assert (Hle : (p <= rand i)%Q) by now apply Qlt_bool_false. rewrite IH by (cbn [length]; lia). split.
          -- intros (u & -> & Hu). exists (a :: u). rewrite <- app_assoc. split; [auto|]. apply swap_miss; auto.
          -- intros (u & -> & Hu). inversion Hu; subst; try (exfalso; eapply Qlt_not_le; eauto; fail).
             eexists. rewrite <- app_assoc. split; [reflexivity|auto]. }
  rewrite HH by auto. cbn [app]. split; [intros (u & -> & Hu); auto|eauto].
Qed.
