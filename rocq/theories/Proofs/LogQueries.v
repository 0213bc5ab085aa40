(** Proofs about log queries *)
From Verif.Model Require Import Base ListUtils EventLog LogQueries.
From Verif.Spec Require Import Lists Logs QuerySpec.
From Verif.Lib Require Import ListLib.
From Verif.Proofs Require Import Selection.
From Verif.Proofs Require ListUtils.

Section Q.
  Context {A V I : Type} `{Eq A}.
  Lemma contains_activity_iff (t : trace A V I) a :
    contains_activity t a = true <-> In a (map activity (events t)).
  Proof.
    unfold contains_activity. rewrite existsb_exists, in_map_iff. split.
    - intros (e & He & E). apply (proj1 (eqb_eq _ _)) in E. eauto.
    - intros (e & E & He). exists e. split; auto. apply eqb_eq; auto.
  Qed.
  Lemma matches_ok (q : query A V) (t : trace A V I) :
    exists b, matches_trace q t = Ok b /\ (b = true <-> sat q t).
  Proof.
    induction q as [l|a|a m|l|l|p IHp q IHq|p IHp q IHq|q IHq]; cbn [matches_trace sat].
    - eexists. split; [reflexivity|]. rewrite forallb_forall. split.
      + intros Hl a Ha Hin. apply contains_activity_iff in Hin. specialize (Hl a Ha). rewrite Hin in Hl. discriminate.
      + intros Hl a Ha. apply negb_true_iff. destruct (contains_activity t a) eqn:E; auto.
        apply contains_activity_iff in E. exfalso. eapply Hl; eauto.
    - eexists. split; [reflexivity|]. apply contains_activity_iff.
    - eexists. split; [reflexivity|]. rewrite existsb_exists. split.
      + intros (e & He & E). apply andb_true_iff in E. destruct E as [E1 E2]. apply (proj1 (eqb_eq _ _)) in E1. eauto.
      + intros (e & He & E1 & E2). exists e. split; auto. rewrite E1, E2, eqb_refl. auto.
    - eexists. split; [reflexivity|]. rewrite forallb_forall. split.
      + intros Hl a Ha. apply contains_activity_iff. auto.
      + intros Hl a Ha. apply contains_activity_iff. auto.
    - destruct (ListUtils.is_sublist_bm_ok (to_activity_list t) l) as (b & E & Hb). exists b. split; auto.
    - destruct IHp as (b & -> & Hb), IHq as (c & -> & Hc). cbn. destruct b.
      + exists c. split; auto. rewrite Hc. intuition.
      + exists false. split; auto. intuition congruence.
    - destruct IHp as (b & -> & Hb), IHq as (c & -> & Hc). cbn. destruct b.
      + exists true. split; auto. intuition.
      + exists c. split; auto. rewrite Hc. intuition congruence.
    - destruct IHq as (b & -> & Hb). cbn. exists (negb b). split; auto. rewrite negb_true_iff.
      destruct b; intuition congruence.
  Qed.
  Lemma execute_ok (q : query A V) (l : log A V I) :
    exists r, execute q l = Ok r /\ selection l r (fun _ t => sat q t).
  Proof.
    set (f := fun t : trace A V I => match matches_trace q t with Ok b => b | Err _ => false end).
    exists (filter f l). split.
    - induction l as [|t l IH]; cbn [execute filter]; auto. unfold f at 1.
      destruct (matches_ok q t) as (b & E & _). rewrite E. cbn. rewrite IH. cbn. auto.
    - eapply selection_iff; [|apply selection_filter]. intros j t _. unfold f.
      destruct (matches_ok q t) as (b & -> & Hb). auto.
  Qed.
End Q.
