(** From datasets with target sequences to event logs *)
From Coq Require Import String Permutation.
From Verif.Model Require Import Base EventLog Dataset Converter.
From Verif.Spec Require Import DatasetSpec.
From Verif.Lib Require Import ListLib DictLib.
From Verif.Proofs Require Import DatasetA DatasetB.
Open Scope list_scope.

Lemma convert_shape {I V} (h : heap I V (list string)) : forall it l, convert h it = Ok l ->
  Forall2 (fun a t => made_attrs t = a /\ exists x, nth_error h a = Some x /\ target x <> [] /\ made_id t = iid x /\ made_events t = map EventLog.new_event (target x)) it l.
Proof.
  unfold convert. induction it as [|a it IH]; intros l E; cbn [mapM] in E; [injection E as <-; constructor|].
  destruct (nth_error h a) as [x|] eqn:Ex; cbn [of_option bind] in E; [|discriminate].
  destruct (target x) as [|s r] eqn:Et; cbn [map bind] in E; [discriminate|].
  match type of E with (do y <- ?r0 ; _) = _ => destruct r0 as [l'|] eqn:E' end; cbn [bind] in E; [|discriminate]. injection E as <-.
  constructor; [|apply IH; auto]. cbn. split; [auto|]. exists x. rewrite Et. repeat split; auto. congruence.
Qed.
Lemma convert_total {I V} (h : heap I V (list string)) it : (forall a, In a it -> exists x, nth_error h a = Some x) ->
  (Forall (fun a => forall x, nth_error h a = Some x -> target x <> []) it -> exists l, convert h it = Ok l) /\
  (~ Forall (fun a => forall x, nth_error h a = Some x -> target x <> []) it -> convert h it = Err ValueError).
Proof.
  unfold convert. induction it as [|a it IH]; intros H; cbn [mapM].
  - split; [eauto|]. intros Q. exfalso. apply Q. constructor.
  - destruct (H a (or_introl eq_refl)) as [x Ex]. rewrite Ex. cbn [of_option bind]. destruct IH as [IH1 IH2]; [intros b Hb; apply H; right; auto|].
    destruct (target x) as [|s r] eqn:Et; cbn [map bind].
    + split; [|auto]. intros F. inversion F as [|? ? F1 F2]; subst. exfalso. apply (F1 x Ex). auto.
    + split.
      * intros F. inversion F as [|? ? F1 F2]; subst. destruct (IH1 F2) as [l ->]. cbn. eauto.
      * intros Q. rewrite IH2; [auto|]. intros F. apply Q. constructor; [|auto]. intros x' Ex'. rewrite Ex in Ex'. injection Ex' as <-. congruence.
Qed.
Lemma members_exist {I V T} `{Eq I} `{Eq V} fresh (h : heap I V T) d : history fresh h d -> forall a, In a (insts d) -> exists x, nth_error h a = Some x.
Proof. intros Hh a Ha. apply history_inv in Hh. destruct Hh. eauto. Qed.

(*P C112 Event logs made from datasets with target sequences *)
Lemma C112_convert : forall (I V : Type) (EI : Eq I) (EV : Eq V) fresh (h : heap I V (list string)) (d : dataset V) it,
  history fresh h d -> Permutation it (insts d) ->
  ((forall a x, member h d a x -> target x <> []) -> exists l, convert h it = Ok l /\
     Forall2 (fun a t => exists x, member h d a x /\ made_id t = iid x /\ map activity (made_events t) = target x /\
       Forall (fun e => ev_attrs e = [] /\ transition e = None) (made_events t) /\ attributes_in h t = Some (feats x)) it l /\
     NoDup (map made_id l)) /\
  ((exists a x, member h d a x /\ target x = []) -> convert h it = Err ValueError).
Proof.
  intros I V EI EV fresh h d it Hh P. destruct (C59_unique_ids _ _ _ _ _ _ _ _ Hh) as (N & _ & Ids).
  assert (M : forall a, In a it -> In a (insts d)) by (intros a Ha; eapply Permutation_in; eauto).
  destruct (convert_total h it) as [T1 T2]; [intros a Ha; eapply members_exist; eauto|]. split.
  - intros NE. destruct T1 as [l El].
    { apply Forall_forall. intros a Ha x Ex. apply (NE a x). split; auto. }
    exists l. split; [auto|]. pose proof (convert_shape h it l El) as S. split.
    + clear - S M. induction S as [|a t it l (E1 & x & Ex & _ & E2 & E3) S IH]; constructor; [|apply IH; intros b Hb; apply M; right; auto].
      exists x. split; [split; [apply M; left; auto|auto]|]. split; [auto|]. rewrite E3. split; [rewrite map_map; cbn; apply map_id|]. split.
      * apply Forall_forall. intros e He. apply in_map_iff in He. destruct He as (s & <- & _). auto.
      * unfold attributes_in. rewrite E1, Ex. auto.
    + assert (NI : NoDup it) by (eapply Permutation_NoDup; [apply Permutation_sym; eauto|auto]). clear - S M NI Ids.
      induction S as [|a t it l (E1 & x & Ex & _ & E2 & E3) S IH]; cbn [map]; constructor.
      * intros Q. apply in_map_iff in Q. destruct Q as (t' & Et & Ht). inversion NI as [|? ? N1 N2]; subst.
        assert (R : exists b y, In b it /\ nth_error h b = Some y /\ made_id t' = iid y).
        { clear - S Ht. induction S as [|b u it l (_ & y & Ey & _ & E2 & _) S IH]; [destruct Ht|]. destruct Ht as [->|Ht].
          - exists b, y. split; [left; auto|auto].
          - destruct (IH Ht) as (b' & y' & Hb & R). exists b', y'. split; [right; auto|auto]. }
        destruct R as (b & y & Hb & Ey & Eid). apply N1. assert (made_attrs t = b); [|subst; auto]. apply (Ids (made_attrs t) b x y).
        -- split; [apply M; left; auto|auto].
        -- split; [apply M; right; auto|auto].
        -- congruence.
      * apply IH; [intros b Hb; apply M; right; auto|]. inversion NI; auto.
  - intros (a & x & [Ha Ex] & Et). apply T2. intros F. rewrite Forall_forall in F. apply (F a (Permutation_in _ (Permutation_sym P) Ha) x Ex Et).
Qed.
(** the attributes of a trace are those that its instance has later on *)
Lemma C112_shared : forall (I V : Type) (h h' : heap I V (list string)) it l, convert h it = Ok l ->
  Forall2 (fun a t => attributes_in h' t = option_map feats (nth_error h' a)) it l.
Proof.
  intros I V h h' it l E. pose proof (convert_shape h it l E) as S. clear E. induction S as [|a t it l [E _] S IH]; constructor; [|auto].
  unfold attributes_in. rewrite E. auto.
Qed.
(** so an attribute removed from the dataset disappears from the log *)
Lemma C112_remove_witness : forall (I V : Type) (EI : Eq I) (EV : Eq V) fresh (h : heap I V (list string)) (d : dataset V) it it' l n h' d',
  history fresh h d -> Permutation it (insts d) -> Permutation it' (insts d) -> convert h it = Ok l ->
  remove_attribute h d it' n = (h', d', None) ->
  Forall (fun t => exists fs fs', attributes_in h t = Some fs /\ attributes_in h' t = Some fs' /\
    forall k, dict_get k fs' = if eqb k n then None else dict_get k fs) l.
Proof.
  intros I V EI EV fresh h d it it' l n h' d' Hh P P' E R. destruct (C59_remove_attribute _ _ _ _ _ _ _ _ it' n Hh P') as [[_ Q]|(_ & h2 & d2 & Q & _ & _ & F & _)]; [congruence|].
  rewrite R in Q. injection Q as <- <-. assert (M : forall a, In a it -> In a (insts d)) by (intros a Ha; apply (Permutation_in _ P Ha)).
  pose proof (convert_shape h it l E) as S. clear E P. induction S as [|a t it l (E1 & x & Ex & _) S IH]; constructor; [|apply IH; intros b Hb; apply M; right; auto].
  destruct (F a x) as (x' & Ex' & _ & _ & G); [split; [apply M; left; auto|auto]|]. exists (feats x), (feats x'). unfold attributes_in. rewrite E1, Ex, Ex'. auto.
Qed.
(** a log made from a copy of the dataset is independent of the dataset *)
Lemma C112_copy : forall (I V : Type) (EI : Eq I) (EV : Eq V) (h : heap I V (list string)) (d : dataset V) it it' h1 c l h2,
  history true h d -> Permutation it (insts d) -> copy h d it = Ok (h1, c) -> Permutation it' (insts c) -> convert h1 it' = Ok l ->
  (forall a, ~ In a (insts d) -> nth_error h2 a = nth_error h1 a) ->
  Forall (fun t => attributes_in h2 t = attributes_in h1 t) l.
Proof.
  intros I V EI EV h d it it' h1 c l h2 Hh P C P' E U. destruct (C59_copy _ _ _ _ _ h d it Hh P) as (h1' & c' & C' & _ & _ & _ & _ & _ & _ & _ & D).
  rewrite C in C'. injection C' as <- <-. pose proof (convert_shape h1 it' l E) as S. assert (M : forall a, In a it' -> In a (insts c)) by (intros a Ha; apply (Permutation_in _ P' Ha)).
  clear E P'. induction S as [|a t it' l (E1 & _) S IH]; constructor; [|apply IH; intros b Hb; apply M; right; auto].
  unfold attributes_in. rewrite E1, U; [auto|]. apply (D a). apply M. left. auto.
Qed.
