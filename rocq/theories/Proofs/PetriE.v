(** Guards of data petri nets (C83) *)
From Coq Require Import String QArith.
From Verif.Model Require Import Base PetriNet.
From Verif.Spec Require Import PetriSpec.
Open Scope list_scope.
Open Scope nat_scope.

Lemma number_counts v q : as_number v = Some q <-> counts_as v q.
Proof.
  split.
  - destruct v as [|x|[|]]; cbn; intros E; injection E as <- || discriminate; constructor.
  - destruct 1; auto.
Qed.
Lemma Qle_bool_false a b : Qle_bool a b = false <-> (b < a)%Q.
Proof.
  split; intros E.
  - apply Qnot_le_lt. intros L. apply Qle_bool_iff in L. congruence.
  - destruct (Qle_bool a b) eqn:Q; auto. apply Qle_bool_iff in Q. exfalso. apply (Qlt_not_le _ _ E). auto.
Qed.

(*P C83 Guards *)

(** The guards compare the current value of their variable with the constant
    as their names say. *)
Lemma C83_comparisons : forall st r c a b, counts_as (value st r) a -> counts_as c b ->
  (accept st (EqualGuard r c) = Ok true /\ (a == b)%Q \/ accept st (EqualGuard r c) = Ok false /\ ~ (a == b)%Q) /\
  (accept st (SmallerGuard r c) = Ok true /\ (a < b)%Q \/ accept st (SmallerGuard r c) = Ok false /\ (b <= a)%Q) /\
  (accept st (SmallerOrEqualGuard r c) = Ok true /\ (a <= b)%Q \/ accept st (SmallerOrEqualGuard r c) = Ok false /\ (b < a)%Q) /\
  (accept st (GreaterGuard r c) = Ok true /\ (b < a)%Q \/ accept st (GreaterGuard r c) = Ok false /\ (a <= b)%Q) /\
  (accept st (GreaterOrEqualGuard r c) = Ok true /\ (b <= a)%Q \/ accept st (GreaterOrEqualGuard r c) = Ok false /\ (a < b)%Q).
Proof.
  intros st r c a b Ha Hb. apply number_counts in Ha, Hb. cbn [accept]. unfold val_eqb, val_le. rewrite Ha, Hb. cbn [bind].
  split; [|split; [|split; [|split]]].
  - destruct (Qeq_bool a b) eqn:E; [left; split; auto; apply Qeq_bool_iff; auto|right; split; auto]. apply Qeq_bool_neq; auto.
  - destruct (Qle_bool b a) eqn:E; [right|left]; (split; [auto|]); [apply Qle_bool_iff|apply Qle_bool_false]; auto.
  - destruct (Qle_bool a b) eqn:E; [left|right]; (split; [auto|]); [apply Qle_bool_iff|apply Qle_bool_false]; auto.
  - destruct (Qle_bool a b) eqn:E; [right|left]; (split; [auto|]); [apply Qle_bool_iff|apply Qle_bool_false]; auto.
  - destruct (Qle_bool b a) eqn:E; [left|right]; (split; [auto|]); [apply Qle_bool_iff|apply Qle_bool_false]; auto.
Qed.

(** A variable without a value: it only equals None, comparing its size raises
    TypeError, and it counts as false. *)
Lemma C83_none : forall st r c, value st r = VNone ->
  (accept st (EqualGuard r c) = Ok true <-> c = VNone) /\ (accept st (EqualGuard r c) = Ok false <-> c <> VNone) /\
  accept st (SmallerGuard r c) = Err TypeError /\ accept st (SmallerOrEqualGuard r c) = Err TypeError /\
  accept st (GreaterGuard r c) = Err TypeError /\ accept st (GreaterOrEqualGuard r c) = Err TypeError /\
  accept st (TrueGuard r) = Ok false /\ accept st (FalseGuard r) = Ok true.
Proof.
  intros st r c Hv. cbn [accept]. rewrite Hv. unfold val_le. cbn [as_number].
  split; [|split]; [| |split; [|split; [|split; [|split; [|split]]]]]; try (destruct (as_number c); reflexivity); try reflexivity.
  - destruct c; cbn; split; congruence.
  - destruct c; cbn; split; congruence.
Qed.

(** The guards on truth values, the guard that always accepts, and the guard
    given as a function. *)
Lemma C83_truth : forall st r a f, counts_as (value st r) a ->
  (accept st (TrueGuard r) = Ok true /\ accept st (FalseGuard r) = Ok false /\ ~ (a == 0)%Q \/
   accept st (TrueGuard r) = Ok false /\ accept st (FalseGuard r) = Ok true /\ (a == 0)%Q) /\
  accept st AcceptAlways = Ok true /\ accept st (LambdaGuard r f) = f (value st r).
Proof.
  intros st r a f Ha. apply number_counts in Ha. split; [|split; reflexivity]. cbn [accept]. unfold truthy. rewrite Ha.
  destruct (Qeq_bool a 0) eqn:E; cbn [negb]; [right|left]; (split; [auto|]); (split; [auto|]); [apply Qeq_bool_iff|apply Qeq_bool_neq]; auto.
Qed.

(** A conjunction accepts if all its guards do; otherwise the first guard that
    does not accept decides: it rejects, or raises what that guard raises. *)
Lemma C83_all_of : forall st gs,
  (accept st (AllOfGuard gs) = Ok true <-> Forall (fun g => accept st g = Ok true) gs) /\
  (accept st (AllOfGuard gs) = Ok false <-> decided_by st gs (Ok false)) /\
  (forall e, accept st (AllOfGuard gs) = Err e <-> decided_by st gs (Err e)).
Proof.
  intros st gs. cbn [accept]. set (all := fix all gs := match gs with [] => Ok true | g :: gs' => do b <- accept st g ; if b then all gs' else Ok false end).
  assert (Hall : forall l, (all l = Ok true /\ Forall (fun g => accept st g = Ok true) l) \/ (all l <> Ok true /\ decided_by st l (all l))).
  { induction l as [|g l IH]; [left; split; [reflexivity|constructor]|]. cbn [all]. fold all.
    destruct (accept st g) as [[|]|e] eqn:E; cbn [bind].
    - destruct IH as [[E1 F]|[E1 (pre & h & post & -> & F & Eh)]]; [left; auto|right]. split; auto.
      exists (g :: pre), h, post. split; auto.
    - right. split; [discriminate|]. exists [], g, l. auto.
    - right. split; [discriminate|]. exists [], g, l. auto. }
  assert (Huniq : forall l r r', r <> Ok true -> r' <> Ok true -> decided_by st l r -> decided_by st l r' -> r = r').
  { intros l r r' Hr Hr' (pre & g & post & -> & F & E) (pre' & g' & post' & E2 & F' & E').
    revert pre' E2 F'. induction pre as [|x pre IH]; intros [|x' pre'] E2 F'; cbn in E2; injection E2 as ? E2; subst.
    - congruence.
    - inversion F'; subst. congruence.
    - inversion F; subst. congruence.
    - inversion F; inversion F'; subst. eauto. }
  assert (Hnot : forall l r, r <> Ok true -> decided_by st l r -> ~ Forall (fun g => accept st g = Ok true) l).
  { intros l r Hr (pre & g & post & -> & _ & E) F. apply Forall_app in F. destruct F as [_ F]. inversion F; subst. congruence. }
  destruct (Hall gs) as [[E F]|[E D]].
  - rewrite E. split; [tauto|]. split; [|intros e]; (split; [discriminate|]); intros D; exfalso; (eapply Hnot; [|exact D|exact F]); discriminate.
  - split; [|split].
    + split; [contradiction|]. intros F. exfalso. eapply Hnot; eauto.
    + split; [intros <-; auto|]. intros D'. apply (Huniq gs); auto. discriminate.
    + intros e. split; [intros <-; auto|]. intros D'. apply (Huniq gs); auto. discriminate.
Qed.
