(** Timeouts under all schedules *)
From Verif.Model Require Import Base Timeout.
From Verif.Spec Require Import TimeoutSpec.
Open Scope list_scope.
Open Scope nat_scope.

Section T.
  Context {S0 V : Type}.
  Variable f : function S0 V.
  Notation state := (state S0 V).
  (** [s] is reached without an interrupt *)
  Inductive reached : S0 -> Prop :=
  | reached_start : reached (start f)
  | reached_go s s' : reached s -> go f s = inl s' -> reached s'.
  Lemma ends_mono : forall n s o, ends_after f n s o -> forall s0, reached s -> go f s0 = inl s -> ends_after f (S n) s0 o.
  Proof. intros n s o E s0 _ G. cbn. rewrite G. auto. Qed.
  Lemma reached_steps s : reached s -> forall n o, ends_after f n s o -> own_outcome f o.
  Proof.
    induction 1 as [|s s' R IH G]; intros n o E; [exists n; auto|]. apply (IH (S n)). cbn. rewrite G. auto.
  Qed.
  Lemma reached_own s o : reached s -> go f s = inr o -> own_outcome f o.
  Proof. intros R G. apply (reached_steps s R 1). cbn. rewrite G. auto. Qed.
  (** nothing has been raised by the timer so far *)
  Definition clean (x : state) : Prop := fired x = 0 \/ pending x = true.
  Definition place_ok (x : state) : Prop :=
    match at_ x with
    | Before => True
    | Inside s => reached s
    | Finally o => own_outcome f o
    | Leaving o | Caller o => own_outcome f o /\ finished x = true
    end.
  Record inv (x : state) : Prop := {
    i_fired : fired x <= 1;
    i_ended : fired x = 1 -> timer_ x = Ended;
    i_pending : pending x = true -> fired x = 1;
    i_hits : hits x <= fired x;
    i_hit : hits x = 1 -> pending x = false;
    i_before : at_ x = Before -> timer_ x = Idle /\ fired x = 0 /\ finished x = false;
    i_idle : timer_ x = Idle -> at_ x = Before;
    i_clean : clean x \/ hits x = 1 -> place_ok x;
    i_over : (exists o, at_ x = Leaving o \/ at_ x = Caller o) -> finished x = true \/ timer_ x = Ended;
    i_catch : catches_nothing f -> fired x = 1 -> pending x = false -> hits x = 0 -> (exists o, at_ x = Finally o \/ at_ x = Leaving o \/ at_ x = Caller o) /\
       forall o, at_ x = Finally o \/ at_ x = Leaving o \/ at_ x = Caller o -> o = Interrupted;
    i_hits_caller : hits x = 1 -> exists o, at_ x = Caller o
  }.
  Lemma inv_initial : inv initial.
  Proof. constructor; cbn; unfold place_ok, clean; cbn; intros; try lia; try discriminate; auto; try (match goal with H : exists o, _ |- _ => destruct H as (o & [Q|Q]); discriminate end). Qed.
  Lemma inv_step x e : inv x -> inv (step f x e).
  Proof.
    intros H. destruct H as [F E P Hh Hp B I C O K HC]. destruct e; cbn [step].
    - destruct (pending x) eqn:Ep.
      + assert (F1 : fired x = 1) by auto. assert (H0 : hits x = 0) by (destruct (hits x) as [|[|]]; [auto|discriminate (Hp eq_refl)|lia]). assert (T : timer_ x = Ended) by auto.
        assert (CL : place_ok x) by (apply C; left; right; auto).
        unfold main_interrupted. destruct (at_ x) as [|s|o|o|o] eqn:Ea; [destruct (B eq_refl); congruence| | | |].
        * destruct (catch f s) as [s'|o] eqn:Ec; constructor; cbn; unfold clean, place_ok; cbn; intros; auto; try lia; try congruence.
          split; [exists o; auto|]. rewrite (H s) in Ec. injection Ec as <-. intros o' [Q|[Q|Q]]; congruence.
        * constructor; cbn; unfold clean, place_ok; cbn; intros; auto; try lia; try congruence.
          split; [exists Interrupted; auto|]. intros o' [Q|[Q|Q]]; congruence.
        * constructor; cbn; unfold clean, place_ok; cbn; intros; auto; try lia; try congruence.
          split; [exists Interrupted; auto|]. intros o' [Q|[Q|Q]]; congruence.
        * constructor; cbn; unfold clean, place_ok; cbn; intros; auto; try lia; try congruence.
          -- unfold place_ok in CL. rewrite Ea in CL. auto.
          -- exists o. auto.
      + unfold main_step. destruct (at_ x) as [|s|o|o|o] eqn:Ea.
        * destruct (B eq_refl) as (T & F0 & FI). constructor; cbn; unfold clean, place_ok; cbn; intros; auto; try lia; try congruence.
          -- constructor.
          -- destruct H as (o & [Q|Q]); discriminate.
        * assert (NI : timer_ x <> Idle) by (intros Q; apply I in Q; discriminate).
          assert (H0 : hits x = 0) by (destruct (hits x) as [|[|]]; [auto|destruct HC; [auto|discriminate]|lia]).
          destruct (go f s) as [s'|o] eqn:Eg; constructor; cbn; unfold clean, place_ok; cbn; intros; auto; try lia; try congruence.
          -- apply (reached_go s); [|auto]. unfold place_ok in C. rewrite Ea in C. apply C. unfold clean. rewrite Ep. destruct H as [[Q|Q]|Q]; auto; (lia || congruence).
          -- destruct H as (o & [Q|Q]); discriminate.
          -- destruct (K H H1 eq_refl H0) as [(o' & [Q|[Q|Q]]) _]; discriminate.
          -- apply (reached_own s); [|auto]. unfold place_ok in C. rewrite Ea in C. apply C. unfold clean. rewrite Ep. destruct H as [[Q|Q]|Q]; auto; (lia || congruence).
          -- destruct H as (o' & [Q|Q]); discriminate.
          -- destruct (K H H1 eq_refl H0) as [(o' & [Q|[Q|Q]]) _]; discriminate.
        * assert (NI : timer_ x <> Idle) by (intros Q; apply I in Q; discriminate).
          assert (H0 : hits x = 0) by (destruct (hits x) as [|[|]]; [auto|destruct HC; [auto|discriminate]|lia]).
          constructor; cbn; unfold clean, place_ok; cbn; intros; auto; try lia; try congruence.
          -- split; [|auto]. unfold place_ok in C. rewrite Ea in C. apply C. unfold clean. rewrite Ep. destruct H as [[Q|Q]|Q]; auto; (lia || congruence).
          -- destruct (K H H1 eq_refl H0) as [_ K2]. split; [exists o; auto|]. intros o' [Q|[Q|Q]]; try discriminate. injection Q as <-. apply K2. auto.
        * assert (NI : timer_ x <> Idle) by (intros Q; apply I in Q; discriminate).
          assert (H0 : hits x = 0) by (destruct (hits x) as [|[|]]; [auto|destruct HC; [auto|discriminate]|lia]).
          constructor; cbn; unfold clean, place_ok; cbn; intros; auto; try lia; try congruence.
          -- unfold place_ok in C. rewrite Ea in C. apply C. unfold clean. rewrite Ep. destruct H as [[Q|Q]|Q]; auto; (lia || congruence).
          -- apply O. eauto.
          -- destruct (K H H1 eq_refl H0) as [_ K2]. split; [exists o; auto|]. intros o' [Q|[Q|Q]]; try discriminate. injection Q as <-. apply K2. auto.
        * rewrite <- Ea in *. constructor; auto. rewrite Ep. auto.
    - destruct (timer_ x) eqn:Et; try (constructor; auto; rewrite Et; auto; fail).
      assert (F0 : fired x = 0) by (destruct (fired x) as [|[|]]; [auto|discriminate (E eq_refl)|lia]).
      assert (NB : at_ x <> Before) by (intros Q; destruct (B Q); congruence).
      constructor; cbn; unfold clean, place_ok in *; cbn; intros; auto; try lia; try congruence.
      + destruct (finished x); discriminate.
      + apply C. auto.
      + destruct (O H) as [Q|Q]; [auto|discriminate].
    - destruct (timer_ x) eqn:Et; try (constructor; auto; rewrite Et; auto; fail).
      assert (F0 : fired x = 0) by (destruct (fired x) as [|[|]]; [auto|discriminate (E eq_refl)|lia]).
      assert (NB : at_ x <> Before) by (intros Q; destruct (B Q); congruence).
      constructor; cbn; unfold clean, place_ok in *; cbn; intros; auto; try lia; try congruence.
      all: try (apply C; auto).
  Qed.
  Lemma inv_run es : inv (run f es).
  Proof.
    unfold run. assert (Q : forall x, inv x -> inv (fold_left (step f) es x)); [|apply Q, inv_initial]. induction es as [|e es IH]; intros x H; [auto|]. cbn. apply IH, inv_step, H.
  Qed.
  Lemma run_split a b : run f (a ++ b) = fold_left (step f) b (run f a).
  Proof. unfold run. apply fold_left_app. Qed.
  (** a cancelled timer that has not seen the end of the interval *)
  Definition safe (x : state) : Prop := finished x = true /\ fired x = 0 /\ hits x = 0 /\ pending x = false /\ timer_ x <> Due /\ (exists o, at_ x = Leaving o \/ at_ x = Caller o).
  Lemma safe_step x e : safe x -> safe (step f x e).
  Proof.
    intros (F & F0 & H0 & P & T & (o & A)). destruct e; cbn [step].
    - rewrite P. unfold main_step. destruct A as [A|A]; rewrite A; cbn; repeat split; auto; exists o; auto.
    - destruct (timer_ x) eqn:Et; [| |congruence|]; repeat split; auto; cbn; rewrite ?F, ?Et; try discriminate; eauto.
    - destruct (timer_ x) eqn:Et; [| |congruence|]; repeat split; auto; rewrite ?Et; try discriminate; eauto.
  Qed.
  Lemma early_run es : ~ In Elapse es -> fired (run f es) = 0 /\ timer_ (run f es) <> Due /\ (finished (run f es) = true -> exists o, at_ (run f es) = Leaving o \/ at_ (run f es) = Caller o).
  Proof.
    intros NE. set (P := fun x : state => fired x = 0 /\ pending x = false /\ timer_ x <> Due /\ (finished x = true -> exists o, at_ x = Leaving o \/ at_ x = Caller o)).
    assert (Q : forall es x, ~ In Elapse es -> P x -> P (fold_left (step f) es x)).
    { clear. induction es as [|e es IH]; intros x NE H; [auto|]. cbn. apply IH; [intros Q; apply NE; right; auto|]. destruct H as (F0 & Pe & T & A).
      destruct e; [|exfalso; apply NE; left; auto|]; cbn [step].
      - rewrite Pe. unfold main_step. destruct (at_ x) as [|s|o|o|o] eqn:Ea; [| |eauto| |].
        + repeat split; auto; cbn; [discriminate|]. intros Q. destruct (A Q) as (o & [Q'|Q']); discriminate.
        + destruct (go f s); repeat split; auto; cbn; intros Q; destruct (A Q) as (o' & [Q'|Q']); discriminate.
        + repeat split; auto; cbn; eauto.
        + repeat split; auto; cbn; eauto.
        + repeat split; auto. rewrite Ea. auto.
      - destruct (timer_ x) eqn:Et; [| |congruence|]; repeat split; auto; rewrite Et; discriminate. }
    destruct (Q es initial NE) as (A1 & A2 & A3 & A4); [repeat split; auto; cbn; discriminate|]. auto.
  Qed.
End T.

(*P C115 Timeouts *)
(** a call ends as the function ends, or it is interrupted because the time was over *)
Lemma C115_outcome : forall (S V : Type) (f : function S V) es o, catches_nothing f -> over (run f es) o ->
  own_outcome f o \/ (o = Interrupted /\ fired (run f es) = 1).
Proof.
  intros S0 V f es o CN O. unfold over in O. pose proof (inv_run f es) as I. destruct (fired (run f es)) as [|[|k]] eqn:F.
  - left. pose proof (i_clean _ _ I (or_introl (or_introl F))) as C. unfold place_ok in C. rewrite O in C. apply C.
  - destruct (pending (run f es)) eqn:P.
    + left. pose proof (i_clean _ _ I (or_introl (or_intror P))) as C. unfold place_ok in C. rewrite O in C. apply C.
    + destruct (hits (run f es)) as [|h] eqn:Hh.
      * right. split; [|auto]. destruct (i_catch _ _ I CN F P Hh) as [_ K]. apply K. auto.
      * left. assert (H1 : hits (run f es) = 1) by (pose proof (i_hits _ _ I); lia). pose proof (i_clean _ _ I (or_intror H1)) as C. unfold place_ok in C. rewrite O in C. apply C.
  - pose proof (i_fired _ _ I). lia.
Qed.
(** there is at most one interrupt *)
Lemma C115_once : forall (S V : Type) (f : function S V) es, fired (run f es) <= 1 /\ hits (run f es) <= fired (run f es).
Proof. intros S0 V f es. pose proof (inv_run f es) as I. split; apply I. Qed.
(** when the function ends and the timer is cancelled in time, nobody is interrupted, then or later *)
Lemma C115_in_time : forall (S V : Type) (f : function S V) a b, ~ In Elapse a -> finished (run f a) = true ->
  fired (run f (a ++ b)) = 0 /\ hits (run f (a ++ b)) = 0 /\ pending (run f (a ++ b)) = false /\
  forall o, over (run f (a ++ b)) o -> own_outcome f o.
Proof.
  intros S0 V f a b NE F. destruct (early_run f a NE) as (F0 & T & A). pose proof (inv_run f a) as I.
  assert (SA : safe (run f a)).
  { repeat split; auto; [pose proof (i_hits _ _ I); lia|]. destruct (pending (run f a)) eqn:P; [|auto]. apply (i_pending _ _ I) in P. lia. }
  assert (SB : safe (run f (a ++ b))).
  { rewrite run_split. clear - SA. revert SA. generalize (run f a). induction b as [|e b IH]; intros x H; [auto|]. cbn. apply IH, safe_step, H. }
  destruct SB as (_ & F1 & H1 & P1 & _). repeat (split; [auto|]). intros o O. pose proof (i_clean _ _ (inv_run f (a ++ b)) (or_introl (or_introl F1))) as C.
  unfold place_ok, over in *. rewrite O in C. apply C.
Qed.
(** after the interrupt the call is over within three steps *)
Lemma C115_stops : forall (S V : Type) (f : function S V) a b, catches_nothing f -> fired (run f a) = 1 -> 3 <= steps_of_main b ->
  exists o, over (run f (a ++ b)) o.
Proof.
  intros S0 V f a b CN F L. rewrite run_split. pose proof (inv_run f a) as I.
  assert (Q : forall b k x, inv f x -> fired x = 1 -> k <= steps_of_main b ->
    match at_ x with Before => False | Inside s => pending x = true /\ k = 3 | Finally _ => 2 <= k | Leaving _ => 1 <= k | Caller _ => True end -> exists o, over (fold_left (step f) b x) o).
  { clear - CN. induction b as [|e b IH]; intros k x I F L P.
    - cbn in L. destruct (at_ x) eqn:Ea; try lia. eexists. cbn. unfold over. eauto.
    - cbn [fold_left]. assert (T : timer_ x = Ended) by (apply I; auto). pose proof (inv_step f x e I) as I'.
      destruct e.
      + unfold steps_of_main in L. cbn [filter length] in L. cbn [step] in *. destruct (pending x) eqn:Pe.
        * unfold main_interrupted in *. destruct (at_ x) as [|s|o|o|o] eqn:Ea; [tauto| | | |].
          -- rewrite CN in *. apply (IH (k - 1)); auto; try (unfold steps_of_main; lia); cbn; lia.
          -- apply (IH (k - 1)); auto; try (unfold steps_of_main; lia); cbn; lia.
          -- apply (IH (k - 1)); auto; try (unfold steps_of_main; lia); cbn; lia.
          -- apply (IH (k - 1)); auto; try (unfold steps_of_main; lia); cbn; lia.
        * unfold main_step in *. destruct (at_ x) as [|s|o|o|o] eqn:Ea; [tauto|destruct P; discriminate| | |].
          -- apply (IH (k - 1)); auto; try (unfold steps_of_main; lia); cbn; lia.
          -- apply (IH (k - 1)); auto; try (unfold steps_of_main; lia); cbn; lia.
          -- apply (IH (k - 1)); auto; [unfold steps_of_main; lia|rewrite Ea; auto].
      + cbn [step] in *. rewrite T in *. apply (IH k); auto.
      + cbn [step] in *. rewrite T in *. apply (IH k); auto. }
  apply (Q b 3 (run f a) I F L). destruct (at_ (run f a)) as [|s|o|o|o] eqn:Ea; auto; try lia.
  - destruct (i_before _ _ I Ea). lia.
  - split; [|auto]. destruct (pending (run f a)) eqn:P; [auto|]. exfalso. destruct (hits (run f a)) eqn:Hh.
    + destruct (i_catch _ _ I CN F P Hh) as [(o & [E|[E|E]]) _]; congruence.
    + destruct (i_hits_caller _ _ I) as [o E]; [pose proof (i_hits _ _ I); lia|congruence].
Qed.
Lemma C115_endless : forall (S V : Type) (f : function S V) a b, catches_nothing f -> endless f -> fired (run f a) = 1 -> 3 <= steps_of_main b ->
  over (run f (a ++ b)) Interrupted.
Proof.
  intros S0 V f a b CN EL F L. destruct (C115_stops S0 V f a b CN F L) as [o O]. destruct (C115_outcome S0 V f (a ++ b) o CN O) as [[n E]|[-> _]]; [|auto].
  exfalso. revert E. generalize (start f). induction n as [|n IH]; intros s E; [auto|]. cbn in E. destruct (EL s) as [s' Es]. rewrite Es in E. eauto.
Qed.
(** no timer is left armed *)
Lemma C115_cancelled : forall (S V : Type) (f : function S V) es o, over (run f es) o -> finished (run f es) = true \/ timer_ (run f es) = Ended.
Proof. intros S0 V f es o O. apply (i_over _ _ (inv_run f es)). exists o. auto. Qed.
(** a function that has returned can still be interrupted, and so can the caller after the call *)
Lemma C115_race_witness : exists (f : function unit nat), catches_nothing f /\ own_outcome f (Returns 7) /\
  (exists es, over (run f es) Interrupted) /\ (exists es, over (run f es) (Returns 7) /\ finished (run f es) = true /\ hits (run f es) = 1).
Proof.
  exists (Function unit nat tt (fun _ => inr (Returns 7)) (fun _ => inr Interrupted)). split; [intros s; reflexivity|]. split; [exists 1; reflexivity|]. split.
  - exists [Main; Elapse; Main; Fire; Main; Main]. reflexivity.
  - exists [Main; Main; Elapse; Main; Main; Fire; Main]. repeat split; reflexivity.
Qed.
(** a function that handles the interrupt can run for ever *)
Lemma C115_catch_witness : exists (f : function nat nat), forall es o, ~ over (run f es) o.
Proof.
  exists (Function nat nat 0 (fun n => inl (S n)) (fun n => inl (S n))). intros es o. unfold over, run.
  assert (Q : forall es (x : state nat nat), (at_ x = Before \/ exists s, at_ x = Inside s) -> (at_ x = Before -> pending x = false /\ timer_ x = Idle) ->
    let y := fold_left (step (Function nat nat 0 (fun n => inl (S n)) (fun n => inl (S n)))) es x in at_ y = Before \/ exists s, at_ y = Inside s).
  { clear. induction es as [|e es IH]; intros x A B; [auto|]. cbn [fold_left]. apply IH.
    - destruct e; cbn [step]; [|destruct (timer_ x); auto|destruct (timer_ x); auto].
      destruct (pending x) eqn:P; unfold main_interrupted, main_step; destruct A as [A|[s A]]; rewrite A; cbn; eauto. destruct (B A). discriminate.
    - destruct e; cbn [step].
      + destruct (pending x) eqn:P; unfold main_interrupted, main_step; destruct A as [A|[s A]]; rewrite A; cbn; try discriminate.
      + destruct (timer_ x) eqn:T; cbn; intros Q; destruct (B Q); split; congruence.
      + destruct (timer_ x) eqn:T; cbn; intros Q; destruct (B Q); split; congruence. }
  destruct (Q es initial) as [E|[s E]]; cbn; auto; rewrite E; discriminate.
Qed.
