(** Property C115: timeouts *)
From Verif.Model Require Import Base Timeout.
From Verif.Spec Require Import TimeoutSpec.
From Verif.Proofs Require TimeA.
Open Scope list_scope.
Open Scope nat_scope.

(** C115: Timeouts *)
(** a call ends as the function ends, or it is interrupted because the time was over *)
Theorem C115_outcome : forall (S V : Type) (f : function S V) es o, catches_nothing f -> over (run f es) o ->
  own_outcome f o \/ (o = Interrupted /\ fired (run f es) = 1).
Proof. exact @TimeA.C115_outcome. Qed.
Print Assumptions C115_outcome.
(** there is at most one interrupt *)
Theorem C115_once : forall (S V : Type) (f : function S V) es, fired (run f es) <= 1 /\ hits (run f es) <= fired (run f es).
Proof. exact @TimeA.C115_once. Qed.
Print Assumptions C115_once.
(** when the function ends and the timer is cancelled in time, nobody is interrupted, then or later *)
Theorem C115_in_time : forall (S V : Type) (f : function S V) a b, ~ In Elapse a -> finished (run f a) = true ->
  fired (run f (a ++ b)) = 0 /\ hits (run f (a ++ b)) = 0 /\ pending (run f (a ++ b)) = false /\
  forall o, over (run f (a ++ b)) o -> own_outcome f o.
Proof. exact @TimeA.C115_in_time. Qed.
Print Assumptions C115_in_time.
(** after the interrupt the call is over within three steps *)
Theorem C115_stops : forall (S V : Type) (f : function S V) a b, catches_nothing f -> fired (run f a) = 1 -> 3 <= steps_of_main b ->
  exists o, over (run f (a ++ b)) o.
Proof. exact @TimeA.C115_stops. Qed.
Print Assumptions C115_stops.
Theorem C115_endless : forall (S V : Type) (f : function S V) a b, catches_nothing f -> endless f -> fired (run f a) = 1 -> 3 <= steps_of_main b ->
  over (run f (a ++ b)) Interrupted.
Proof. exact @TimeA.C115_endless. Qed.
Print Assumptions C115_endless.
(** no timer is left armed *)
Theorem C115_cancelled : forall (S V : Type) (f : function S V) es o, over (run f es) o -> finished (run f es) = true \/ timer_ (run f es) = Ended.
Proof. exact @TimeA.C115_cancelled. Qed.
Print Assumptions C115_cancelled.
(** a function that has returned can still be interrupted, and so can the caller after the call *)
Theorem C115_race_witness : exists (f : function unit nat), catches_nothing f /\ own_outcome f (Returns 7) /\
  (exists es, over (run f es) Interrupted) /\ (exists es, over (run f es) (Returns 7) /\ finished (run f es) = true /\ hits (run f es) = 1).
Proof. exact @TimeA.C115_race_witness. Qed.
Print Assumptions C115_race_witness.
(** a function that handles the interrupt can run for ever *)
Theorem C115_catch_witness : exists (f : function nat nat), forall es o, ~ over (run f es) o.
Proof. exact @TimeA.C115_catch_witness. Qed.
Print Assumptions C115_catch_witness.
(** counts to three and returns *)
Definition counts : function nat nat := Function nat nat 0 (fun n => if n <? 3 then inl (S n) else inr (Returns n)) (fun _ => inr Interrupted).
Definition spins : function nat nat := Function nat nat 0 (fun n => inl (S n)) (fun _ => inr Interrupted).
Example C115_example : catches_nothing counts /\ own_outcome counts (Returns 3) /\
  finished (run counts [Main; Main; Main; Main; Main; Main]) = true /\ ~ In Elapse [Main; Main; Main; Main; Main; Main] /\
  over (run counts [Main; Main; Main; Main; Main; Main; Main; Elapse; Fire; Main]) (Returns 3).
Proof.
  split; [intros s; reflexivity|]. split; [exists 4; reflexivity|]. split; [reflexivity|]. split; [|reflexivity]. cbn. intuition discriminate.
Qed.
Example C115_example_endless : catches_nothing spins /\ endless spins /\ fired (run spins [Main; Main; Elapse; Main; Fire]) = 1 /\
  over (run spins ([Main; Main; Elapse; Main; Fire] ++ [Main; Main; Main])) Interrupted.
Proof. split; [intros s; reflexivity|]. split; [intros s; eexists; reflexivity|]. split; reflexivity. Qed.
