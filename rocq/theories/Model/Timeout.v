(** Model of prolothar_common/timeout.py together with [threading.Timer] and
    [interrupt_main]: two threads whose steps are interleaved in any way.

    [Timer.run] is [self.finished.wait(interval); if not self.finished.is_set():
    self.function()] and [Timer.cancel] is [self.finished.set()].
    [interrupt_main] makes the main thread raise a KeyboardInterrupt at its next
    step.  The decorated function is called in the main thread.  It is any state
    machine; [catch] says what it does when the KeyboardInterrupt reaches it.
    No other source of interrupts and no other timers are modelled. *)
From Verif.Model Require Import Base.
Open Scope list_scope.

(** how a call ends *)
Inductive outcome (V : Type) := Returns (v : V) | Throws (e : error) | Interrupted.
Arguments Returns {V}. Arguments Throws {V}. Arguments Interrupted {V}.
Record function (S V : Type) := Function { start : S; go : S -> S + outcome V; catch : S -> S + outcome V }.
Arguments start {S V}. Arguments go {S V}. Arguments catch {S V}.
Section T.
  Context {S V : Type}.
  Variable f : function S V.
  (** 38-45: before line 40, in line 42, before line 44, before line 45, in the caller *)
  Inductive place := Before | Inside (s : S) | Finally (o : outcome V) | Leaving (o : outcome V) | Caller (o : outcome V).
  (** not started, in [wait], before the call of [function], ended *)
  Inductive timer := Idle | Waiting | Due | Ended.
  Record state := State { at_ : place; timer_ : timer; finished : bool; pending : bool; fired : nat; hits : nat }.
  Definition initial : state := State Before Idle false false 0 0.
  (** what happens next: a step of the main thread, the interval is over, or a step of the timer thread *)
  Inductive event := Main | Elapse | Fire.
  (** the main thread without an interrupt *)
  Definition main_step (x : state) : state :=
    match at_ x with
    | Before => State (Inside (start f)) Waiting (finished x) (pending x) (fired x) (hits x)
    | Inside s =>
      match go f s with
      | inl s' => State (Inside s') (timer_ x) (finished x) (pending x) (fired x) (hits x)
      | inr o => State (Finally o) (timer_ x) (finished x) (pending x) (fired x) (hits x)
      end
    | Finally o => State (Leaving o) (timer_ x) true (pending x) (fired x) (hits x)
    | Leaving o => State (Caller o) (timer_ x) (finished x) (pending x) (fired x) (hits x)
    | Caller o => x
    end.
  (** the KeyboardInterrupt is raised where the main thread is; [hits] counts those that reach the caller after the call has ended *)
  Definition main_interrupted (x : state) : state :=
    match at_ x with
    | Before => State (Caller Interrupted) (timer_ x) (finished x) false (fired x) (hits x)
    | Inside s =>
      match catch f s with
      | inl s' => State (Inside s') (timer_ x) (finished x) false (fired x) (hits x)
      | inr o => State (Finally o) (timer_ x) (finished x) false (fired x) (hits x)
      end
    | Finally o => State (Leaving Interrupted) (timer_ x) (finished x) false (fired x) (hits x)
    | Leaving o => State (Caller Interrupted) (timer_ x) (finished x) false (fired x) (hits x)
    | Caller o => State (Caller o) (timer_ x) (finished x) false (fired x) (hits x + 1)
    end.
  Definition step (x : state) (e : event) : state :=
    match e with
    | Main => if pending x then main_interrupted x else main_step x
    | Elapse =>
      match timer_ x with
      | Waiting => State (at_ x) (if finished x then Ended else Due) (finished x) (pending x) (fired x) (hits x)
      | _ => x
      end
    | Fire =>
      match timer_ x with
      | Due => State (at_ x) Ended (finished x) true (fired x + 1) (hits x)
      | _ => x
      end
    end.
  Definition run (es : list event) : state := fold_left step es initial.
End T.
Arguments place : clear implicits.
Arguments state : clear implicits.
