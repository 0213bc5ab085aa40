(** Model of prolothar_common/experiments/stopwatch.py.  [clock i] is what the
    [i]-th call of [datetime.now()] gives, in microseconds; nothing is said
    about the clock, which can be set while the program runs. *)
From Coq Require Import ZArith.
From Verif.Model Require Import Base.
Open Scope list_scope.
Open Scope nat_scope.

(** 21-22: no [start_time] at first; the number of calls of the clock so far *)
Record stopwatch := Stopwatch { start_time : option Z; readings : nat }.
Definition new_stopwatch (k : nat) : stopwatch := Stopwatch None k.
Section S.
  Variable clock : nat -> Z.
  (** 24-25 *)
  Definition start (w : stopwatch) : stopwatch := Stopwatch (Some (clock (readings w))) (S (readings w)).
  (** 27-28: the clock is read before [self.start_time] *)
  Definition get_elapsed_time (w : stopwatch) : stopwatch * result Z :=
    let now := clock (readings w) in
    (Stopwatch (start_time w) (S (readings w)),
     do s <- of_option AttributeError (start_time w) ; Ok (now - s)%Z).

  (** calls, and other readings of the clock in between *)
  Inductive call := Start | Elapsed | OtherReading.
  Definition step (w : stopwatch) (c : call) : stopwatch * list (result Z) :=
    match c with
    | Start => (start w, [])
    | Elapsed => let '(w', r) := get_elapsed_time w in (w', [r])
    | OtherReading => (Stopwatch (start_time w) (S (readings w)), [])
    end.
  (** what the calls of [get_elapsed_time] give *)
  Fixpoint run (w : stopwatch) (cs : list call) : list (result Z) :=
    match cs with
    | [] => []
    | c :: cs' => let '(w', r) := step w c in r ++ run w' cs'
    end.
End S.
