(** Model of prolothar_common/lognoise/*.py.  The random generator of a noise
    object is a stream of numbers [rand : nat -> Q] (the values uniform(0,1)
    will return) and a position in it. *)
From Coq Require Import QArith.
From Verif.Model Require Import Base EventLog.
Open Scope nat_scope.

Section N.
  Context {A V I : Type}.
  Notation trace := (trace A V I).
  Notation log := (log A V I).
  Notation event := (event A V).

  Definition Qlt_bool (x y : Q) : bool := negb (Qle_bool y x).

  (** [n] numbers from position [k] on *)
  Definition draw (rand : nat -> Q) (k n : nat) : list Q := map rand (seq k n).

  (** add_activity.py 42-44, remove_events.py 38-40, swap_events.py 38-40 *)
  Definition check_probability (p : Q) : result Q :=
    if Qlt_bool p 0 || Qle_bool 1 p then Err ValueError else Ok p.

  Inductive noise :=
  | AddActivity (a : A) (p : Q) (rand : nat -> Q)
  | RemoveEvents (p : Q) (rand : nat -> Q)
  | SwapEvents (p : Q) (rand : nat -> Q)
  | CombinedNoise (ns : list noise).

  (** constructors: add_activity.py 27-44, remove_events.py 27-40,
      swap_events.py 27-40, combined_noise.py 27-38 *)
  Definition new_add (a : A) (p : Q) (rand : nat -> Q) : result noise :=
    do p <- check_probability p ; Ok (AddActivity a p rand).
  Definition new_remove (p : Q) (rand : nat -> Q) : result noise :=
    do p <- check_probability p ; Ok (RemoveEvents p rand).
  Definition new_swap (p : Q) (rand : nat -> Q) : result noise :=
    do p <- check_probability p ; Ok (SwapEvents p rand).
  Definition new_combined (ns : list noise) : result noise :=
    match ns with [] => Err ValueError | _ => Ok (CombinedNoise ns) end.

  (** add_activity.py 51-59 *)
  Definition add_on_trace (a : A) (p : Q) (us : list Q) (es : list event) : list event :=
    flat_map (fun '(e, u) => if Qlt_bool u p then [e; new_event a] else [e]) (combine es us).
  (** remove_events.py 48-51 *)
  Definition remove_on_trace (p : Q) (us : list Q) (es : list event) : list event :=
    map fst (filter (fun '(_, u) => Qle_bool p u) (combine es us)).
  (** swap_events.py 47-50: position i and i+1 exchanged for i = 0, 1, ... *)
  Definition swap_at {X} (l : list X) (i : nat) : list X :=
    firstn i l ++ match skipn i l with
                  | x :: y :: r => y :: x :: r
                  | r => r
                  end.
  Fixpoint swap_loop {X} (p : Q) (us : list Q) (i : nat) (l : list X) : list X :=
    match us with
    | [] => l
    | u :: us' => swap_loop p us' (S i) (if Qlt_bool u p then swap_at l i else l)
    end.
  Definition swap_on_trace {X} (p : Q) (us : list Q) (l : list X) : list X := swap_loop p us 0 l.

  (** the [for trace in log.traces] loop; [draws t] is how many numbers one
      trace consumes; returns the new position in the stream *)
  Fixpoint on_traces (rand : nat -> Q) (k : nat) (draws : list event -> nat)
    (f : list Q -> list event -> list event) (l : log) : log :=
    match l with
    | [] => []
    | t :: l' =>
      with_events t (f (draw rand k (draws (events t))) (events t))
      :: on_traces rand (k + draws (events t)) draws f l'
    end.

  (** add_activity.py 46-49, remove_events.py 42-46, swap_events.py 42-45,
      combined_noise.py 40-42. Each noise object starts with the fresh stream
      it was created with (first call of apply). *)
  Fixpoint apply (n : noise) (l : log) : log :=
    match n with
    | AddActivity a p rand =>
        if Qlt_bool 0 p then on_traces rand 0 (@length event) (add_on_trace a p) l else l
    | RemoveEvents p rand =>
        if Qlt_bool 0 p then
          filter non_empty (on_traces rand 0 (@length event) (remove_on_trace p) l)
        else l
    | SwapEvents p rand =>
        if Qlt_bool 0 p then
          on_traces rand 0 (fun es => length es - 1) (swap_on_trace p) l
        else l
    | CombinedNoise ns => fold_left (fun l n => apply n l) ns l
    end.
End N.
Arguments noise : clear implicits.
