(** Model of prolothar_common/models/eventlog/complex_event.pyx together with
    the comparisons of events and traces: event.pyx 31-38, trace.pyx 74-75.
    [EventLog] has logs without complex events.  Values of attributes are equal
    to themselves, so it does not matter that Python takes the elements of two
    lists as equal without a comparison if they are the same object. *)
From Coq Require Import String.
From Verif.Model Require Import Base EventLog.
Open Scope list_scope.
Open Scope nat_scope.

Section C.
  Context {A V I : Type} `{EA : Eq A} `{EV : Eq V}.
  (** complex_event.pyx 23-28 and complex_event.pxd *)
  Inductive any_event :=
  | Simple (e : event A V)
  | Complex (a : A) (d : attrs V) (tr : option string) (children : list any_event).
  (** complex_event.pyx 23-28 *)
  Definition complex_event (a : A) (children : list any_event) (d : attrs V) (tr : option string) : result any_event :=
    match children with [] => Err ValueError | _ => Ok (Complex a d tr children) end.
  Definition activity_name (x : any_event) : A := match x with Simple e => activity e | Complex a _ _ _ => a end.
  Definition attributes (x : any_event) : attrs V := match x with Simple e => ev_attrs e | Complex _ d _ _ => d end.

  (** [l == m] for lists of the same length: the elements are compared one
      after the other up to the first difference *)
  Definition compare_elements {X} (eq : X -> X -> result bool) : list X -> list X -> result bool :=
    fix go l m := match l, m with
                  | x :: l', y :: m' => do b <- eq x y ; if b then go l' m' else Ok false
                  | _, _ => Ok true
                  end.
  (** [l == m]: lists of different lengths are different without a look at the
      elements *)
  Definition compare_lists {X} (eq : X -> X -> result bool) (l m : list X) : result bool :=
    if length l =? length m then compare_elements eq l m else Ok false.
  (** [x == y].  If one of them is a [ComplexEvent], its [__eq__] is used, also
      if it is the right one, because Python prefers the method of a subclass.
      event.pyx 31-35 and complex_event.pyx 30-33, where [other.children] raises
      if the other one is no [ComplexEvent]; it does not look at transitions. *)
  Fixpoint compare_events (x y : any_event) : result bool :=
    match x, y with
    | Simple e, Simple f => Ok (event_eqb e f)
    | Simple e, Complex a _ _ _ => if eqb a (activity e) then Err AttributeError else Ok false
    | Complex a _ _ _, Simple f => if eqb a (activity f) then Err AttributeError else Ok false
    | Complex a d _ cs, Complex b e _ es =>
        if eqb a b then
          do same <- (if length cs =? length es then compare_elements compare_events cs es else Ok false) ;
          if same then Ok (attrs_eqb d e) else Ok false
        else Ok false
    end.
  (** event.pyx 37-38, complex_event.pyx 35-36; [hash_pair] is the hash of a
      pair of name and [frozendict] *)
  Definition hash_event (hash_name : A -> Z) (hash_pair : A -> attrs V -> Z) (x : any_event) : Z :=
    match x with Simple e => hash_pair (activity e) (ev_attrs e) | Complex a _ _ _ => hash_name a end.
  (** event.pyx 40-52: [Event.create_from_dict(x.to_dict())]; [to_dict] is
      inherited by [ComplexEvent] *)
  Definition reread_event (x : any_event) : any_event := Simple (Event (activity_name x) (attributes x) None).

  (** trace.pyx 22-35 *)
  Record any_trace := AnyTrace { at_id : I; at_events : list any_event; at_attrs : attrs V }.
  (** trace.pyx 74-75 *)
  Definition compare_traces (t u : any_trace) : result bool :=
    do same <- compare_lists compare_events (at_events t) (at_events u) ;
    if same then Ok (attrs_eqb (at_attrs t) (at_attrs u)) else Ok false.
  (** trace.pyx 86-102 *)
  Definition reread_trace (t : any_trace) : result any_trace :=
    match at_events t with
    | [] => Err ValueError
    | es => Ok (AnyTrace (at_id t) (map reread_event es) (at_attrs t))
    end.
End C.
Arguments any_event A V : clear implicits.
Arguments any_trace A V I : clear implicits.
