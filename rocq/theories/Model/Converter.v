(** Model of prolothar_common/models/converter/dataset_to_eventlog_converter.py.
    The attributes of a trace are the feature dict of the instance itself
    (instance.pyx 37-38, trace.pyx 34), not a copy; a trace therefore holds the
    address of the instance in the heap of Model/Dataset. *)
From Coq Require Import String.
From Verif.Model Require Import Base EventLog Dataset.
Open Scope list_scope.

Section C.
  Context {I V : Type}.
  Record made_trace := Made { made_id : I; made_events : list (EventLog.event string V); made_attrs : nat }.
  (** 35-41; [it] is the order in which the dataset lists its instances,
      trace.pyx 31-32 raises the ValueError *)
  Definition convert (h : heap I V (list string)) (it : list nat) : result (list made_trace) :=
    mapM (fun a =>
      do x <- of_option AttributeError (nth_error h a) ;
      match map EventLog.new_event (target x) with
      | [] => Err ValueError
      | es => Ok (Made (iid x) es a)
      end) it.
  (** what is found under [trace.attributes] when the heap is [h] *)
  Definition attributes_in (h : heap I V (list string)) (t : made_trace) : option (dict string V) :=
    option_map feats (nth_error h (made_attrs t)).
End C.
Arguments made_trace : clear implicits.
