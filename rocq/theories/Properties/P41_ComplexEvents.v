(** Property C149: events with sub-events *)
From Coq Require Import String ZArith.
From Verif.Model Require Import Base EventLog ComplexEvents.
From Verif.Spec Require Import EventLogSpec ComplexEventSpec.
From Verif.Proofs Require ComplexA.
Open Scope string_scope.
Open Scope list_scope.
Open Scope nat_scope.

(** C149: Comparisons of events with sub-events *)
(** [complex_event] *)
Theorem C149_create : forall (A V : Type) (a : A) (cs : list (any_event A V)) d tr,
  (cs = [] -> complex_event a cs d tr = Err ValueError) /\ (cs <> [] -> complex_event a cs d tr = Ok (Complex a d tr cs)).
Proof. exact @ComplexA.C149_create. Qed.
Print Assumptions C149_create.
(** which events are equal *)
Theorem C149_equal : forall (A V : Type) (EA : Eq A) (EV : Eq V) (x y : any_event A V), proper x -> proper y ->
  compare_events x y = Ok true <-> same_any x y.
Proof. exact @ComplexA.C149_equal. Qed.
Print Assumptions C149_equal.
(** the comparison raises an exception exactly if an event with sub-events
    meets one without them *)
Theorem C149_raises : forall (A V : Type) (EA : Eq A) (EV : Eq V) (x y : any_event A V) r, proper x -> proper y ->
  compare_events x y = Err r <-> r = AttributeError /\ clash x y.
Proof. exact @ComplexA.C149_raises. Qed.
Print Assumptions C149_raises.
(** it does not matter which one is on the left, and being equal is an
    equivalence *)
Theorem C149_equivalence : forall (A V : Type) (EA : Eq A) (EV : Eq V) (x y z : any_event A V), proper x -> proper y -> proper z ->
  compare_events x x = Ok true /\ compare_events x y = compare_events y x /\
  (compare_events x y = Ok true -> compare_events y z = Ok true -> compare_events x z = Ok true).
Proof. exact @ComplexA.C149_equivalence. Qed.
Print Assumptions C149_equivalence.
(** equal events have equal hashes *)
Theorem C149_hash : forall (A V : Type) (EA : Eq A) (EV : Eq V) hash_name (hash_pair : A -> attrs V -> Z) (x y : any_event A V), proper x -> proper y ->
  (forall a d e, same_attrs d e -> hash_pair a d = hash_pair a e) -> compare_events x y = Ok true ->
  hash_event hash_name hash_pair x = hash_event hash_name hash_pair y.
Proof. exact @ComplexA.C149_hash. Qed.
Print Assumptions C149_hash.
(** traces: events, then attributes *)
Theorem C149_traces : forall (A V I : Type) (EA : Eq A) (EV : Eq V) (t u : any_trace A V I), proper_any_trace t -> proper_any_trace u ->
  (compare_traces t u = Ok true <-> Forall2 same_any (at_events t) (at_events u) /\ same_attrs (at_attrs t) (at_attrs u)) /\
  (forall r, compare_traces t u = Err r <-> r = AttributeError /\ first_pair same_any clash (at_events t) (at_events u)).
Proof. exact @ComplexA.C149_traces. Qed.
Print Assumptions C149_traces.
(** events and traces read back from dictionaries have lost the sub-events, and
    cannot be compared with the original if there were any *)
Theorem C149_reread : forall (A V : Type) (EA : Eq A) (EV : Eq V) (x : any_event A V), proper x ->
  (is_complex x -> compare_events x (reread_event x) = Err AttributeError) /\
  (~ is_complex x -> compare_events x (reread_event x) = Ok (match x with Simple e => match transition e with None => true | Some _ => false end | _ => false end)).
Proof. exact @ComplexA.C149_reread. Qed.
Print Assumptions C149_reread.
Theorem C149_reread_trace : forall (A V I : Type) (EA : Eq A) (EV : Eq V) (t u : any_trace A V I), proper_any_trace t ->
  reread_trace t = Ok u -> Forall (fun x => match x with Simple e => transition e = None | _ => True end) (at_events t) ->
  compare_traces t u = if existsb (fun x => match x with Simple _ => false | _ => true end) (at_events t) then Err AttributeError else Ok true.
Proof. exact @ComplexA.C149_reread_trace. Qed.
Print Assumptions C149_reread_trace.

(** an order that consists of packing and shipping, once with other transitions
    and once with packing as an event with a sub-event *)
Definition pack : any_event string nat := Simple (Event "pack" [("cost", 1)] None).
Definition ship : any_event string nat := Simple (Event "ship" [] None).
Definition order1 := Complex "order" [("a", 1); ("b", 2)] (Some "t1") [pack; ship].
Definition order2 := Complex "order" [("b", 2); ("a", 1)] (Some "t2") [pack; ship].
Definition order3 := Complex "order" [("a", 1); ("b", 2)] None [Complex "pack" [("cost", 1)] None [ship]; ship].
Definition order4 := Complex "order" [("a", 1); ("b", 2)] None [ship; pack].
Example C149_example : proper order1 /\ proper order2 /\ proper order3 /\ proper order4 /\
  complex_event "order" [pack; ship] [("a", 1); ("b", 2)] (Some "t1") = Ok order1 /\
  compare_events order1 order2 = Ok true /\ same_any order1 order2 /\
  compare_events order1 order3 = Err AttributeError /\ clash order1 order3 /\
  compare_events order1 order4 = Ok false /\
  compare_traces (AnyTrace 1 [order1; pack] []) (AnyTrace 2 [order2; pack] []) = Ok true /\
  compare_traces (AnyTrace 1 [order1; pack] []) (AnyTrace 2 [order2] []) = Ok false /\
  (do u <- reread_trace (AnyTrace 1 [pack; order1] []) ; compare_traces (AnyTrace 1 [pack; order1] []) u) = Err AttributeError /\
  (do u <- reread_trace (AnyTrace 1 [pack; ship] []) ; compare_traces (AnyTrace 1 [pack; ship] []) u) = Ok true.
Proof.
  assert (P1 : proper order1) by (repeat constructor; cbn; intuition discriminate).
  assert (P2 : proper order2) by (repeat constructor; cbn; intuition discriminate).
  assert (P3 : proper order3) by (repeat constructor; cbn; intuition discriminate).
  assert (P4 : proper order4) by (repeat constructor; cbn; intuition discriminate).
  assert (S : same_any order1 order2) by (apply (C149_equal _ _ _ _ order1 order2 P1 P2); reflexivity).
  assert (C : clash order1 order3) by (apply (C149_raises _ _ _ _ order1 order3 AttributeError P1 P3); reflexivity).
  repeat (split; [first [assumption|reflexivity]|]). reflexivity.
Qed.
