(** What the conversions between event logs and tables and the statistics of
    logs are meant to do *)
From Coq Require Import QArith String Permutation Sorted.
From Verif.Model Require Import Base EventLog LogTables.
From Verif.Spec Require Import Lists Logs EventLogSpec.
Open Scope list_scope.
Open Scope nat_scope.

Section S.
  Context {C : Type}.
  Notation log := (log C C C).
  Notation trace := (trace C C C).
  Notation event := (event C C).
  Definition total_order (leb : C -> C -> bool) : Prop :=
    (forall x y, leb x y = true \/ leb y x = true) /\ (forall x y z, leb x y = true -> leb y z = true -> leb x z = true) /\
    (forall x y, leb x y = true -> leb y x = true -> x = y).
  (** in ascending order without repetitions *)
  Definition increasing (leb : C -> C -> bool) (l : list C) : Prop := StronglySorted (fun x y => leb x y = true /\ x <> y) l.
  Definition sorted_names (ns : list string) : Prop := NoDup ns /\ StronglySorted (fun a b => String.leb a b = true) ns.
  (** the events in the order of the log, with their traces *)
  Definition log_events (l : log) : list (trace * event) := flat_map (fun t => map (pair t) (events t)) l.
  (** all traces have the attributes [tn], all events the attributes [en] *)
  Definition uniform (tn en : list string) (l : log) : Prop :=
    forall t, In t l -> Permutation (keys (tr_attrs t)) tn /\ forall e, In e (events t) -> Permutation (keys (ev_attrs e)) en.
  Definition values_for (d : attrs C) (names : list string) (vs : list C) : Prop :=
    Forall2 (fun n v => dict_get n d = Some v) names vs.
  (** the row of an event: trace id if wanted, the values of the trace, the
      activity, the values of the event *)
  Definition row_of (append : bool) (tn en : list string) (te : trace * event) (row : list C) : Prop :=
    exists tv ev, values_for (tr_attrs (fst te)) tn tv /\ values_for (ev_attrs (snd te)) en ev /\
      row = (if append then [tid (fst te)] else []) ++ tv ++ [activity (snd te)] ++ ev.
  Definition rectangular (f : frame C) : Prop := Forall (fun r => length r = length (columns f)) (rows f).
  (** the value of a row in the first column with a name *)
  Definition under (f : frame C) (name : string) (row : list C) (v : C) : Prop :=
    exists pre post, columns f = pre ++ name :: post /\ ~ In name pre /\ nth_error row (length pre) = Some v.
  (** columns that can be read by name after grouping by [case] *)
  Definition readable (identifier : string -> bool) (f : frame C) (case name : string) : Prop :=
    identifier name = true /\ name <> case /\ In name (columns f).
  (** the rows of the case [k], in order *)
  Definition case_rows (f : frame C) (case : string) (k : C) (rs : list (list C)) : Prop :=
    selection (rows f) rs (fun _ r => under f case r k).
  (** which value of an attribute an event gets from a cell *)
  Definition kept (none : C) (add_none : bool) (v : C) (o : option C) : Prop :=
    (add_none = true \/ v <> none -> o = Some v) /\ (add_none = false -> v = none -> o = None).
  Definition occurs_in (a : C) (t : trace) : Prop := In a (map activity (events t)).
  Definition starts_with (a : C) (t : trace) : Prop := exists e es, events t = e :: es /\ activity e = a.
  Definition ends_with (a : C) (t : trace) : Prop := exists e es, events t = es ++ [e] /\ activity e = a.
  (** how many elements of a list have a property *)
  Inductive counted {X} (P : X -> Prop) : list X -> nat -> Prop :=
  | cn_nil : counted P [] 0
  | cn_yes x l n : P x -> counted P l n -> counted P (x :: l) (S n)
  | cn_no x l n : ~ P x -> counted P l n -> counted P (x :: l) n.
  (** the trace id is the id of the trace object or one of its attributes *)
  Definition identified (attribute : option string) (tn en : list string) (l : log) (trace_id : trace -> C) : Prop :=
    ~ In "Activity"%string (tn ++ en) /\
    match attribute with
    | None => ~ In "trace"%string (tn ++ en) /\ forall t, In t l -> trace_id t = tid t
    | Some name => In name tn /\ ~ In name en /\ forall t, In t l -> dict_get name (tr_attrs t) = Some (trace_id t)
    end.
  (** the value of an attribute of an event or of its trace *)
  Definition has_value (x : string) (te : trace * event) (v : C) : Prop :=
    dict_get x (ev_attrs (snd te)) = Some v \/ dict_get x (tr_attrs (fst te)) = Some v.
End S.
(** [o] is the number [a / b] *)
Definition ratio (o : option Q) (a b : nat) : Prop :=
  0 < b /\ exists q, o = Some q /\ (q == inject_Z (Z.of_nat a) / inject_Z (Z.of_nat b))%Q.
Definition total (l : list (option Q)) (s : Q) : Prop :=
  exists qs, l = map Some qs /\ (fold_right Qplus 0 qs == s)%Q.
