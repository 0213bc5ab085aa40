(** Vocabulary for event logs as objects *)
From Coq Require Import QArith.
From Verif.Model Require Import Base EventLog LogNoise LogObjects.
Open Scope nat_scope.

Section S.
  Context {A V I : Type} `{Eq A}.
  (** every object of the log exists *)
  Definition exists_in (s : store A V I) (l : list nat) : Prop :=
    forall t, In t l -> t < next s /\ o_events (trs s t) < next s /\ o_tattrs (trs s t) < next s /\
      forall e, In e (contents s t) -> e < next s /\ o_attrs (evs s e) < next s.
  (** no trace object occurs twice, and no two traces have the same list
      object of events; events may be shared *)
  Definition own_lists (s : store A V I) (l : list nat) : Prop :=
    NoDup l /\ NoDup (map (fun t => o_events (trs s t)) l).
  (** no dictionary object is used twice, neither by events nor by traces *)
  Definition own_dicts (s : store A V I) (l : list nat) : Prop :=
    NoDup (flat_map (fun t => o_tattrs (trs s t) :: map (fun e => o_attrs (evs s e)) (contents s t)) l).
  (** the logs have no object that can be changed in common, events apart *)
  Definition no_common (s : store A V I) (l m : list nat) : Prop :=
    (forall t, In t l -> ~ In t m) /\
    forall t u, In t l -> In u m -> o_events (trs s t) <> o_events (trs s u).

  (** what a method does with a log as a value *)
  Definition edited (x : edit A) (l : log A V I) : log A V I :=
    match x with
    | CutTraces a b => cut_traces a b l
    | FilterActivities a b => filter_activities a b l
    | AddStart a => add_start_activity a l
    | AddEnd a => add_end_activity a l
    | KeepFirst => keep_first_occurence l
    | ApplyNoise n => LogNoise.apply n l
    end.
  (** a program that works with two logs and edits the first or the second *)
  Inductive which := First | Second.
  Fixpoint run (h : list (which * edit A)) (s : store A V I) (l m : list nat) : store A V I * list nat * list nat :=
    match h with
    | [] => (s, l, m)
    | (First, x) :: h' => let '(s1, l1) := do_edit x s l in run h' s1 l1 m
    | (Second, x) :: h' => let '(s1, m1) := do_edit x s m in run h' s1 l m1
    end.
  (** the edits of one of the two, in their order *)
  Definition edits_of (w : which) (h : list (which * edit A)) : list (edit A) :=
    flat_map (fun '(v, x) => match v, w with First, First | Second, Second => [x] | _, _ => [] end) h.
  Definition edited_all (xs : list (edit A)) (l : log A V I) : log A V I := fold_left (fun l x => edited x l) xs l.

  (** what an edit other than noise does with a single trace *)
  Definition edited_trace (x : edit A) (t : trace A V I) : trace A V I :=
    match x with
    | CutTraces a b =>
        let t1 := match a with None => t | Some acts => with_events t (slice_from (events t) (get_first_index t acts)) end in
        match b with None => t1 | Some acts => with_events t1 (slice_to (events t1) (get_last_index t1 acts + 1)) end
    | FilterActivities a _ => with_events t (filter (fun e => mem (activity e) a) (events t))
    | AddStart a => with_events t (new_event a :: events t)
    | AddEnd a => with_events t (events t ++ [new_event a])
    | KeepFirst => with_events t (keep_first_events (events t))
    | ApplyNoise _ => t
    end.
  Definition is_noise (x : edit A) : Prop := match x with ApplyNoise _ => True | _ => False end.
  (** the same trace with events that do not belong to a transition of a net *)
  Definition without_transitions (t : trace A V I) : trace A V I :=
    with_events t (map (fun e => Event (activity e) (ev_attrs e) None) (events t)).
End S.
