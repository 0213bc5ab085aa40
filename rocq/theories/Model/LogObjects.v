(** Model of prolothar_common/models/eventlog/{event.pyx,trace.pyx,eventlog.py}
    and prolothar_common/lognoise/*.py with objects: events, traces, lists of
    events and dictionaries of attributes are objects that several traces and
    logs can share, and the methods of a log change them.  [EventLog] and
    [LogNoise] describe the same methods on values.

    Every object has an address; one counter gives new addresses for all kinds
    of objects.  A log is the list of the addresses of its traces (no two
    [EventLog] objects have the same list object as [traces]). *)
From Coq Require Import String ZArith QArith.
From Verif.Model Require Import Base EventLog LogNoise.
Open Scope list_scope.
Open Scope nat_scope.

Section O.
  Context {A V I : Type} `{Eq A} `{Eq V}.

  (** event.pyx 21-25 and trace.pyx 33-35: the fields [attributes] and
      [events] hold references *)
  Record ev := Ev { o_act : A; o_attrs : nat; o_trans : option string }.
  Record tr := Tr { o_tid : I; o_events : nat; o_tattrs : nat }.
  Record store := Store {
    evs : nat -> ev; trs : nat -> tr; lsts : nat -> list nat; dcts : nat -> attrs V; next : nat }.

  Definition put {X} (f : nat -> X) (a : nat) (x : X) : nat -> X := fun b => if b =? a then x else f b.
  (** new objects *)
  Definition alloc_ev (x : ev) (s : store) : store * nat :=
    (Store (put (evs s) (next s) x) (trs s) (lsts s) (dcts s) (S (next s)), next s).
  Definition alloc_tr (x : tr) (s : store) : store * nat :=
    (Store (evs s) (put (trs s) (next s) x) (lsts s) (dcts s) (S (next s)), next s).
  Definition alloc_lst (x : list nat) (s : store) : store * nat :=
    (Store (evs s) (trs s) (put (lsts s) (next s) x) (dcts s) (S (next s)), next s).
  Definition alloc_dct (x : attrs V) (s : store) : store * nat :=
    (Store (evs s) (trs s) (lsts s) (put (dcts s) (next s) x) (S (next s)), next s).
  (** changes of objects: [trace.events = ..] (another list object), changes
      of a list object, changes of a dictionary object *)
  Definition set_events (t a : nat) (s : store) : store :=
    Store (evs s) (put (trs s) t (Tr (o_tid (trs s t)) a (o_tattrs (trs s t)))) (lsts s) (dcts s) (next s).
  Definition set_lst (a : nat) (x : list nat) (s : store) : store :=
    Store (evs s) (trs s) (put (lsts s) a x) (dcts s) (next s).
  Definition set_dct (a : nat) (x : attrs V) (s : store) : store :=
    Store (evs s) (trs s) (lsts s) (put (dcts s) a x) (next s).

  (** what is in the objects *)
  Definition contents (s : store) (t : nat) : list nat := lsts s (o_events (trs s t)).
  Definition view_event (s : store) (e : nat) : event A V :=
    Event (o_act (evs s e)) (dcts s (o_attrs (evs s e))) (o_trans (evs s e)).
  Definition view_trace (s : store) (t : nat) : trace A V I :=
    Trace (o_tid (trs s t)) (map (view_event s) (contents s t)) (dcts s (o_tattrs (trs s t))).
  Definition view_log (s : store) (l : list nat) : log A V I := map (view_trace s) l.

  (** [Event(activity)], event.pyx 21-25: with a new dictionary *)
  Definition new_event_obj (a : A) (s : store) : store * nat :=
    let '(s1, d) := alloc_dct [] s in alloc_ev (Ev a d None) s1.
  (** [trace.events = f(trace.events)] with a new list *)
  Definition rebind (f : list nat -> list nat) (s : store) (t : nat) : store :=
    let '(s1, a) := alloc_lst (f (contents s t)) s in set_events t a s1.
  (** a loop over the traces of a log, with some state of its own *)
  Fixpoint for_traces {X} (step : X -> store -> nat -> store * X) (x : X) (s : store) (l : list nat) : store :=
    match l with
    | [] => s
    | t :: l' => let '(s1, x1) := step x s t in for_traces step x1 s1 l'
    end.
  Definition for_each (step : store -> nat -> store) : store -> list nat -> store :=
    for_traces (fun (_ : unit) s t => (step s t, tt)) tt.
  (** [len(trace) > 0] *)
  Definition filled (s : store) (t : nat) : bool := negb (length (contents s t) =? 0).

  (** eventlog.py 110-115 and trace.pyx 22-35: [Trace(...)] raises for an
      empty list of events *)
  Definition copy_trace (s : store) (t : nat) : store * result nat :=
    let '(s1, a) := alloc_lst (contents s t) s in
    let '(s2, d) := alloc_dct (dcts s1 (o_tattrs (trs s1 t))) s1 in
    if filled s t then let '(s3, u) := alloc_tr (Tr (o_tid (trs s2 t)) a d) s2 in (s3, Ok u) else (s2, Err ValueError).
  Fixpoint copy (s : store) (l : list nat) : store * result (list nat) :=
    match l with
    | [] => (s, Ok [])
    | t :: l' =>
      match copy_trace s t with
      | (s1, Err x) => (s1, Err x)
      | (s1, Ok u) => match copy s1 l' with
                      | (s2, Err x) => (s2, Err x)
                      | (s2, Ok us) => (s2, Ok (u :: us))
                      end
      end
    end.

  (** eventlog.py 249-266 *)
  Definition cut_traces_obj (start_activities end_activities : option (list A)) (s : store) (l : list nat) : store * list nat :=
    let s1 := match start_activities with
              | None => s
              | Some acts => for_each (fun s t =>
                  rebind (fun es => slice_from es (get_first_index (view_trace s t) acts)) s t) s l
              end in
    let s2 := match end_activities with
              | None => s1
              | Some acts => for_each (fun s t =>
                  rebind (fun es => slice_to es (get_last_index (view_trace s t) acts + 1)) s t) s1 l
              end in
    (s2, filter (filled s2) l).
  (** eventlog.py 268-279 *)
  Definition filter_activities_obj (allowed : list A) (remove_empty_traces : bool) (s : store) (l : list nat) : store * list nat :=
    let s1 := for_each (fun s t => rebind (filter (fun e => mem (o_act (evs s e)) allowed)) s t) s l in
    (s1, if remove_empty_traces then filter (filled s1) l else l).
  (** eventlog.py 306-309: the list object of the trace is changed *)
  Definition add_start_activity_obj (a : A) (s : store) (l : list nat) : store :=
    for_each (fun s t => let '(s1, e) := new_event_obj a s in set_lst (o_events (trs s1 t)) (e :: contents s1 t) s1) s l.
  (** eventlog.py 311-314: the list object of the trace is changed *)
  Definition add_end_activity_obj (a : A) (s : store) (l : list nat) : store :=
    for_each (fun s t => let '(s1, e) := new_event_obj a s in set_lst (o_events (trs s1 t)) (contents s1 t ++ [e]) s1) s l.
  (** eventlog.py 316-327 *)
  Definition keep_first_obj (s : store) (l : list nat) : store :=
    for_each (fun s t => rebind (fun es =>
      snd (fold_left (fun '(seen, out) e =>
             if mem (o_act (evs s e)) seen then (seen, out)
             else (set_add (o_act (evs s e)) seen, out ++ [e])) es ([], []))) s t) s l.

  (** add_activity.py 51-59 *)
  Definition add_on_trace_obj (a : A) (p : Q) (us : list Q) (s : store) (t : nat) : store :=
    let '(s1, es) := fold_left (fun '(s, out) '(e, u) =>
        if Qlt_bool u p then let '(s', n) := new_event_obj a s in (s', out ++ [e; n]) else (s, out ++ [e]))
      (combine (contents s t) us) (s, []) in
    rebind (fun _ => es) s1 t.
  (** remove_events.py 48-51 *)
  Definition remove_on_trace_obj (p : Q) (us : list Q) (s : store) (t : nat) : store :=
    rebind (fun es => map fst (filter (fun '(_, u) => Qle_bool p u) (combine es us))) s t.
  (** swap_events.py 47-50: the list object of the trace is changed *)
  Definition swap_on_trace_obj (p : Q) (us : list Q) (s : store) (t : nat) : store :=
    set_lst (o_events (trs s t)) (swap_on_trace p us (contents s t)) s.
  (** the loop over the traces with a stream of random numbers and the
      position in it; [draws] is how many numbers a trace of a given length
      consumes *)
  Definition for_traces_random (rand : nat -> Q) (draws : nat -> nat) (f : list Q -> store -> nat -> store) (s : store) (l : list nat) : store :=
    for_traces (fun k s t => (f (draw rand k (draws (length (contents s t)))) s t, k + draws (length (contents s t)))) 0 s l.
  (** add_activity.py 46-49, remove_events.py 42-46, swap_events.py 42-45,
      combined_noise.py 40-42 *)
  Fixpoint apply_obj (n : noise A) (s : store) (l : list nat) : store * list nat :=
    match n with
    | AddActivity a p rand =>
        if Qlt_bool 0 p then (for_traces_random rand (fun n => n) (add_on_trace_obj a p) s l, l) else (s, l)
    | RemoveEvents p rand =>
        if Qlt_bool 0 p then
          let s1 := for_traces_random rand (fun n => n) (remove_on_trace_obj p) s l in (s1, filter (filled s1) l)
        else (s, l)
    | SwapEvents p rand =>
        if Qlt_bool 0 p then (for_traces_random rand (fun n => n - 1) (swap_on_trace_obj p) s l, l) else (s, l)
    | CombinedNoise ns => fold_left (fun '(s, l) n => apply_obj n s l) ns (s, l)
    end.

  (** the methods that change which events the traces of a log have *)
  Inductive edit :=
  | CutTraces (starts ends : option (list A))
  | FilterActivities (allowed : list A) (remove_empty_traces : bool)
  | AddStart (a : A) | AddEnd (a : A) | KeepFirst
  | ApplyNoise (n : noise A).
  Definition do_edit (x : edit) (s : store) (l : list nat) : store * list nat :=
    match x with
    | CutTraces a b => cut_traces_obj a b s l
    | FilterActivities a b => filter_activities_obj a b s l
    | AddStart a => (add_start_activity_obj a s l, l)
    | AddEnd a => (add_end_activity_obj a s l, l)
    | KeepFirst => (keep_first_obj s l, l)
    | ApplyNoise n => apply_obj n s l
    end.

  (** eventlog.py 352-368: the logs of the split hold the trace objects of the
      log itself; [rnd] and [shuffle] as in [EventLog.train_test_split] *)
  Definition train_test_split_obj (rnd : Q -> Q) (shuffle : list nat -> list nat) (p : Q) (l : list nat) : result (list nat * list nat) :=
    if negb (Qle_bool 0 p && Qle_bool p 1) then Err ValueError
    else
      let shuffled := shuffle l in
      let split_index := Qround.Qfloor (rnd (inject_Z (Z.of_nat (length shuffled)) * rnd (1 - p))%Q) in
      Ok (slice_to shuffled split_index, slice_from shuffled split_index).
  (** eventlog.py 393-404: so do the folds *)
  Definition k_folds_obj (k : Z) (l : list nat) : result (list (list nat * list nat)) :=
    if (k <? 2)%Z then Err ValueError
    else
      do folds <- kfold_split (length l) (Z.to_nat k) ;
      mapM (fun f => do train <- mapM (fun i => of_option IndexError (nth_error l i)) (fst f) ;
                     do test <- mapM (fun i => of_option IndexError (nth_error l i)) (snd f) ;
                     Ok (train, test)) folds.

  (** the methods that change the attributes of events.  An exception leaves
      what has been changed so far. *)
  Section Dates.
    Variables (minus plus : V -> V -> result V) (negative : V -> result bool).

    (** eventlog.py 133-140 and 142-149; [d] is the dictionary of the event,
        [last] the one whose end date is the default for the start date *)
    Definition derive_event_obj (start_attr end_attr dur_attr : string) (last d : nat) (s : store) : store * result unit :=
      match (if dict_has start_attr (dcts s d) then Ok s
             else do v <- attr end_attr (dcts s last) ; Ok (set_dct d (dict_set start_attr v (dcts s d)) s)) with
      | Err x => (s, Err x)
      | Ok s1 =>
        match (do ve <- attr end_attr (dcts s1 d) ; do vs <- attr start_attr (dcts s1 d) ; minus ve vs) with
        | Err x => (s1, Err x)
        | Ok v =>
          let s2 := set_dct d (dict_set dur_attr v (dcts s1 d)) s1 in
          (s2, do neg <- negative v ; if neg then Err ValueError else Ok tt)
        end
      end.
    (** eventlog.py 141-149 *)
    Fixpoint derive_events_obj (start_attr end_attr dur_attr : string) (last : nat) (es : list nat) (s : store) : store * result unit :=
      match es with
      | [] => (s, Ok tt)
      | e :: es' =>
        match derive_event_obj start_attr end_attr dur_attr (o_attrs (evs s last)) (o_attrs (evs s e)) s with
        | (s1, Err x) => (s1, Err x)
        | (s1, Ok _) => derive_events_obj start_attr end_attr dur_attr e es' s1
        end
      end.
    (** eventlog.py 128-149; the first event takes its own end date *)
    Definition derive_trace_obj (start_attr end_attr dur_attr : string) (s : store) (t : nat) : store * result unit :=
      match contents s t with
      | [] => (s, Err IndexError)
      | e :: es => derive_events_obj start_attr end_attr dur_attr e (e :: es) s
      end.
    Fixpoint derive_obj (start_attr end_attr dur_attr : string) (s : store) (l : list nat) : store * result unit :=
      match l with
      | [] => (s, Ok tt)
      | t :: l' =>
        match derive_trace_obj start_attr end_attr dur_attr s t with
        | (s1, Err x) => (s1, Err x)
        | (s1, Ok _) => derive_obj start_attr end_attr dur_attr s1 l'
        end
      end.

    (** eventlog.py 448-472; [a] and [b] are the dictionaries of the events *)
    Definition join_events_obj (ord : list string -> list string) (start_attr end_attr dur_attr : option string)
        (raise_error : bool) (a b : nat) (s : store) : store * result unit :=
      match (if raise_error then
               foldM (fun _ name =>
                 if negb (eqb (Some name) start_attr) && negb (eqb (Some name) end_attr) && negb (eqb (Some name) dur_attr)
                 then do va <- attr name (dcts s a) ; do vb <- attr name (dcts s b) ;
                      if eqb va vb then Ok tt else Err ValueError
                 else Ok tt) (ord (set_of (keys (dcts s a) ++ keys (dcts s b)))) tt
             else Ok tt) with
      | Err x => (s, Err x)
      | Ok _ =>
        match match end_attr with
              | Some e => do v <- attr e (dcts s b) ; Ok (set_dct a (dict_set e v (dcts s a)) s)
              | None => Ok s
              end with
        | Err x => (s, Err x)
        | Ok s1 =>
          match dur_attr with
          | None => (s1, Ok tt)
          | Some d =>
            match match start_attr, end_attr with
                  | Some st, Some e =>
                      do ve <- attr e (dcts s1 a) ; do vs <- attr st (dcts s1 a) ; minus ve vs
                  | _, _ => do va <- attr d (dcts s1 a) ; do vb <- attr d (dcts s1 b) ; plus va vb
                  end with
            | Err x => (s1, Err x)
            | Ok v => (set_dct a (dict_set d v (dcts s1 a)) s1, Ok tt)
            end
          end
        end
      end.
    (** eventlog.py 176-189, one trace; [done] is event_list without its last
        element [last].  The new list of events is only assigned at the end *)
    Fixpoint join_loop_obj (ord : list string -> list string) (start_attr end_attr dur_attr : option string)
        (raise_error : bool) (blacklist : list A) (done : list nat) (last : nat) (rest : list nat) (s : store) : store * result (list nat) :=
      match rest with
      | [] => (s, Ok (done ++ [last]))
      | e :: rest' =>
        if eqb (o_act (evs s last)) (o_act (evs s e)) && negb (mem (o_act (evs s e)) blacklist) then
          match join_events_obj ord start_attr end_attr dur_attr raise_error (o_attrs (evs s last)) (o_attrs (evs s e)) s with
          | (s1, Err x) => (s1, Err x)
          | (s1, Ok _) => join_loop_obj ord start_attr end_attr dur_attr raise_error blacklist done last rest' s1
          end
        else join_loop_obj ord start_attr end_attr dur_attr raise_error blacklist (done ++ [last]) e rest' s
      end.
    Definition join_trace_obj ord start_attr end_attr dur_attr raise_error blacklist (s : store) (t : nat) : store * result unit :=
      match contents s t with
      | [] => (s, Err IndexError)
      | e :: es =>
        match join_loop_obj ord start_attr end_attr dur_attr raise_error blacklist [] e es s with
        | (s1, Err x) => (s1, Err x)
        | (s1, Ok es') => (rebind (fun _ => es') s1 t, Ok tt)
        end
      end.
    Fixpoint join_obj ord start_attr end_attr dur_attr raise_error blacklist (s : store) (l : list nat) : store * result unit :=
      match l with
      | [] => (s, Ok tt)
      | t :: l' =>
        match join_trace_obj ord start_attr end_attr dur_attr raise_error blacklist s t with
        | (s1, Err x) => (s1, Err x)
        | (s1, Ok _) => join_obj ord start_attr end_attr dur_attr raise_error blacklist s1 l'
        end
      end.
  End Dates.

  (** [EventLog.create_from_dict(log.to_dict())]: event.pyx 40-52, trace.pyx
      86-102, eventlog.py 99-108 and 439-446.  [to_dict] puts the dictionaries
      of the attributes themselves into its result, and [create_from_dict]
      makes them the attributes of the new events and traces. *)
  Fixpoint reread_events (s : store) (es : list nat) : store * list nat :=
    match es with
    | [] => (s, [])
    | e :: es' =>
      let '(s1, n) := alloc_ev (Ev (o_act (evs s e)) (o_attrs (evs s e)) None) s in
      let '(s2, ns) := reread_events s1 es' in (s2, n :: ns)
    end.
  Definition reread_trace (s : store) (t : nat) : store * result nat :=
    let '(s1, es) := reread_events s (contents s t) in
    match es with
    | [] => (s1, Err ValueError)
    | _ =>
      let '(s2, a) := alloc_lst es s1 in
      let '(s3, u) := alloc_tr (Tr (o_tid (trs s2 t)) a (o_tattrs (trs s2 t))) s2 in (s3, Ok u)
    end.
  Fixpoint reread (s : store) (l : list nat) : store * result (list nat) :=
    match l with
    | [] => (s, Ok [])
    | t :: l' =>
      match reread_trace s t with
      | (s1, Err x) => (s1, Err x)
      | (s1, Ok u) => match reread s1 l' with
                      | (s2, Err x) => (s2, Err x)
                      | (s2, Ok us) => (s2, Ok (u :: us))
                      end
      end
    end.
End O.
Arguments ev : clear implicits.
Arguments tr : clear implicits.
Arguments store : clear implicits.
Arguments edit : clear implicits.
