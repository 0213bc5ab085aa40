(** Model of prolothar_common/pm4py_utils.py.  Objects of pm4py are modelled as
    far as the conversions use them: place, transition and arc objects are
    compared by identity, so places and transitions carry the number of their
    object; [Marking] is a [Counter] with place objects as keys. *)
From Coq Require Import String.
From Verif.Model Require Import Base PetriNet.
From Verif.Model Require EventLog.
Open Scope string_scope.
Open Scope list_scope.
Open Scope nat_scope.

(** ** Petri nets *)
(** an arc from a place to a transition or from a transition to a place (numbers of objects) *)
Inductive pm_arc := ArcIn (p t : nat) (weight : Z) | ArcOut (t p : nat) (weight : Z).
(** [PetriNet]: the sets are lists in iteration order; a transition has a name and a label or None *)
Record pm_net := PmNet {
  pm_places : list (nat * string);
  pm_transitions : list (nat * (string * option string));
  pm_arcs : list pm_arc }.
Definition pm_marking := dict nat Z.
(** [marking[place]] of a [Counter] *)
Definition pm_tokens (m : pm_marking) (p : nat) : Z :=
  match dict_get p m with Some k => k | None => 0%Z end.

(** 54-60; the place objects get the numbers 0, 1, ... *)
Definition add_places_to_pm4py_net (n : net) : list (nat * string) * dict string nat :=
  fold_left (fun '(ps, d) id => (ps ++ [(length ps, ("p" ++ id)%string)], dict_set id (length ps) d))
    (keys (places n)) ([], []).
(** 79-87: the body of the two loops; [added] is the set [added_arcs] *)
Definition connect (d : dict string nat) (k : nat) (id s e : string)
    (st : list (string * string) * list pm_arc) : result (list (string * string) * list pm_arc) :=
  let '(added, arcs) := st in
  do (added1, arcs1) <-
    (if mem (s, id) added then Ok (added, arcs)
     else do p <- of_option KeyError (dict_get s d) ; Ok (set_add (s, id) added, arcs ++ [ArcIn p k 1])) ;
  if mem (id, e) added1 then Ok (added1, arcs1)
  else do p <- of_option KeyError (dict_get e d) ; Ok (set_add (id, e) added1, arcs1 ++ [ArcOut k p 1]).
(** 67-87; [ord] is the iteration order of the sets of places *)
Definition add_transition_to_pm4py_net (ord : order) (d : dict string nat) (id : string) (t : transition)
    (m : pm_net) : result pm_net :=
  let k := length (pm_transitions m) in
  do (_, arcs) <- foldM (fun st s => foldM (fun st e => connect d k id s e st) (ord (t_end t)) st)
                    (ord (t_start t)) ([], pm_arcs m) ;
  Ok (PmNet (pm_places m)
        (pm_transitions m ++ [(k, (("t" ++ id)%string, if t_visible t then Some (t_label t) else None))]) arcs).
(** 89-98 *)
Definition create_markings (ord : order) (d : dict string nat) (n : net) : result (pm_marking * pm_marking) :=
  let '(sources, sinks) := get_source_sink_places n in
  let mark := foldM (fun m p => do o <- of_option KeyError (dict_get p d) ; Ok (dict_set o 1%Z m)) in
  do initial <- mark (ord sources) [] ;
  do final <- mark (ord sinks) [] ;
  Ok (initial, final).
(** 36-52, 62-65 *)
Definition convert_data_petri_net_to_pm4py (ord : order) (n : net) : result (pm_net * pm_marking * pm_marking) :=
  let '(ps, d) := add_places_to_pm4py_net n in
  do m <- foldM (fun m '(id, t) => add_transition_to_pm4py_net ord d id t m) (transitions n) (PmNet ps [] []) ;
  do (initial, final) <- create_markings ord d n ;
  Ok (m, initial, final).

(** [arc.source.name], [arc.target.name]; the objects at the ends of an arc are
    those of the net *)
Definition place_name (m : pm_net) (p : nat) : result string := of_option KeyError (dict_get p (pm_places m)).
Definition transition_name (m : pm_net) (t : nat) : result string :=
  of_option KeyError (option_map fst (dict_get t (pm_transitions m))).
(** 112-122 *)
Definition convert_arc (m : pm_net) (n : net) (a : pm_arc) : result net :=
  match a with
  | ArcIn p t _ =>
    do tn <- transition_name m t ;
    do tr <- of_option KeyError (dict_get tn (transitions n)) ;
    do pn <- place_name m p ;
    do pl <- of_option KeyError (dict_get pn (places n)) ;
    Ok (Net (dict_set pn (Place (p_label pl) (p_tokens pl) (set_add tn (p_transitions pl))) (places n))
            (dict_set tn (with_starts tr (set_add pn (t_start tr))) (transitions n)) (variables n))
  | ArcOut t p _ =>
    do tn <- transition_name m t ;
    do tr <- of_option KeyError (dict_get tn (transitions n)) ;
    do pn <- place_name m p ;
    do _ <- of_option KeyError (dict_get pn (places n)) ;
    Ok (set_transition tn (with_ends tr (set_add pn (t_end tr))) n)
  end.
(** 100-123 *)
Definition convert_pm4py_to_data_petri_net (m : pm_net) (initial : pm_marking) : result net :=
  do n1 <- foldM (fun n '(o, name) => add_place name "" (pm_tokens initial o) n) (pm_places m) new_net ;
  do n2 <- foldM (fun n '(_, (name, label)) =>
      add_transition name label (match label with Some _ => true | None => false end) n) (pm_transitions m) n1 ;
  foldM (convert_arc m) (pm_arcs m) n2.

(** ** Event logs *)
Import EventLog.
Section Logs.
  (** attribute values are strings or other values *)
  Context {V : Type}.
  Inductive pyvalue := PStr (s : string) | PVal (v : V).
  (** names of activities are strings, ids of traces are any values; None as
      name of an activity is not modelled *)
  Definition py_log := @log string pyvalue pyvalue.
  (** a pm4py trace: its attributes and the attributes of its events *)
  Record pm_trace := PmTrace { pmt_attrs : dict string pyvalue; pmt_events : list (dict string pyvalue) }.
  (** 34 *)
  Definition concept_name : string := "concept:name".
  (** 130-139 *)
  Definition convert_trace_to_pm4py (t : @trace string pyvalue pyvalue) : pm_trace :=
    PmTrace (fold_left (fun d '(k, v) => dict_set k v d) (tr_attrs t) [(concept_name, tid t)])
            (map (fun e => [(concept_name, PStr (activity e))]) (events t)).
  (** 125-128 *)
  Definition convert_eventlog_to_pm4py (l : py_log) : list pm_trace := map convert_trace_to_pm4py l.
  (** 141-151; [Event] takes only a [str] as name of the activity *)
  Definition convert_event (activity_attribute : string) (e : dict string pyvalue) : result (@event string pyvalue) :=
    do a <- of_option KeyError (dict_get activity_attribute e) ;
    match a with PStr s => Ok (Event s e None) | PVal _ => Err TypeError end.
  Definition convert_pm4py_log (activity_attribute trace_id_attribute : string) (l : list pm_trace) : result py_log :=
    foldM (fun acc t =>
      do i <- of_option KeyError (dict_get trace_id_attribute (pmt_attrs t)) ;
      do es <- mapM (convert_event activity_attribute) (pmt_events t) ;
      do tr <- new_trace i es (pmt_attrs t) ;
      Ok (acc ++ [tr])) l [].
End Logs.
Arguments pyvalue V : clear implicits.
Arguments pm_trace V : clear implicits.
Arguments py_log V : clear implicits.
