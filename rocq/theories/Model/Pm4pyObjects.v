(** Model of the conversions of event logs in prolothar_common/pm4py_utils.py
    125-151 with objects: the events and traces of pm4py have dictionaries of
    attributes that other objects can share.  [Pm4py] describes the same
    conversions on values.  The store is that of [LogObjects]; what pm4py has
    besides the dictionaries cannot be shared with an event log of this project
    and is not part of the store. *)
From Coq Require Import String.
From Verif.Model Require Import Base EventLog LogObjects Pm4py.
Open Scope list_scope.
Open Scope nat_scope.

Section O.
  Context {V : Type}.
  Notation py_store := (store string (pyvalue V) (pyvalue V)).
  (** a pm4py trace: the addresses of its dictionary of attributes and of the
      dictionaries of its events *)
  Record pm_obj := PmObj { po_attrs : nat; po_events : list nat }.
  (** what is in the objects *)
  Definition view_pm (s : py_store) (t : pm_obj) : pm_trace V :=
    PmTrace (dcts s (po_attrs t)) (map (dcts s) (po_events t)).
  Definition view_pm_log (s : py_store) (l : list pm_obj) : list (pm_trace V) := map (view_pm s) l.

  (** 148-149: [dict(e)] is a new dictionary.  [Event] raises for an activity
      that is not a [str]. *)
  Fixpoint import_events (activity_attribute : string) (s : py_store) (es : list nat) : py_store * result (list nat) :=
    match es with
    | [] => (s, Ok [])
    | e :: es' =>
      match dict_get activity_attribute (dcts s e) with
      | None => (s, Err KeyError)
      | Some v =>
        let '(s1, d) := alloc_dct (dcts s e) s in
        match v with
        | PVal _ => (s1, Err TypeError)
        | PStr a =>
          let '(s2, n) := alloc_ev (Ev a d None) s1 in
          match import_events activity_attribute s2 es' with
          | (s3, Err x) => (s3, Err x)
          | (s3, Ok ns) => (s3, Ok (n :: ns))
          end
        end
      end
    end.
  (** 147-149 and trace.pyx 22-35: the dictionary of the trace is not copied *)
  Definition import_trace (activity_attribute trace_id_attribute : string) (s : py_store) (t : pm_obj) : py_store * result nat :=
    match dict_get trace_id_attribute (dcts s (po_attrs t)) with
    | None => (s, Err KeyError)
    | Some i =>
      match import_events activity_attribute s (po_events t) with
      | (s1, Err x) => (s1, Err x)
      | (s1, Ok es) =>
        let '(s2, a) := alloc_lst es s1 in
        match es with
        | [] => (s2, Err ValueError)
        | _ => let '(s3, u) := alloc_tr (Tr i a (po_attrs t)) s2 in (s3, Ok u)
        end
      end
    end.
  (** 141-151 *)
  Fixpoint import_log (activity_attribute trace_id_attribute : string) (s : py_store) (l : list pm_obj) : py_store * result (list nat) :=
    match l with
    | [] => (s, Ok [])
    | t :: l' =>
      match import_trace activity_attribute trace_id_attribute s t with
      | (s1, Err x) => (s1, Err x)
      | (s1, Ok u) => match import_log activity_attribute trace_id_attribute s1 l' with
                      | (s2, Err x) => (s2, Err x)
                      | (s2, Ok us) => (s2, Ok (u :: us))
                      end
      end
    end.

  (** 133-134 and 138: a new dictionary for every event *)
  Fixpoint export_events (s : py_store) (es : list nat) : py_store * list nat :=
    match es with
    | [] => (s, [])
    | e :: es' =>
      let '(s1, d) := alloc_dct [(concept_name, PStr (o_act (evs s e)))] s in
      let '(s2, ds) := export_events s1 es' in (s2, d :: ds)
    end.
  (** 130-139: a new dictionary for the trace *)
  Definition export_trace (s : py_store) (t : nat) : py_store * pm_obj :=
    let '(s1, d) := alloc_dct (fold_left (fun d '(k, v) => dict_set k v d) (dcts s (o_tattrs (trs s t))) [(concept_name, o_tid (trs s t))]) s in
    let '(s2, ds) := export_events s1 (contents s t) in (s2, PmObj d ds).
  (** 125-128 *)
  Fixpoint export_log (s : py_store) (l : list nat) : py_store * list pm_obj :=
    match l with
    | [] => (s, [])
    | t :: l' => let '(s1, p) := export_trace s t in let '(s2, ps) := export_log s1 l' in (s2, p :: ps)
    end.
End O.
