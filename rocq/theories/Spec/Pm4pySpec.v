(** Specification vocabulary for the conversions from and to pm4py *)
From Coq Require Import String Permutation ZArith.
From Verif.Model Require Import Base PetriNet Pm4py.
From Verif.Spec Require Import PetriSpec.
Open Scope string_scope.
Open Scope list_scope.
Open Scope nat_scope.

(** ** nets of pm4py *)
(** object [o] is the place named [p]; object [k] is the transition named [t] *)
Definition is_place (m : pm_net) (o : nat) (p : string) : Prop := In (o, p) (pm_places m).
Definition is_transition (m : pm_net) (k : nat) (t : string) : Prop := exists l, In (k, (t, l)) (pm_transitions m).
(** an arc from the place named [p] to the transition named [t], and back *)
Definition arc_in (m : pm_net) (p t : string) : Prop :=
  exists o k w, is_place m o p /\ is_transition m k t /\ In (ArcIn o k w) (pm_arcs m).
Definition arc_out (m : pm_net) (t p : string) : Prop :=
  exists o k w, is_place m o p /\ is_transition m k t /\ In (ArcOut k o w) (pm_arcs m).
(** different objects have different numbers, and arcs connect objects of the net *)
Definition ends_known (m : pm_net) (a : pm_arc) : Prop :=
  match a with ArcIn o k _ | ArcOut k o _ => (exists p, is_place m o p) /\ (exists t, is_transition m k t) end.
Definition proper (m : pm_net) : Prop :=
  NoDup (map fst (pm_places m)) /\ NoDup (map fst (pm_transitions m)) /\ Forall (ends_known m) (pm_arcs m).
(** no two places and no two transitions have the same name *)
Definition names_differ (m : pm_net) : Prop :=
  NoDup (map snd (pm_places m)) /\ NoDup (map (fun x => fst (snd x)) (pm_transitions m)).
(** the same net, its sets being iterated in other orders *)
Definition same_net (m m' : pm_net) : Prop :=
  Permutation (pm_places m) (pm_places m') /\ Permutation (pm_transitions m) (pm_transitions m') /\
  Permutation (pm_arcs m) (pm_arcs m').
Definition weight (a : pm_arc) : Z := match a with ArcIn _ _ w | ArcOut _ _ w => w end.
(** no weights, and at most one arc from one object to another *)
Definition plain (m : pm_net) : Prop := NoDup (pm_arcs m) /\ Forall (fun a => weight a = 1%Z) (pm_arcs m).

(** the token game of pm4py: a transition takes from the places before it and
    gives to the places behind it what the weights of the arcs say; markings are
    functions from place objects *)
Definition taken (m : pm_net) (k o : nat) : Z :=
  fold_right Z.add 0%Z (map (fun a => match a with ArcIn o' k' w => if (o' =? o) && (k' =? k) then w else 0%Z | _ => 0%Z end) (pm_arcs m)).
Definition given (m : pm_net) (k o : nat) : Z :=
  fold_right Z.add 0%Z (map (fun a => match a with ArcOut k' o' w => if (o' =? o) && (k' =? k) then w else 0%Z | _ => 0%Z end) (pm_arcs m)).
Definition pm_fires (m : pm_net) (M : nat -> Z) (k : nat) (M' : nat -> Z) : Prop :=
  (exists t, is_transition m k t) /\
  (forall o w, In (ArcIn o k w) (pm_arcs m) -> (w <= M o)%Z) /\
  (forall o p, is_place m o p -> M' o = (M o - taken m k o + given m k o)%Z).
Inductive pm_run (m : pm_net) : (nat -> Z) -> list nat -> (nat -> Z) -> Prop :=
| pm_nil M M' : (forall o p, is_place m o p -> M' o = M o) -> pm_run m M [] M'
| pm_cons M k M1 l M2 : pm_fires m M k M1 -> pm_run m M1 l M2 -> pm_run m M (k :: l) M2.
(** [M] and [N] put the same tokens on the places of the same name *)
Definition same_marking (m : pm_net) (M : nat -> Z) (N : string -> Z) : Prop :=
  forall o p, is_place m o p -> M o = N p.
(** the transitions [ts] are named [l] *)
Definition named (m : pm_net) (ts : list nat) (l : list string) : Prop := Forall2 (is_transition m) ts l.

(** the transition [t] is also the name of a place with arcs in both directions *)
Definition namesake_loop (n : net) (t : string) : Prop := In t (starts n t) /\ In t (ends n t).
(** every transition has places on both sides or on none *)
Definition two_sided (n : net) : Prop := forall t, starts n t = [] <-> ends n t = [].
(** the names pm4py gets for a place and a transition *)
Definition pname (p : string) : string := "p" ++ p.
Definition tname (t : string) : string := "t" ++ t.
(** the label None is read as: invisible, labelled with the name *)
Definition label_of (t : string) (l : option string) : string := match l with Some s => s | None => t end.

(** ** event logs *)
Import EventLog.
Section Logs.
  Context {V : Type}.
  (** the event [e] is what the attributes [d] of a pm4py event say *)
  Definition event_read (a : string) (d : dict string (pyvalue V)) (e : @event string (pyvalue V)) : Prop :=
    dict_get a d = Some (PStr (activity e)) /\ ev_attrs e = d /\ transition e = None.
  Definition trace_read (a i : string) (p : pm_trace V) (t : @trace string (pyvalue V) (pyvalue V)) : Prop :=
    pmt_events p <> [] /\ dict_get i (pmt_attrs p) = Some (tid t) /\ tr_attrs t = pmt_attrs p /\
    Forall2 (event_read a) (pmt_events p) (events t).
  (** why an event or a trace cannot be read: the id is looked up first, then
      the events are read one after the other *)
  Definition event_fails (a : string) (d : dict string (pyvalue V)) (x : error) : Prop :=
    (dict_get a d = None /\ x = KeyError) \/ (exists v, dict_get a d = Some (PVal v) /\ x = TypeError).
  Definition trace_fails (a i : string) (p : pm_trace V) (x : error) : Prop :=
    (dict_get i (pmt_attrs p) = None /\ x = KeyError) \/
    (dict_get i (pmt_attrs p) <> None /\ pmt_events p = [] /\ x = ValueError) \/
    (dict_get i (pmt_attrs p) <> None /\ exists before d after, pmt_events p = before ++ d :: after /\
       Forall (fun d' => exists e, event_read a d' e) before /\ event_fails a d x).
  (** the attributes of a trace that went to pm4py: the id is called
      concept:name unless the trace has an attribute of that name *)
  Definition sent_attr (t : @trace string (pyvalue V) (pyvalue V)) (k : string) : option (pyvalue V) :=
    match dict_get k (tr_attrs t) with
    | Some v => Some v
    | None => if String.eqb k "concept:name" then Some (tid t) else None
    end.
  Definition trace_sent (t : @trace string (pyvalue V) (pyvalue V)) (d : dict string (pyvalue V)) : Prop :=
    keys d = "concept:name" :: filter (fun k => negb (String.eqb k "concept:name")) (keys (tr_attrs t)) /\
    forall k, dict_get k d = sent_attr t k.
  (** attribute names occur once, as in every Python dict *)
  Definition real_attrs (t : @trace string (pyvalue V) (pyvalue V)) : Prop := NoDup (keys (tr_attrs t)).
End Logs.
