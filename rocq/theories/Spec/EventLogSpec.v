(** What the operations on event logs are meant to do, in terms of the events,
    traces and attribute dictionaries a caller sees. *)
From Coq Require Import Permutation.
From Verif.Model Require Import Base EventLog.
From Verif.Spec Require Import Lists Logs.

(** two attribute dictionaries are equal *)
Definition same_attrs {V} (d e : attrs V) : Prop := forall k, dict_get k d = dict_get k e.
Definition same_event {A V} (e f : event A V) : Prop :=
  activity e = activity f /\ transition e = transition f /\ same_attrs (ev_attrs e) (ev_attrs f).
(** equal content and equally hashed ids *)
Definition same_trace {A V I} (hash : I -> Z) (t u : trace A V I) : Prop :=
  hash (tid t) = hash (tid u) /\ Forall2 same_event (events t) (events u) /\
  same_attrs (tr_attrs t) (tr_attrs u).
(** Python dictionaries have no duplicate keys *)
Definition proper_attrs {V} (d : attrs V) : Prop := NoDup (keys d).
Definition proper_trace {A V I} (t : trace A V I) : Prop :=
  proper_attrs (tr_attrs t) /\ Forall (fun e => proper_attrs (ev_attrs e)) (events t).

Section S.
  Context {A V I : Type}.
  Notation event := (event A V).
  Notation trace := (trace A V I).
  Notation log := (log A V I).

  (** cut_traces, start: from the first start activity on; without one only the
      last event survives *)
  Definition cut_start (s : option (list A)) (es es' : list event) : Prop :=
    match s with
    | None => es' = es
    | Some s => from_first (fun e => In (activity e) s) es es' \/
        (none_of (fun e => In (activity e) s) es /\ es' = skipn (length es - 1) es)
    end.
  (** cut_traces, end: up to the last end activity; without one nothing *)
  Definition cut_end (s : option (list A)) (es es' : list event) : Prop :=
    match s with
    | None => es' = es
    | Some s => up_to_last (fun e => In (activity e) s) es es' \/
        (none_of (fun e => In (activity e) s) es /\ es' = [])
    end.

  (** activity at position [i] *)
  Definition act (es : list event) (i : nat) : option A := option_map activity (nth_error es i).
  (** [b] at position [j] follows [a] at position [i] without [a] in between *)
  Definition pairs (es : list event) (a b : A) '(i, j) : Prop :=
    i < j /\ act es i = Some a /\ act es j = Some b /\ forall k, i < k < j -> act es k <> Some a.
  Definition occurs (l : log) (a : A) : Prop := exists t e, In t l /\ In e (events t) /\ activity e = a.
  Definition log_pairs (l : log) (a b : A) '(k, i, j) : Prop :=
    exists t, nth_error l k = Some t /\ pairs (events t) a b (i, j).

  (** concatenation of all blocks but the [i]-th *)
  Definition others {X} (bs : list (list X)) (i : nat) : list X :=
    concat (firstn i bs) ++ concat (skipn (S i) bs).

  (** *** joining *)
  Section Join.
    Variables (minus plus : V -> V -> result V).
    (** names of the start date, end date and duration attribute *)
    Variables (sa ea da : option string) (raise : bool) (bl : list A).
    Definition special (k : string) : Prop := Some k = sa \/ Some k = ea \/ Some k = da.
    (** neighbours that are to be joined *)
    Definition joinable (x y : event) : Prop := activity x = activity y /\ ~ In (activity y) bl.
    (** [e'] is the event that replaces the block [g] *)
    Record merged (g : list event) (e' : event) : Prop := {
      mg_first : exists e0 rest, g = e0 :: rest /\ activity e' = activity e0 /\ transition e' = transition e0 /\
        (rest = [] -> e' = e0) /\
        (forall k, Some k <> ea -> Some k <> da -> dict_get k (ev_attrs e') = dict_get k (ev_attrs e0)) /\
        (raise = true -> forall e k, In e g -> ~ special k ->
           dict_get k (ev_attrs e) = dict_get k (ev_attrs e0)) /\
        (forall dk sk ek, da = Some dk -> sa = Some sk -> ea = Some ek -> NoDup [dk; sk; ek] -> rest <> [] ->
           exists en vs ve v, is_last en g /\ dict_get sk (ev_attrs e0) = Some vs /\
             dict_get ek (ev_attrs en) = Some ve /\ minus ve vs = Ok v /\ dict_get dk (ev_attrs e') = Some v) /\
        (forall dk, da = Some dk -> (sa = None \/ ea = None) -> ea <> Some dk -> rest <> [] ->
           exists v0 vs v, dict_get dk (ev_attrs e0) = Some v0 /\
             map (fun e => dict_get dk (ev_attrs e)) rest = map Some vs /\
             foldM plus vs v0 = Ok v /\ dict_get dk (ev_attrs e') = Some v);
      mg_last : forall ek en, ea = Some ek -> da <> Some ek -> is_last en g ->
        dict_get ek (ev_attrs e') = dict_get ek (ev_attrs en)
    }.
  End Join.

  (** *** durations *)
  Section Derive.
    Variables (minus : V -> V -> result V) (negative : V -> result bool).
    Variables (s e d : string).
    (** start [vs], end [ve] and duration [v] of an event, where [default] is
        the start to be used if none is recorded *)
    Definition timing (default : option V) (x : event) (vs ve v : V) : Prop :=
      dict_get e (ev_attrs x) = Some ve /\
      (dict_get s (ev_attrs x) = Some vs \/ (dict_get s (ev_attrs x) = None /\ default = Some vs)) /\
      minus ve vs = Ok v /\ negative v = Ok false.
    (** [x'] is [x] with start, end and duration recorded, else unchanged *)
    Definition timed (x x' : event) (vs ve v : V) : Prop :=
      activity x' = activity x /\ transition x' = transition x /\
      dict_get s (ev_attrs x') = Some vs /\ dict_get e (ev_attrs x') = Some ve /\
      dict_get d (ev_attrs x') = Some v /\
      forall k, k <> s -> k <> d -> dict_get k (ev_attrs x') = dict_get k (ev_attrs x).
    (** default start of event [i]: end of the previous event, own end for the
        first *)
    Definition default_start (es : list event) (i : nat) : option V :=
      match nth_error es (i - 1) with Some p => dict_get e (ev_attrs p) | None => None end.
  End Derive.
End S.
