(** Model of prolothar_common/models/eventlog/{event.pyx,trace.pyx,eventlog.py}.
    Values, not objects: a log is the list of what its traces contain, so the
    model speaks of logs whose trace and event objects are pairwise distinct
    (sharing of objects between logs is the subject of LogObjects.v). *)
From Coq Require Import QArith Qround.
From Verif.Model Require Import Base ListUtils Sort.
Open Scope nat_scope.

(** Python list slices [l[z:]] and [l[:z]] for any integer [z] *)
Definition slice_from {X} (l : list X) (z : Z) : list X :=
  skipn (Z.to_nat (if (z <? 0)%Z then Z.of_nat (length l) + z else z)) l.
Definition slice_to {X} (l : list X) (z : Z) : list X :=
  firstn (Z.to_nat (if (z <? 0)%Z then Z.of_nat (length l) + z else z)) l.

(** Python [Counter]: [c[x] += 1] *)
Definition counter_inc {X} `{Eq X} (x : X) (c : dict X nat) : dict X nat :=
  dict_set x (match dict_get x c with Some n => S n | None => 1 end) c.

Section EL.
  (** [A]: activity names, [V]: attribute values, [I]: trace ids.  Attribute
      and transition names are strings. *)
  Context {A V I : Type} `{Eq A} `{Eq V}.

  Definition attrs := dict string V.
  (** event.pyx 21-25 *)
  Record event := Event { activity : A; ev_attrs : attrs; transition : option string }.
  (** [Event(activity)] *)
  Definition new_event (a : A) : event := Event a [] None.
  (** trace.pyx 31-35 *)
  Record trace := Trace { tid : I; events : list event; tr_attrs : attrs }.
  Definition new_trace (i : I) (es : list event) (d : attrs) : result trace :=
    match es with [] => Err ValueError | _ => Ok (Trace i es d) end.
  Definition log := list trace.
  Definition with_events (t : trace) (es : list event) : trace := Trace (tid t) es (tr_attrs t).

  (** dict [==]: same length and every entry found in the other one *)
  Definition attrs_eqb (d e : attrs) : bool :=
    (length d =? length e) &&
    forallb (fun kv : string * V => match dict_get (fst kv) e with
                       | Some v => eqb (snd kv) v | None => false end) d.
  (** event.pyx 31-35 *)
  Definition event_eqb (e f : event) : bool :=
    eqb (activity e) (activity f) && eqb (transition e) (transition f)
    && attrs_eqb (ev_attrs e) (ev_attrs f).
  Fixpoint events_eqb (l m : list event) : bool :=
    match l, m with
    | [], [] => true
    | e :: l', f :: m' => event_eqb e f && events_eqb l' m'
    | _, _ => false
    end.
  (** trace.pyx 74-75: the id is not compared *)
  Definition trace_eqb (t u : trace) : bool :=
    events_eqb (events t) (events u) && attrs_eqb (tr_attrs t) (tr_attrs u).

  (** Dictionary lookup with a trace as key: trace.pyx 77-78 hashes the id, so
      a stored key is found iff its hash and its content agree. [hash] is
      Python's hash of the id. *)
  Definition same_key (hash : I -> Z) (t u : trace) : bool :=
    (hash (tid t) =? hash (tid u))%Z && trace_eqb t u.
  Fixpoint tc_inc (hash : I -> Z) (t : trace) (c : list (trace * nat)) : list (trace * nat) :=
    match c with
    | [] => [(t, 1)]
    | (u, n) :: c' => if same_key hash t u then (u, S n) :: c' else (u, n) :: tc_inc hash t c'
    end.
  Fixpoint tc_get (hash : I -> Z) (t : trace) (c : list (trace * nat)) : nat :=
    match c with
    | [] => 0
    | (u, n) :: c' => if same_key hash t u then n else tc_get hash t c'
    end.
  Definition trace_counter (hash : I -> Z) (l : log) : list (trace * nat) :=
    fold_left (fun c t => tc_inc hash t c) l [].
  (** eventlog.py 65-66; Counter.__eq__: every key of either side has the same
      count in both *)
  Definition log_eqb (hash : I -> Z) (l m : log) : bool :=
    let c := trace_counter hash l in
    let d := trace_counter hash m in
    forallb (fun tn => tc_get hash (fst tn) c =? tc_get hash (fst tn) d) c &&
    forallb (fun tn => tc_get hash (fst tn) c =? tc_get hash (fst tn) d) d.

  (** trace.pyx 83-84 *)
  Definition to_activity_list (t : trace) : list A := map activity (events t).
  (** eventlog.py 68-74 *)
  Definition to_simple_activity_log (l : log) : list (list A) := map to_activity_list l.

  (** trace.pyx 44-51 *)
  Fixpoint first_match (i : nat) (es : list event) (s : list A) : Z :=
    match es with
    | [] => -1
    | e :: es' => if mem (activity e) s then Z.of_nat i else first_match (S i) es' s
    end.
  Definition get_first_index (t : trace) (s : list A) : Z := first_match 0 (events t) s.
  (** trace.pyx 53-60 *)
  Fixpoint last_match (ies : list (nat * event)) (s : list A) : Z :=
    match ies with
    | [] => -1
    | (i, e) :: ies' => if mem (activity e) s then Z.of_nat i else last_match ies' s
    end.
  Definition get_last_index (t : trace) (s : list A) : Z :=
    last_match (enumerate_reversed (events t)) s.
  (** trace.pyx 62-67 *)
  Definition contains_activity (t : trace) (a : A) : bool :=
    existsb (fun e => eqb (activity e) a) (events t).

  Definition non_empty (t : trace) : bool := match events t with [] => false | _ => true end.

  (** eventlog.py 249-266 *)
  Definition cut_traces (start_activities end_activities : option (list A)) (l : log) : log :=
    let l1 := match start_activities with
              | None => l
              | Some s => map (fun t => with_events t (slice_from (events t) (get_first_index t s))) l
              end in
    let l2 := match end_activities with
              | None => l1
              | Some s => map (fun t => with_events t
                                 (slice_to (events t) (get_last_index t s + 1))) l1
              end in
    filter non_empty l2.
  (** eventlog.py 268-279 *)
  Definition filter_activities (allowed : list A) (remove_empty_traces : bool) (l : log) : log :=
    let l1 := map (fun t => with_events t
                       (filter (fun e => mem (activity e) allowed) (events t))) l in
    if remove_empty_traces then filter non_empty l1 else l1.
  (** eventlog.py 306-309, 311-314 *)
  Definition add_start_activity (a : A) (l : log) : log :=
    map (fun t => with_events t (new_event a :: events t)) l.
  Definition add_end_activity (a : A) (l : log) : log :=
    map (fun t => with_events t (events t ++ [new_event a])) l.
  (** eventlog.py 316-327 *)
  Definition keep_first_events (es : list event) : list event :=
    snd (fold_left (fun '(seen, out) e =>
                      if mem (activity e) seen then (seen, out)
                      else (set_add (activity e) seen, out ++ [e])) es ([], [])).
  Definition keep_first_occurence (l : log) : log :=
    map (fun t => with_events t (keep_first_events (events t))) l.

  (** eventlog.py 117-126 *)
  Definition compute_activity_set (l : log) : list A :=
    fold_left (fun s t => fold_left (fun s e => set_add (activity e) s) (events t) s) l [].
  (** eventlog.py 191-195 *)
  Definition count_nr_of_events (l : log) : nat :=
    fold_left (fun n t => n + length (events t)) l 0.
  (** eventlog.py 197-202 *)
  Definition compute_activity_supports (l : log) : dict A nat :=
    fold_left (fun c t => fold_left (fun c e => counter_inc (activity e) c) (events t) c) l [].
  (** eventlog.py 204-210; [events[0]] of an emptied trace raises IndexError *)
  Definition compute_start_activities (l : log) : result (list A) :=
    foldM (fun s t => do e <- of_option IndexError (nth_error (events t) 0) ;
                      Ok (set_add (activity e) s)) l [].
  (** eventlog.py 212-218 *)
  Definition compute_end_activities (l : log) : result (list A) :=
    foldM (fun s t => do e <- of_option IndexError (nth_error (rev (events t)) 0) ;
                      Ok (set_add (activity e) s)) l [].

  (** eventlog.py 281-304; [ord s] is the order in which Python iterates over
      the set [s] *)
  Definition follows_event (ord : list A -> list A)
    (sc : list A * dict (A * A) nat) (e : event) : list A * dict (A * A) nat :=
    (set_add (activity e) (fst sc),
     fold_left (fun c a => counter_inc (a, activity e) c) (ord (fst sc)) (snd sc)).
  Definition follows_trace (ord : list A -> list A) (c : dict (A * A) nat) (t : trace)
    : dict (A * A) nat :=
    snd (fold_left (follows_event ord) (events t) ([], c)).
  Definition count_follows (ord : list A -> list A) (l : log) : dict (A * A) nat :=
    let c := fold_left (follows_trace ord) l [] in
    let s := ord (compute_activity_set l) in
    fold_left (fun c a =>
      fold_left (fun c b => if dict_has (a, b) c then c else dict_set (a, b) 0 c) s c) s c.

  (** eventlog.py 352-368; [rnd] is the rounding of the floating point
      operations, [shuffle] what random.shuffle makes of the list *)
  Definition train_test_split (rnd : Q -> Q) (shuffle : list trace -> list trace)
    (p : Q) (l : log) : result (log * log) :=
    if negb (Qle_bool 0 p && Qle_bool p 1) then Err ValueError
    else
      let shuffled := shuffle l in
      let split_index := Qfloor (rnd (inject_Z (Z.of_nat (length shuffled)) * rnd (1 - p))%Q) in
      Ok (slice_to shuffled split_index, slice_from shuffled split_index).

  (** sklearn.model_selection.KFold(n_splits=k).split without shuffling (as
      documented): the first n mod k folds have n / k + 1 indices, the others
      n / k, consecutive; ValueError if k > n *)
  Definition kfold_sizes (n k : nat) : list nat :=
    map (fun i => n / k + if i <? n mod k then 1 else 0) (seq 0 k).
  Fixpoint kfold_tests (start : nat) (sizes : list nat) : list (list nat) :=
    match sizes with
    | [] => []
    | s :: sizes' => seq start s :: kfold_tests (start + s) sizes'
    end.
  Definition kfold_split (n k : nat) : result (list (list nat * list nat)) :=
    if n <? k then Err ValueError
    else Ok (map (fun test => (filter (fun i => negb (mem i test)) (seq 0 n), test))
                 (kfold_tests 0 (kfold_sizes n k))).
  Definition pick_traces (l : log) (is : list nat) : result log :=
    mapM (fun i => of_option IndexError (nth_error l i)) is.
  (** eventlog.py 393-404: all folds the generator yields *)
  Definition k_folds (k : Z) (l : log) : result (list (log * log)) :=
    if (k <? 2)%Z then Err ValueError
    else
      do folds <- kfold_split (length l) (Z.to_nat k) ;
      mapM (fun f => do train <- pick_traces l (fst f) ;
                     do test <- pick_traces l (snd f) ;
                     Ok (train, test)) folds.

  (** [d[k]] *)
  Definition attr (k : string) (d : attrs) : result V := of_option KeyError (dict_get k d).

  (** Dates and durations are attribute values; [minus] and [plus] are Python's
      operators on them (they may raise), [negative d] is
      [d.total_seconds() < 0]. *)
  Section Dates.
    Variables (minus plus : V -> V -> result V) (negative : V -> result bool).

    (** eventlog.py 448-472: the attributes of event_a afterwards; [ord] is the
        iteration order of the set of attribute names *)
    Definition join_events (ord : list string -> list string)
      (start_attr end_attr dur_attr : option string) (raise_error : bool) (a b : attrs)
      : result attrs :=
      do _ <- (if raise_error then
                 foldM (fun _ name =>
                   if negb (eqb (Some name) start_attr) && negb (eqb (Some name) end_attr)
                      && negb (eqb (Some name) dur_attr)
                   then do va <- attr name a ; do vb <- attr name b ;
                        if eqb va vb then Ok tt else Err ValueError
                   else Ok tt) (ord (set_of (keys a ++ keys b))) tt
               else Ok tt) ;
      do a1 <- match end_attr with
               | Some e => do v <- attr e b ; Ok (dict_set e v a)
               | None => Ok a
               end ;
      match dur_attr with
      | None => Ok a1
      | Some d =>
        match start_attr, end_attr with
        | Some s, Some e =>
            do ve <- attr e a1 ; do vs <- attr s a1 ; do v <- minus ve vs ;
            Ok (dict_set d v a1)
        | _, _ =>
            do va <- attr d a1 ; do vb <- attr d b ; do v <- plus va vb ;
            Ok (dict_set d v a1)
        end
      end.
    (** eventlog.py 176-189, one trace: [done] is event_list without its last
        element [last] *)
    Fixpoint join_loop (ord : list string -> list string)
      (start_attr end_attr dur_attr : option string) (raise_error : bool) (blacklist : list A)
      (done : list event) (last : event) (rest : list event) : result (list event) :=
      match rest with
      | [] => Ok (done ++ [last])
      | e :: rest' =>
        if eqb (activity last) (activity e) && negb (mem (activity e) blacklist) then
          do d <- join_events ord start_attr end_attr dur_attr raise_error
                    (ev_attrs last) (ev_attrs e) ;
          join_loop ord start_attr end_attr dur_attr raise_error blacklist
            done (Event (activity last) d (transition last)) rest'
        else join_loop ord start_attr end_attr dur_attr raise_error blacklist
               (done ++ [last]) e rest'
      end.
    Definition join_successive (ord : list string -> list string)
      (start_attr end_attr dur_attr : option string) (raise_error : bool) (blacklist : list A)
      (l : log) : result log :=
      mapM (fun t =>
        match events t with
        | [] => Err IndexError
        | e :: es =>
          do es' <- join_loop ord start_attr end_attr dur_attr raise_error blacklist [] e es ;
          Ok (with_events t es')
        end) l.

    (** eventlog.py 128-149 *)
    Definition derive_one (start_attr end_attr dur_attr : string) (default : result V) (d : attrs)
      : result attrs :=
      do d1 <- (if dict_has start_attr d then Ok d
                else do v <- default ; Ok (dict_set start_attr v d)) ;
      do ve <- attr end_attr d1 ;
      do vs <- attr start_attr d1 ;
      do v <- minus ve vs ;
      do neg <- negative v ;
      if neg then Err ValueError else Ok (dict_set dur_attr v d1).
    Fixpoint derive_loop (start_attr end_attr dur_attr : string) (last : event) (es : list event)
      : result (list event) :=
      match es with
      | [] => Ok []
      | e :: es' =>
        do d <- derive_one start_attr end_attr dur_attr (attr end_attr (ev_attrs last)) (ev_attrs e) ;
        let e' := Event (activity e) d (transition e) in
        do out <- derive_loop start_attr end_attr dur_attr e' es' ;
        Ok (e' :: out)
      end.
    Definition derive_event_duration (start_attr end_attr dur_attr : string) (l : log) : result log :=
      mapM (fun t =>
        match events t with
        | [] => Err IndexError
        | e :: es =>
          do d <- derive_one start_attr end_attr dur_attr (attr end_attr (ev_attrs e)) (ev_attrs e) ;
          let e' := Event (activity e) d (transition e) in
          do out <- derive_loop start_attr end_attr dur_attr e' es ;
          Ok (with_events t (e' :: out))
        end) l.
  End Dates.

  (** The nested dictionaries of to_dict; ids, activities and attribute
      dictionaries are opaque leaves *)
  Inductive py :=
  | PAct (a : A) | PId (i : I) | PAttrs (d : attrs)
  | PList (l : list py) | PDict (d : list (string * py)).
  Definition py_get (k : string) (p : py) : result py :=
    match p with
    | PDict d => of_option KeyError (dict_get k d)
    | _ => Err TypeError
    end.
  Definition py_list (p : py) : result (list py) :=
    match p with PList l => Ok l | _ => Err TypeError end.
  Import String.
  Local Open Scope string_scope.
  (** event.pyx 40-45 *)
  Definition event_to_dict (e : event) : py :=
    PDict [("activity_name", PAct (activity e)); ("attributes", PAttrs (ev_attrs e))].
  (** event.pyx 47-52 *)
  Definition event_from_dict (p : py) : result event :=
    do a <- py_get "activity_name" p ;
    do d <- py_get "attributes" p ;
    match a, d with
    | PAct a, PAttrs d => Ok (Event a d None)
    | _, _ => Err TypeError
    end.
  (** trace.pyx 86-92 *)
  Definition trace_to_dict (t : trace) : py :=
    PDict [("id", PId (tid t)); ("attributes", PAttrs (tr_attrs t));
           ("events", PList (map event_to_dict (events t)))].
  (** trace.pyx 94-102 *)
  Definition trace_from_dict (p : py) : result trace :=
    do es <- py_get "events" p ;
    do es <- py_list es ;
    do es <- mapM event_from_dict es ;
    do i <- py_get "id" p ;
    do d <- py_get "attributes" p ;
    match i, d with
    | PId i, PAttrs d => new_trace i es d
    | _, _ => Err TypeError
    end.
  (** eventlog.py 99-108 *)
  Definition log_to_dict (l : log) : py := PDict [("traces", PList (map trace_to_dict l))].
  (** eventlog.py 439-446 *)
  Definition log_from_dict (p : py) : result log :=
    do ts <- py_get "traces" p ;
    do ts <- py_list ts ;
    mapM trace_from_dict ts.
End EL.
Arguments event : clear implicits.
Arguments trace : clear implicits.
Arguments log : clear implicits.
Arguments py : clear implicits.
Arguments attrs : clear implicits.

(** eventlog.py 407-413: trace ids are 0, 1, 2, ... *)
Definition create_from_simple {A V} (l : list (list A)) : result (log A V nat) :=
  mapM (fun '(i, acts) => new_trace i (map new_event acts) []) (combine (seq 0 (length l)) l).
