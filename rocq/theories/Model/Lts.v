(** Model of prolothar_common/models/labeled_transition_system/. *)
From Verif.Model Require Import Base Sort EventLog.

Section Lts.
  Context {A S : Type} `{Eq A} `{Eq S}.
  (** labeled_transition_system.py 38-43, without the representation function *)
  Record lts := Lts {
    states : list S; start_states : list S; end_states : list S;
    transitions : dict S (dict A S) }.
  Definition new_lts : lts := Lts [] [] [] [].
  (** 76-81 *)
  Definition add_state (s : S) (is_start is_end : bool) (m : lts) : lts :=
    Lts (set_add s (states m))
        (if is_start then set_add s (start_states m) else start_states m)
        (if is_end then set_add s (end_states m) else end_states m)
        (transitions m).
  (** [defaultdict(dict)] *)
  Definition row (m : lts) (s : S) : dict A S :=
    match dict_get s (transitions m) with Some r => r | None => [] end.
  (** 83-85 *)
  Definition add_transition (s : S) (e : A) (s' : S) (m : lts) : lts :=
    Lts (states m) (start_states m) (end_states m)
        (dict_set s (dict_set e s' (row m s)) (transitions m)).
  Variable f : list A -> S.
  (** 57-74; the loop variable [i] runs over 1 .. len(sequence) *)
  Definition add_sequence (m : lts) (l : list A) : lts :=
    let start := f [] in
    let m0 := add_state start true (length l =? 0) m in
    fst (fold_left (fun '(m, last) i =>
        let s := f (firstn i l) in
        let m1 := add_state s false (i =? length l) m in
        match nth_error l (i - 1) with
        | Some e => (add_transition last e s m1, s)
        | None => (m1, s)
        end) (seq 1 (length l)) (m0, start)).
  Definition add_all (ls : list (list A)) : lts := fold_left add_sequence ls new_lts.
  (** 45-55 *)
  Definition add_trace {V I} (m : lts) (t : trace A V I) : lts :=
    add_sequence m (map activity (events t)).
  (** 100-101 *)
  Definition get_next_state (m : lts) (s : S) (e : A) : result S :=
    of_option KeyError (dict_get e (row m s)).
  (** 96-98 *)
  Definition outgoing_transitions (m : lts) (s : S) : list (S * A * S) :=
    map (fun '(e, s') => (s, e, s')) (row m s).
  (** 118-124 *)
  Definition transition_list (m : lts) : list (S * A * S) :=
    flat_map (fun '(s, r) => map (fun '(e, s') => (s, e, s')) r) (transitions m).
  (** 103-107, 109-116 *)
  Definition get_nr_of_states (m : lts) : nat := length (states m).
  Definition get_nr_of_transitions (m : lts) : nat :=
    fold_left (fun n r => n + length r) (values (transitions m)) 0.
End Lts.
Arguments lts : clear implicits.

(** state_representation.py 20-21; a frozenset of strings is its sorted list *)
Definition set_abstraction (p : list string) : list string := stable_sort String.leb (set_of p).
(** 23-24 *)
Definition list_abstraction {A} (p : list A) : list A := p.
(** 26-30 *)
Definition last_abstraction {A} (p : list A) : option A := nth_error (rev p) 0.
(** 32-35: [prefix[-n:]] is the whole list for n = 0 *)
Definition last_n_abstraction {A} (n : nat) (p : list A) : list A :=
  if n =? 0 then p else skipn (length p - n) p.
