(** Model of prolothar_common/models/diintgraph/{graph.cpp,directed_int_graph.pyx}.
    The code does not check node numbers: outside of the array the behaviour of
    the C++ code is undefined, the model then returns [IndexError].  Node
    numbers are C ints, here natural numbers; deallocation is left out. *)
From Verif.Model Require Import Base.

(** graph.h 30-31: the array of adjacency lists; V is its length *)
Definition adjs := list (list nat).

(** [adj[v]] *)
Definition adj_of (g : adjs) (v : nat) : result (list nat) := of_option IndexError (nth_error g v).
(** assignment to [adj[v]] *)
Definition set_adj (g : adjs) (v : nat) (l : list nat) : result adjs := of_option IndexError (list_set g v l).

(** graph.cpp 23-27 *)
Definition new_graph (n : nat) : adjs := repeat [] n.
(** 29-37: the lists are copied one by one *)
Definition copy_graph (g : adjs) : result adjs :=
  foldM (fun h v => do l <- adj_of g v ; set_adj h v l) (seq 0 (length g)) (repeat [] (length g)).
(** 49-60 *)
Definition contains_edge (g : adjs) (v w : nat) : result bool :=
  do l <- adj_of g v ; Ok (existsb (Nat.eqb w) l).
(** 91-94 *)
Definition add_edge (g : adjs) (v w : nat) : result adjs :=
  do l <- adj_of g v ; set_adj g v (l ++ [w]).
(** 96-99; [list::remove] removes every occurrence *)
Definition remove_edge (g : adjs) (v w : nat) : result adjs :=
  do l <- adj_of g v ; set_adj g v (filter (fun x => negb (x =? w)) l).
(** directed_int_graph.pyx 61-62: the C++ list converted to a Python list *)
Definition get_ancestors (g : adjs) (v : nat) : result (list nat) := adj_of g v.

(** 76-89 *)
Definition transpose (g : adjs) : result adjs :=
  foldM (fun h v =>
    do l <- adj_of g v ;
    foldM (fun h i => do m <- adj_of h i ; set_adj h i (m ++ [v])) l h)
    (seq 0 (length g)) (new_graph (length g)).

(** 63-74; the fuel bounds the depth of the recursion *)
Fixpoint dfs (fuel : nat) (g : adjs) (v : nat) (s : list nat * list nat) : result (list nat * list nat) :=
  match fuel with
  | 0 => Err OutOfFuel
  | S fuel' =>
    let '(visited, component) := s in
    do l <- adj_of g v ;
    foldM (fun s i => if mem i (fst s) then Ok s else dfs fuel' g i s) l
      (set_add v visited, component ++ [v])
  end.
(** 101-114; the head of the list is the top of the stack *)
Fixpoint fill_order (fuel : nat) (g : adjs) (v : nat) (s : list nat * list nat) : result (list nat * list nat) :=
  match fuel with
  | 0 => Err OutOfFuel
  | S fuel' =>
    let '(visited, stack) := s in
    do l <- adj_of g v ;
    do (visited', stack') <-
      foldM (fun s i => if mem i (fst s) then Ok s else fill_order fuel' g i s) l (set_add v visited, stack) ;
    Ok (visited', v :: stack')
  end.
(** 118-158 *)
Definition strongly_connected_components (g : adjs) : result (list (list nat)) :=
  let n := length g in
  do (_, stack) <-
    foldM (fun s i => if mem i (fst s) then Ok s else fill_order n g i s) (seq 0 n) ([], []) ;
  do gr <- transpose g ;
  do (_, components) <-
    foldM (fun '(visited, components) v =>
      if mem v visited then Ok (visited, components)
      else
        do (visited', component) <- dfs n gr v (visited, []) ;
        Ok (visited', components ++ [component])) stack ([], []) ;
  Ok components.

(** Several DirectedIntGraph objects in one program (directed_int_graph.pyx
    21-39): [arrays] are the allocated arrays of lists, an object holds the
    address of its array. *)
Record store := Store { arrays : list adjs; objects : list nat }.
Inductive op :=
| New (n : nat) | Copy (i : nat) | Add (i a b : nat) | Remove (i a b : nat).
Definition array_of (s : store) (i : nat) : result (nat * adjs) :=
  do p <- of_option IndexError (nth_error (objects s) i) ;
  do g <- of_option IndexError (nth_error (arrays s) p) ;
  Ok (p, g).
Definition alloc (s : store) (g : adjs) : store :=
  Store (arrays s ++ [g]) (objects s ++ [length (arrays s)]).
Definition write (s : store) (p : nat) (g : adjs) : result store :=
  do a <- of_option IndexError (list_set (arrays s) p g) ; Ok (Store a (objects s)).
Definition step (s : store) (o : op) : result store :=
  match o with
  | New n => Ok (alloc s (new_graph n))
  | Copy i => do (_, g) <- array_of s i ; do h <- copy_graph g ; Ok (alloc s h)
  | Add i a b => do (p, g) <- array_of s i ; do h <- add_edge g a b ; write s p h
  | Remove i a b => do (p, g) <- array_of s i ; do h <- remove_edge g a b ; write s p h
  end.
Definition run (l : list op) : result store := foldM step l (Store [] []).
Definition contains (s : store) (i a b : nat) : result bool :=
  do (_, g) <- array_of s i ; contains_edge g a b.
(** directed_int_graph.pyx 41-62 on an object *)
Definition find_strongly_connected_components (s : store) (i : nat) : result (list (list nat)) :=
  do (_, g) <- array_of s i ; strongly_connected_components g.
Definition ancestors (s : store) (i a : nat) : result (list nat) :=
  do (_, g) <- array_of s i ; get_ancestors g a.
