(** Model of prolothar_common/models/directly_follows_graph.pyx and
    dfg/{node,edge}.pyx.  Node and Edge are mutable objects: a graph carries a
    heap of node objects and one of edge objects; objects are referred to by
    number.  Activities are typed [str] in the source.  Colors of nodes are
    kept in Colors.v; C integer overflow of counts is not modelled. *)
From Coq Require Import QArith.
From Verif.Model Require Import Base Sort EventLog LogNoise.
Open Scope nat_scope.

Definition upd {X} (f : nat -> X) (i : nat) (x : X) : nat -> X := fun j => if j =? i then x else f j.

(** Python [list.remove]: drops the first element satisfying the test *)
Fixpoint remove_first {X} (p : X -> bool) (l : list X) : option (list X) :=
  match l with
  | [] => None
  | x :: l' => if p x then Some l' else option_map (cons x) (remove_first p l')
  end.

(** node.pyx 21-26 *)
Record node := Node { n_act : string; n_out : list nat; n_in : list nat }.
(** edge.pyx 22-25 *)
Record edge := Edge { e_start : nat; e_end : nat; e_count : Z }.
(** directly_follows_graph.pyx 32-34; [nh], [eh] are the objects, [nn], [en]
    the numbers of the next objects to be created *)
Record graph := Graph {
  nh : nat -> node; nn : nat; eh : nat -> edge; en : nat;
  nodes : dict string nat; edges : dict (string * string) nat }.

Definition set_nodes g d := Graph (nh g) (nn g) (eh g) (en g) d (edges g).
Definition set_edges g d := Graph (nh g) (nn g) (eh g) (en g) (nodes g) d.
Definition set_nh g h := Graph h (nn g) (eh g) (en g) (nodes g) (edges g).
Definition set_eh g h := Graph (nh g) (nn g) h (en g) (nodes g) (edges g).
(** assignments to the lists of a node object *)
Definition set_out g n l := set_nh g (upd (nh g) n (Node (n_act (nh g n)) l (n_in (nh g n)))).
Definition set_in g n l := set_nh g (upd (nh g) n (Node (n_act (nh g n)) (n_out (nh g n)) l)).

(** activities at the ends of an edge object *)
Definition start_act g e : string := n_act (nh g (e_start (eh g e))).
Definition end_act g e : string := n_act (nh g (e_end (eh g e))).
(** [x is y or x == y], edge.pyx 27-30 *)
Definition edge_eqb g (e f : nat) : bool :=
  (e =? f) || (eqb (start_act g e) (start_act g f) && eqb (end_act g e) (end_act g f)
               && (e_count (eh g e) =? e_count (eh g f))%Z).
(** edge.pyx 42-44 *)
Definition is_self_loop g e : bool := eqb (start_act g e) (end_act g e).

(** directly_follows_graph.pyx 32-34 *)
Definition empty : graph :=
  Graph (fun _ => Node String.EmptyString [] []) 0 (fun _ => Edge 0 0 0) 0 [] [].

(** [self.nodes[activity]] *)
Definition node_id g (a : string) : result nat := of_option KeyError (dict_get a (nodes g)).

(** 36-42 *)
Definition add_node (a : string) g : graph :=
  if dict_has a (nodes g) then g
  else Graph (upd (nh g) (nn g) (Node a [] [])) (S (nn g)) (eh g) (en g)
             (dict_set a (nn g) (nodes g)) (edges g).

(** 384-388, 390-394 *)
Definition get_preceding g a : result (list string) :=
  do n <- node_id g a ; Ok (map (start_act g) (n_in (nh g n))).
Definition get_following g a : result (list string) :=
  do n <- node_id g a ; Ok (map (end_act g) (n_out (nh g n))).

(** 73-80; [list.remove] raises ValueError *)
Definition remove_edge (k : string * string) g : result (graph * option nat) :=
  match dict_get k (edges g) with
  | None => Ok (g, None)
  | Some e =>
    let g1 := set_edges g (dict_del k (edges g)) in
    let s := e_start (eh g1 e) in
    do out <- of_option ValueError (remove_first (edge_eqb g1 e) (n_out (nh g1 s))) ;
    let g2 := set_out g1 s out in
    let t := e_end (eh g2 e) in
    do inn <- of_option ValueError (remove_first (edge_eqb g2 e) (n_in (nh g2 t))) ;
    Ok (set_in g2 t inn, Some e)
  end.

(** 82-91 *)
Definition add_count (a b : string) (c : Z) g : result graph :=
  let g1 := add_node b (add_node a g) in
  do g2 <- (if dict_has (a, b) (edges g1) then Ok g1
            else
              do s <- node_id g1 a ;
              do t <- node_id g1 b ;
              let e := en g1 in
              let g2 := Graph (nh g1) (nn g1) (upd (eh g1) e (Edge s t 0)) (S e)
                              (nodes g1) (dict_set (a, b) e (edges g1)) in
              let g3 := set_out g2 s (n_out (nh g2 s) ++ [e]) in
              Ok (set_in g3 t (n_in (nh g3 t) ++ [e]))) ;
  do e <- of_option KeyError (dict_get (a, b) (edges g2)) ;
  let x := eh g2 e in
  Ok (set_eh g2 (upd (eh g2) e (Edge (e_start x) (e_end x) (e_count x + c)))).

(** 44-71; [ord] is the iteration order of the set of edge keys *)
Definition edge_key g e : string * string := (start_act g e, end_act g e).
Definition remove_edges (ks : list (string * string)) g : result graph :=
  foldM (fun g k => do r <- remove_edge k g ; Ok (fst r)) ks g.
Definition connect (a : string) g : result graph :=
  do ps <- get_preceding g a ;
  foldM (fun g p =>
    do fs <- get_following g a ;
    foldM (fun g f => add_count p f 1 g) fs g) ps g.
Definition remove_node (ord : list (string * string) -> list (string * string))
  (a : string) (create_connections : bool) g : result graph :=
  do g1 <- (if create_connections then connect a g else Ok g) ;
  do n <- node_id g1 a ;
  let g2 := set_nodes g1 (dict_del a (nodes g1)) in
  let ks := set_of (map (edge_key g2) (n_out (nh g2 n)) ++ map (edge_key g2) (n_in (nh g2 n))) in
  remove_edges (ord ks) g2.

(** 93-103: what a caller sees of the nodes and edges *)
Definition activities g : list string := map (fun n => n_act (nh g n)) (values (nodes g)).
Definition edge_list g : list (string * string * Z) :=
  map (fun e => (start_act g e, end_act g e, e_count (eh g e))) (values (edges g)).
Definition get_nr_of_nodes g : nat := length (nodes g).
Definition get_nr_of_edges g : nat := length (edges g).
(** 531-533 *)
Definition get_count (a b : string) g : Z :=
  match dict_get (a, b) (edges g) with Some e => e_count (eh g e) | None => 0 end.
(** 381-382 *)
Definition compute_indegree g a : result nat := do n <- node_id g a ; Ok (length (n_in (nh g n))).
(** node.pyx 40-46 *)
Definition is_followed_by g (n : nat) (a : string) : bool :=
  existsb (fun e => eqb (end_act g e) a) (n_out (nh g n)).

(** 105-107, 143-156, 204-207, 226-240: graphs are compared by their dot
    source: the nodes sorted by activity and the edges with counts sorted by
    activities.  [leb] is the order of strings.  (Colors: Colors.v.) *)
Definition edge_leb (x y : string * string * Z) : bool :=
  let '(a, b, _) := x in let '(c, d, _) := y in
  if eqb a c then String.leb b d else String.leb a c.
Definition plot g : list string * list (string * string * Z) :=
  (stable_sort String.leb (activities g), stable_sort edge_leb (edge_list g)).
Definition graph_eqb g h : bool := eqb (plot g) (plot h).

(** 401-414 *)
Definition join g (other : graph) : result graph :=
  let g1 := fold_left (fun g n => add_node (n_act (nh other n)) g) (values (nodes other)) g in
  do g2 <- foldM (fun g '(k, e) =>
      do s <- node_id g (start_act other e) ;
      do t <- node_id g (end_act other e) ;
      Ok (Graph (nh g) (nn g) (upd (eh g) (en g) (Edge s t (e_count (eh other e)))) (S (en g))
                (nodes g) (dict_set k (en g) (edges g)))) (edges other) g1 ;
  do g3 <- foldM (fun g '(k, e) =>
      do s <- node_id g (start_act other e) ;
      do x <- of_option KeyError (dict_get k (edges g)) ;
      Ok (set_out g s (n_out (nh g s) ++ [x]))) (edges other) g2 ;
  foldM (fun g '(k, e) =>
      do t <- node_id g (end_act other e) ;
      do x <- of_option KeyError (dict_get k (edges g)) ;
      Ok (set_in g t (n_in (nh g t) ++ [x]))) (edges other) g3.
(** 396-399 *)
Definition copy g : result graph := join empty g.

(** 289-291: a copy without edges *)
Definition copy_nodes g : result graph := do c <- copy g ; remove_edges (keys (edges c)) c.
(** 285-297 *)
Definition filter_absolute (min_count : Z) g : result graph :=
  do f <- copy_nodes g ;
  foldM (fun f e =>
    if (min_count <=? e_count (eh g e))%Z
    then add_count (start_act g e) (end_act g e) (e_count (eh g e)) f else Ok f)
    (values (edges g)) f.

(** 256-283; [min_frequency] is the value after conversion to a C float; the
    quotient is not rounded here.  Without an edge of positive count [max_edge]
    has no start node: AttributeError. *)
Definition max_edge g (es : list nat) : option nat :=
  fold_left (fun m e =>
    let c := match m with Some x => e_count (eh g x) | None => 0%Z end in
    if (c <? e_count (eh g e))%Z then Some e else m) es None.
Definition filter_local (min_frequency : Q) (keep_one : bool) g : result graph :=
  do f0 <- copy_nodes g ;
  do f1 <- foldM (fun f n =>
    let total := fold_left (fun c e => c + e_count (eh g e))%Z (n_out (nh g n)) 0%Z in
    foldM (fun f e =>
      if (0 <? total)%Z &&
         Qle_bool min_frequency (inject_Z (e_count (eh g e)) / inject_Z total)%Q
      then add_count (start_act g e) (end_act g e) (e_count (eh g e)) f else Ok f)
      (n_out (nh g n)) f) (values (nodes g)) f0 ;
  foldM (fun f n =>
    match n_out (nh f n) with
    | [] =>
      if keep_one then
        do u <- node_id g (n_act (nh f n)) ;
        match n_out (nh g u) with
        | [] => Ok f
        | es =>
          do e <- of_option AttributeError (max_edge g es) ;
          add_count (start_act g e) (end_act g e) (e_count (eh g e)) f
        end
      else Ok f
    | _ => Ok f
    end) (values (nodes f1)) f1.

(** 327-340, 366-379: breadth first search; [goal] is [neighbor == end_activity]
    resp. [neighbor in end_activities] *)
Fixpoint bfs_scan (goal : string -> bool) (path : list string) (ns : list string)
  (visited : list string) (queue : list (string * list string))
  : list string + list string * list (string * list string) :=
  match ns with
  | [] => inr (visited, queue)
  | n :: ns' =>
    if goal n then inl (path ++ [n])
    else if mem n visited then bfs_scan goal path ns' visited queue
    else bfs_scan goal path ns' (set_add n visited) (queue ++ [(n, path)])
  end.
Fixpoint bfs (fuel : nat) g (goal : string -> bool) (visited : list string)
  (queue : list (string * list string)) : result (list string) :=
  match queue with
  | [] => Ok []
  | (cur, path) :: queue' =>
    match fuel with
    | 0 => Err OutOfFuel
    | S fuel' =>
      do fs <- get_following g cur ;
      match bfs_scan goal (path ++ [cur]) (stable_sort String.leb fs) (set_add cur visited) queue' with
      | inl p => Ok p
      | inr (visited', queue'') => bfs fuel' g goal visited' queue''
      end
    end
  end.
(** 299-344: the path and the graph afterwards.  Putting back an edge that was
    not there (None) is an error in the [finally] block; the compiled code, which
    does not check for None there, may do anything in this case. *)
Definition remove_forbidden (ks : list (string * string)) g : result (graph * list (option nat)) :=
  foldM (fun '(g, r) k => do x <- remove_edge k g ; Ok (fst x, r ++ [snd x])) ks (g, []).
Definition put_back (r : list (option nat)) g : result graph :=
  foldM (fun g o =>
    do e <- of_option AttributeError o ;
    add_count (start_act g e) (end_act g e) (e_count (eh g e)) g) r g.
Definition shortest_path (a b : string) (forbidden : list (string * string)) g
  : result (list string * graph) :=
  if negb (dict_has a (nodes g)) then Err ValueError
  else if eqb a b then Ok ([], g)
  else
    do (g1, removed) <- remove_forbidden forbidden g ;
    do p <- bfs (length (nodes g1)) g1 (fun n => eqb n b) [a] [(a, [])] ;
    do g2 <- put_back removed g1 ;
    Ok (p, g2).
(** 346-379 *)
Definition shortest_path_to_one_of (a : string) (ends : list string) g : result (list string) :=
  if negb (dict_has a (nodes g)) then Err ValueError
  else if mem a ends then Ok []
  else bfs (length (nodes g)) g (fun n => mem n ends) [a] [(a, [])].

(** 416-424 *)
Section Logs.
  Context {V I : Type}.
  Fixpoint read_events (es : list (event string V)) g : result graph :=
    match es with
    | e :: ((f :: _) as es') =>
        do g1 <- add_count (activity e) (activity f) 1 (add_node (activity e) g) ;
        read_events es' g1
    | _ => Ok g
    end.
  Definition read_trace g (t : trace string V I) : result graph :=
    read_events (events t)
      (match events t with [] => g | e :: _ => add_node (activity e) g end).
  Definition read_counts_from_log (l : log string V I) g : result graph := foldM read_trace l g.
  (** 628-632 *)
  Definition create_from_event_log (l : log string V I) : result graph := read_counts_from_log l empty.
  (** 634-651; [log.copy()] raises for a trace without events (trace.pyx 31-32) *)
  Fixpoint eventually_events (es : list (event string V)) g : result graph :=
    match es with
    | [] => Ok g
    | e :: es' =>
        do g1 <- foldM (fun g f => add_count (activity e) (activity f) 1 g) es' g ;
        eventually_events es' g1
    end.
  Definition eventually_follows_graph (l : log string V I) : result graph :=
    if forallb non_empty l then foldM (fun g t => eventually_events (events t) g) (keep_first_occurence l) empty
    else Err ValueError.
End Logs.

(** 426-436; [ord] as in remove_node *)
Definition select_nodes ord (acts : list string) g : result graph :=
  do c <- copy g ;
  foldM (fun c n => if mem n acts then Ok c else remove_node ord n false c)
    (activities c) c.

(** 438-449, 451-461 *)
Definition get_source_activities g : list string :=
  map (fun n => n_act (nh g n))
    (filter (fun n => match n_in (nh g n) with
                      | [] => true
                      | [_] => is_followed_by g n (n_act (nh g n))
                      | _ => false end) (values (nodes g))).
Definition get_sink_activities g : list string :=
  map (fun n => n_act (nh g n))
    (filter (fun n => match n_out (nh g n) with
                      | [] => true
                      | [_] => is_followed_by g n (n_act (nh g n))
                      | _ => false end) (values (nodes g))).

(** 502-515, 517-529; [pop i s] is what [set.pop] does to the set [s] in
    round [i] of the loop *)
Fixpoint closure (fuel : nat) (pop : nat -> list string -> string * list string)
  (next : string -> result (list string)) (found todo : list string) : result (list string) :=
  match todo with
  | [] => Ok found
  | _ =>
    match fuel with
    | 0 => Err OutOfFuel
    | S fuel' =>
      let (x, rest) := pop fuel todo in
      let found' := set_add x found in
      do fs <- next x ;
      closure fuel' pop next found'
        (fold_left (fun t f => if mem f found' then t else set_add f t) fs rest)
    end
  end.
Definition get_reachable_activities pop g a : result (list string) :=
  do fs <- get_following g a ;
  closure (length (nodes g)) pop (get_following g) [] (set_of fs).
Definition get_activities_that_reach pop g a : result (list string) :=
  do fs <- get_preceding g a ;
  closure (length (nodes g)) pop (get_preceding g) [] (set_of fs).

(** 473-500: returns the component and the activities still unseen.  [list.pop]
    takes the last element. *)
Fixpoint component (fuel : nat) g (found stack unseen : list string)
  : result (list string * list string) :=
  match rev stack with
  | [] => Ok (found, unseen)
  | x :: rstack =>
    match fuel with
    | 0 => Err OutOfFuel
    | S fuel' =>
      do ps <- get_preceding g x ;
      do fs <- get_following g x ;
      let (stack', unseen') :=
        fold_left (fun '(st, un) y =>
          if mem y un then (st ++ [y], filter (fun z => negb (eqb z y)) un) else (st, un))
          (ps ++ fs) (rev rstack, unseen) in
      component fuel' g (found ++ [x]) stack' unseen'
    end
  end.
Fixpoint components (fuel : nat) (pop : nat -> list string -> string * list string) g
  (unseen : list string) : result (list (list string)) :=
  match unseen with
  | [] => Ok []
  | _ =>
    match fuel with
    | 0 => Err OutOfFuel
    | S fuel' =>
      let (x, rest) := pop fuel unseen in
      do (c, unseen') <- component (length (nodes g)) g [] [x] rest ;
      do cs <- components fuel' pop g unseen' ;
      Ok (c :: cs)
    end
  end.
Definition get_weakly_connected_components pop g : result (list (list string)) :=
  components (length (nodes g)) pop g (keys (nodes g)).
(** 463-471 *)
Definition largest_component ord pop g : result graph :=
  do cs <- get_weakly_connected_components pop g ;
  select_nodes ord
    (fst (fold_left (fun '(best, n) c => if n <? length c then (c, length c) else (best, n)) cs ([], 0))) g.

(** 535-546, 548-559 *)
Fixpoint remove_not_allowed (fuel : nat) ord (extremal : graph -> list string)
  (allowed : list string) g : result graph :=
  match filter (fun a => negb (mem a allowed)) (extremal g) with
  | [] => Ok g
  | bad =>
    match fuel with
    | 0 => Err OutOfFuel
    | S fuel' =>
      do g' <- foldM (fun g a => remove_node ord a false g) bad g ;
      remove_not_allowed fuel' ord extremal allowed g'
    end
  end.
Definition remove_not_allowed_start_activities ord allowed g :=
  remove_not_allowed (length (nodes g)) ord get_source_activities allowed g.
Definition remove_not_allowed_end_activities ord allowed g :=
  remove_not_allowed (length (nodes g)) ord get_sink_activities allowed g.

(** [d.pop(k)] *)
Definition pop_key {X} (k : string * string) (d : dict (string * string) X) : result (dict (string * string) X) :=
  if dict_has k d then Ok (dict_del k d) else Err KeyError.
(** 561-578 *)
Definition rename_activity (old new : string) g : result graph :=
  do n <- node_id g old ;
  let d := dict_set new n (nodes g) in
  let g1 := set_nodes g (dict_del old d) in
  let g2 := set_nh g1 (upd (nh g1) n (Node new (n_out (nh g1 n)) (n_in (nh g1 n)))) in
  do g3 <- foldM (fun g e =>
      do d <- pop_key (if is_self_loop g e then (old, old) else (start_act g e, old)) (edges g) ;
      Ok (set_edges g (dict_set (start_act g e, new) e d))) (n_in (nh g2 n)) g2 ;
  foldM (fun g e =>
      if is_self_loop g e then Ok g
      else
        do d <- pop_key (old, end_act g e) (edges g) ;
        Ok (set_edges g (dict_set (new, end_act g e) e d))) (n_out (nh g3 n)) g3.

(** 580-626; [choice i l] is what the random generator picks from [l] at its
    [i]-th call (IndexError for an empty list); the events of one trace *)
Fixpoint walk (fuel : nat) (choice : nat -> list string -> string) g (i : nat)
  (possible ends : list string) (done : list string) : result (list string * nat) :=
  match fuel with
  | 0 => Err OutOfFuel
  | S fuel' =>
    match possible with
    | [] => Err IndexError
    | _ =>
      let cur := choice i possible in
      do next <- get_following g cur ;
      let done' := done ++ [cur] in
      if mem cur ends then Ok (done', S i) else walk fuel' choice g (S i) next ends done'
    end
  end.
Fixpoint walks (fuel : nat) choice g (i : nat) (starts ends : list string) (nr : nat)
  : result (list (list string)) :=
  match nr with
  | 0 => Ok []
  | S nr' =>
    do (w, i') <- walk fuel choice g i starts ends [] ;
    do ws <- walks fuel choice g i' starts ends nr' ;
    Ok (w :: ws)
  end.
Definition generate_log {V} (fuel : nat) choice g (nr : nat) (starts ends : option (list string))
  : result (log string V nat) :=
  let s := match starts with Some s => s | None => get_source_activities g end in
  let e := match ends with Some e => e | None => get_sink_activities g end in
  match s, e with
  | [], _ => Err ValueError
  | _, [] => Err ValueError
  | _, _ => do ws <- walks fuel choice g 0 s e nr ; create_from_simple ws
  end.
