(** Model of prolothar_common/models/activity_pattern.py.
    Nets are values: the pattern made from a workflow net does not share it
    with the caller.  Transitions are equal when their ids are (221-224 of
    data_petri_net.py), so the dictionary from transitions to high level
    activities is one from ids.  After a composition the sets of transitions
    kept by the places of the second pattern hold objects under the hashes of
    their old ids; only pruning the composed net itself (not a copy) would
    look them up by hash, so [prune] below speaks of nets without renamed
    transitions. *)
From Coq Require Import String ZArith.
From Verif.Model Require Import Base PetriNet.
Open Scope string_scope.
Open Scope list_scope.
Open Scope nat_scope.

(** 24-58 *)
Record pattern := Pattern { pnet : net; amap : dict string string }.
(** second argument of the constructor, a name or a dictionary; other types
    (TypeError, 58-59) are not modelled *)
Inductive mapping := OneName (s : string) | Named (d : dict string string).

(** 28-59: the dictionary is checked against the given net, not the
    transformed one *)
Definition new_pattern (ord : order) (st : store) (n : net) (m : mapping) : result (pattern * store) :=
  do (n', st') <- (if is_workflow_net n then Ok (n, st) else transform_to_workflow_net ord st n) ;
  match m with
  | OneName s => Ok (Pattern n' (map (fun '(t, _) => (t, s)) (transitions n)), st')
  | Named d =>
    if forallb (fun '(t, tr) => negb (t_visible tr) || dict_has t d) (transitions n)
    then Ok (Pattern n' d, st') else Err ValueError
  end.
(** 61-63 *)
Definition copy_pattern (ord : order) (st : store) (p : pattern) : result (pattern * store) :=
  do (n, st') <- copy st (pnet p) ; new_pattern ord st' n (Named (amap p)).
(** [set.pop] of a set with the given iteration order *)
Definition pop (ord : order) (l : list string) : result string :=
  match ord l with [] => Err KeyError | x :: _ => Ok x end.
(** 77-81 *)
Definition get_all_zeros_marking (p : pattern) : dict string Z :=
  map (fun '(id, _) => (id, 0%Z)) (places (pnet p)).
(** 65-69 *)
Definition get_standard_initial_marking (ord : order) (p : pattern) : result (dict string Z) :=
  do s <- pop ord (fst (get_source_sink_places (pnet p))) ; Ok (dict_set s 1%Z (get_all_zeros_marking p)).
(** 71-75 *)
Definition get_standard_final_marking (ord : order) (p : pattern) : result (dict string Z) :=
  do e <- pop ord (snd (get_source_sink_places (pnet p))) ; Ok (dict_set e 1%Z (get_all_zeros_marking p)).
(** 83-90 *)
Definition prune_pattern (ord : order) (p : pattern) : result pattern :=
  do n <- prune ord (pnet p) ;
  Ok (Pattern n (filter (fun '(t, _) => dict_has t (transitions n)) (amap p))).

(** the new ids of the keys [l] when each is made unique and added to the
    [existing] ones (340-342, 346-347) *)
Fixpoint fresh_ids (l existing : list string) : result (dict string string) :=
  match l with
  | [] => Ok []
  | id :: l' =>
    do id' <- make_id_unique id existing ;
    do r <- fresh_ids l' (existing ++ [id']) ;
    Ok ((id, id') :: r)
  end.
Definition renamed (m : dict string string) (id : string) : string :=
  match dict_get id m with Some id' => id' | None => id end.
(** the objects of [n] under new ids; the sets in them refer to objects and so
    follow *)
Definition renamed_places (fp ft : string -> string) (d : dict string place) : dict string place :=
  map (fun '(id, p) => (fp id, Place (p_label p) (p_tokens p) (map ft (p_transitions p)))) d.
Definition renamed_transitions (fp ft : string -> string) (d : dict string transition) : dict string transition :=
  map (fun '(id, t) => (ft id, Transition (t_label t) (t_visible t) (map fp (t_start t)) (map fp (t_end t)) (t_guard t))) d.

(** 332-359: start and end of the first, start and end of the second pattern,
    the names and the net with the places and transitions of both.  The
    variables of the second pattern are not taken over. *)
Definition prepare_composition (ord : order) (st : store) (a b : pattern) :
    result (string * string * string * string * dict string string * net * store) :=
  do (n1, st1) <- copy st (pnet a) ;
  do (n2, st2) <- copy st1 (pnet b) ;
  let '(so1, si1) := get_source_sink_places n1 in
  let '(so2, si2) := get_source_sink_places n2 in
  do pm <- fresh_ids (keys (places n2)) (keys (places n1)) ;
  do tm <- fresh_ids (keys (transitions n2)) (keys (transitions n1)) ;
  do names <- foldM (fun names '(t, tr) =>
      if t_visible tr
      then do name <- of_option KeyError (dict_get t (amap b)) ; Ok (dict_set (renamed tm t) name names)
      else Ok names) (transitions n2) (amap a) ;
  do s1 <- pop ord so1 ; do e1 <- pop ord si1 ; do s2 <- pop ord so2 ; do e2 <- pop ord si2 ;
  Ok (s1, e1, renamed pm s2, renamed pm e2, names,
      Net (places n1 ++ renamed_places (renamed pm) (renamed tm) (places n2))
          (transitions n1 ++ renamed_transitions (renamed pm) (renamed tm) (transitions n2)) (variables n1), st2).

(** 92-103 *)
Definition sequence (ord : order) (st : store) (a b : pattern) : result (pattern * store) :=
  do (s1, e1, s2, e2, names, n, st1) <- prepare_composition ord st a b ;
  let t := (e1 ++ "," ++ s2)%string in
  do n1 <- add_transition t None false n ;
  do n2 <- add_connection e1 t s2 n1 ;
  new_pattern ord st1 n2 (Named names).

(** 105-125 *)
Definition choice (ord : order) (st : store) (a b : pattern) : result (pattern * store) :=
  do (s1, e1, s2, e2, names, n, st1) <- prepare_composition ord st a b ;
  let s := (s1 ++ "," ++ s2)%string in
  do n1 <- add_place s "" 0 n ;
  do t1 <- make_id_unique s1 (keys (transitions n1)) ;
  do n2 <- add_transition t1 None false n1 ;
  do t2 <- make_id_unique s2 (keys (transitions n2)) ;
  do n3 <- add_transition t2 None false n2 ;
  do n4 <- add_connection s t1 s1 n3 ;
  do n5 <- add_connection s t2 s2 n4 ;
  do (n6, st2) <- transform_to_workflow_net ord st1 n5 ;
  new_pattern ord st2 n6 (Named names).

(** 216-237 *)
Definition parallel (ord : order) (st : store) (a b : pattern) : result (pattern * store) :=
  do (s1, e1, s2, e2, names, n, st1) <- prepare_composition ord st a b ;
  let s := (s1 ++ "," ++ s2)%string in
  do n1 <- add_place s "" 0 n ;
  do n2 <- add_transition s1 None false n1 ;
  do n3 <- add_connection s s1 s1 n2 ;
  do n4 <- add_connection s s1 s2 n3 ;
  let e := (e1 ++ "," ++ e2)%string in
  do n5 <- add_place e "" 0 n4 ;
  do n6 <- add_transition e None false n5 ;
  do n7 <- add_connection e1 e e n6 ;
  do n8 <- add_connection e2 e e n7 ;
  new_pattern ord st1 n8 (Named names).

(** 239-298 *)
Definition interleaving (ord : order) (st : store) (a b : pattern) : result (pattern * store) :=
  do (s1, e1, s2, e2, names, n, st1) <- prepare_composition ord st a b ;
  let s := (s1 ++ "," ++ s2)%string in
  let px := (s ++ ",px")%string in
  let e := (e1 ++ "," ++ e2)%string in
  let s1' := (s1 ++ "_")%string in let s2' := (s2 ++ "_")%string in let e1' := (e1 ++ "_")%string in let e2' := (e2 ++ "_")%string in
  do n <- add_place s "" 0 n ;
  do n <- add_transition s None false n ;
  do n <- add_place px "" 0 n ;
  do n <- add_place e "" 0 n ;
  do n <- add_transition e None false n ;
  do n <- add_place s1' "" 0 n ;
  do n <- add_transition s1' None false n ;
  do n <- add_place s2' "" 0 n ;
  do n <- add_transition s2' None false n ;
  do n <- add_place e1' "" 0 n ;
  do n <- add_transition e1' None false n ;
  do n <- add_place e2' "" 0 n ;
  do n <- add_transition e2' None false n ;
  do n <- add_connection s s s1' n ;
  do n <- add_connection s s s2' n ;
  do n <- add_connection s s px n ;
  do n <- add_connection s1' s1' s1 n ;
  do n <- add_connection s1' s1' px n ;
  do n <- add_connection s2' s2' s2 n ;
  do n <- add_connection s2' s2' px n ;
  do n <- add_connection e1 e1' e1' n ;
  do n <- add_connection e1 e1' px n ;
  do n <- add_connection e2 e2' e2' n ;
  do n <- add_connection e2 e2' px n ;
  do n <- add_connection e1' e e n ;
  do n <- add_connection e2' e e n ;
  do n <- add_connection px e e n ;
  do n <- add_connection px s1' s1 n ;
  do n <- add_connection px s2' s2 n ;
  new_pattern ord st1 n (Named names).

(** 300-330 *)
Definition unbounded_repetition (ord : order) (st : store) (a : pattern) : result (pattern * store) :=
  do (n, st1) <- copy st (pnet a) ;
  let '(so, si) := get_source_sink_places n in
  do s <- pop ord so ;
  do e <- pop ord si ;
  do s' <- make_id_unique s (keys (places n)) ;
  do n <- add_place s' "" 0 n ;
  do e' <- make_id_unique e (keys (places n)) ;
  do n <- add_place e' "" 0 n ;
  do ts <- make_id_unique s (keys (transitions n)) ;
  do n <- add_transition ts None false n ;
  do te <- make_id_unique e (keys (transitions n)) ;
  do n <- add_transition te None false n ;
  do tr <- make_id_unique (s ++ "," ++ e)%string (keys (transitions n)) ;
  do n <- add_transition tr None false n ;
  do n <- add_connection s' ts s n ;
  do n <- add_connection e te e' n ;
  do n <- add_connection e tr s n ;
  new_pattern ord st1 n (Named (amap a)).

(** [choice_list], 127-214 *)
(** 142-147, 158-164: new ids for the keys of all nets *)
Fixpoint fresh_all (ls : list (list string)) (ids : list string) : result (list (dict string string)) :=
  match ls with
  | [] => Ok []
  | l :: ls' =>
    do m <- fresh_ids l ids ;
    do r <- fresh_all ls' (ids ++ values m) ;
    Ok (m :: r)
  end.
(** 165-170: places are popped and stored again one after the other; an entry
    holds the id and the place *)
Definition rekeyed (m : dict string string) (d : dict string (string * place)) : result (dict string (string * place)) :=
  foldM (fun d '(old, new) =>
    if eqb old new then Ok d
    else do x <- of_option KeyError (dict_get old d) ; Ok (dict_set new x (dict_del old d))) m d.
(** 244-248 and 238-242 of data_petri_net.py for an object with its sets *)
Definition put_transition (id : string) (t : transition) (n : net) : result net :=
  if dict_has id (transitions n) then Err ValueError
  else Ok (Net (places n) (dict_set id t (transitions n)) (variables n)).
Definition put_place (id : string) (p : place) (n : net) : result net :=
  if dict_has id (places n) then Err ValueError
  else Ok (Net (dict_set id p (places n)) (transitions n) (variables n)).
(** one pattern of the list with the new ids of its transitions and places *)
Definition part := (pattern * (dict string string * dict string string))%type.
Definition part_transitions (x : part) : dict string transition :=
  let '(c, (tm, pm)) := x in renamed_transitions (renamed pm) (renamed tm) (transitions (pnet c)).
Definition part_places (x : part) : result (dict string (string * place)) :=
  let '(c, (tm, pm)) := x in
  rekeyed pm (map (fun '(id, p) => (id, (renamed pm id, Place (p_label p) (p_tokens p) (map (renamed tm) (p_transitions p)))))
    (places (pnet c))).
(** 149-150, 208-212 *)
Definition part_names (names : dict string string) (x : part) : dict string string :=
  let '(c, (tm, _)) := x in
  fold_left (fun names '(t, _) =>
    match dict_get t (amap c) with Some a => dict_set (renamed tm t) a names | None => names end) (transitions (pnet c)) names.
(** 173-180 *)
Definition part_ends (ord : order) (x : part) : result (string * string) :=
  let '(so, si) := get_source_sink_places (Net [] (part_transitions x) []) in
  do s <- pop ord so ; do e <- pop ord si ; Ok (s, e).
(** 183-188 *)
Definition join_parts (parts : list part) : result net :=
  foldM (fun n x =>
    do n1 <- foldM (fun n '(t, tr) => put_transition t tr n) (part_transitions x) n ;
    do ps <- part_places x ;
    foldM (fun n '(_, (id, p)) => put_place id p n) ps n1) parts new_net.
(** 127-214; the mapping of transition ids in 144 stays empty, so that 152-155
    does nothing *)
Definition choice_list (ord : order) (st : store) (choices : list pattern) : result (pattern * store) :=
  do (copies, st1) <- foldM (fun '(acc, st) c => do (c', st') <- copy_pattern ord st c ; Ok (acc ++ [c'], st')) choices ([], st) ;
  do tms <- fresh_all (map (fun c => keys (transitions (pnet c))) copies) [] ;
  do pms <- fresh_all (map (fun c => keys (places (pnet c))) copies) [] ;
  let parts := combine copies (combine tms pms) in
  do ends <- mapM (part_ends ord) parts ;
  do n <- join_parts parts ;
  let s := String.concat "," (map fst ends) in
  do n <- add_place s "" 0 n ;
  do n <- foldM (fun n p => let t := (s ++ "," ++ p)%string in
      do n <- add_transition t None false n ; add_connection s t p n) (map fst ends) n ;
  let e := String.concat "," (map snd ends) in
  do n <- add_place e "" 0 n ;
  do n <- foldM (fun n p => let t := (p ++ "," ++ e)%string in
      do n <- add_transition t None false n ; add_connection p t e n) (map snd ends) n ;
  new_pattern ord st1 n (Named (fold_left part_names parts [])).
