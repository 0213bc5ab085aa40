(** Model of prolothar_common/models/data_petri_net.py.
    A place or transition object is named by its id: the objects handed to
    [add_connection] are those of the net.  [Variable] objects live in a store
    (a list of values) and are named by their position in it; guards hold such
    a position.  Numbers are rational.  Plotting is the subject of
    Drawings.v, the bounds of variables that of Variables.v, printing that of
    Printing.v. *)
From Coq Require Import String QArith.
From Verif.Model Require Import Base.
Open Scope string_scope.
Open Scope list_scope.
Open Scope nat_scope.

(** values of variables; Python's True and False are the numbers 1 and 0 *)
Inductive val := VNone | VNum (q : Q) | VBool (b : bool).
Definition as_number (v : val) : option Q :=
  match v with VNone => None | VNum q => Some q | VBool b => Some (if b then 1%Q else 0%Q) end.
Definition truthy (v : val) : bool :=
  match as_number v with None => false | Some q => negb (Qeq_bool q 0) end.
Definition val_eqb (v w : val) : bool :=
  match as_number v, as_number w with
  | None, None => true | Some a, Some b => Qeq_bool a b | _, _ => false end.
(** [v <= w], TypeError for None *)
Definition val_le (v w : val) : result bool :=
  match as_number v, as_number w with Some a, Some b => Ok (Qle_bool a b) | _, _ => Err TypeError end.
Definition store := list val.
Definition value (st : store) (r : nat) : val := nth r st VNone.

(** 91-166 *)
Inductive guard :=
| AcceptAlways
| LambdaGuard (r : nat) (f : val -> result bool)
| EqualGuard (r : nat) (c : val)
| SmallerGuard (r : nat) (c : val)
| SmallerOrEqualGuard (r : nat) (c : val)
| GreaterGuard (r : nat) (c : val)
| GreaterOrEqualGuard (r : nat) (c : val)
| TrueGuard (r : nat)
| FalseGuard (r : nat)
| AllOfGuard (gs : list guard).
Fixpoint accept (st : store) (g : guard) : result bool :=
  match g with
  | AcceptAlways => Ok true (* 164-166 *)
  | LambdaGuard r f => f (value st r) (* 105-106 *)
  | EqualGuard r c => Ok (val_eqb (value st r) c) (* 112-113 *)
  | SmallerGuard r c => do b <- val_le c (value st r) ; Ok (negb b) (* 119-120 *)
  | SmallerOrEqualGuard r c => val_le (value st r) c (* 126-127 *)
  | GreaterGuard r c => do b <- val_le (value st r) c ; Ok (negb b) (* 133-134 *)
  | GreaterOrEqualGuard r c => val_le c (value st r) (* 140-141 *)
  | TrueGuard r => Ok (truthy (value st r)) (* 146-147 *)
  | FalseGuard r => Ok (negb (truthy (value st r))) (* 152-153 *)
  | AllOfGuard gs => (* 158-162 *)
      (fix all gs := match gs with
                     | [] => Ok true
                     | g :: gs' => do b <- accept st g ; if b then all gs' else Ok false
                     end) gs
  end.

(** 168-175 *)
Record place := Place { p_label : string; p_tokens : Z; p_transitions : list string }.
(** 195-206 *)
Record transition := Transition {
  t_label : string; t_visible : bool; t_start : list string; t_end : list string; t_guard : guard }.
(** 233-236 *)
Record net := Net { places : dict string place; transitions : dict string transition; variables : dict string nat }.
Definition new_net : net := Net [] [] [].

(** 172-173, 238-242 *)
Definition add_place (id label : string) (k : Z) (n : net) : result net :=
  if (k <? 0)%Z then Err ValueError
  else if dict_has id (places n) then Err ValueError
  else Ok (Net (dict_set id (Place label k []) (places n)) (transitions n) (variables n)).
(** 197-206, 244-248 *)
Definition add_transition (id : string) (label : option string) (visible : bool) (n : net) : result net :=
  if dict_has id (transitions n) then Err ValueError
  else Ok (Net (places n)
    (dict_set id (Transition (match label with Some l => l | None => id end) visible [] [] AcceptAlways) (transitions n))
    (variables n)).
(** 250-254 *)
Definition add_variable (name : string) (r : nat) (n : net) : result net :=
  if dict_has name (variables n) then Err ValueError
  else Ok (Net (places n) (transitions n) (dict_set name r (variables n))).
(** 211-214; [None] stands for the argument None *)
Definition set_guard_function (id : string) (g : option guard) (n : net) : result net :=
  do t <- of_option KeyError (dict_get id (transitions n)) ;
  Ok (Net (places n)
    (dict_set id (Transition (t_label t) (t_visible t) (t_start t) (t_end t)
       (match g with Some g => g | None => AcceptAlways end)) (transitions n)) (variables n)).
(** 176-177, 207-210, 256-266 *)
Definition add_connection (s t e : string) (n : net) : result net :=
  match dict_get s (places n), dict_get e (places n), dict_get t (transitions n) with
  | None, _, _ | _, None, _ | _, _, None => Err ValueError
  | Some ps, Some _, Some tr =>
    Ok (Net (dict_set s (Place (p_label ps) (p_tokens ps) (set_add t (p_transitions ps))) (places n))
            (dict_set t (Transition (t_label tr) (t_visible tr) (set_add s (t_start tr)) (set_add e (t_end tr)) (t_guard tr))
               (transitions n))
            (variables n))
  end.
Definition set_tokens (id : string) (k : Z) (n : net) : result net :=
  do p <- of_option KeyError (dict_get id (places n)) ;
  Ok (Net (dict_set id (Place (p_label p) k (p_transitions p)) (places n)) (transitions n) (variables n)).
(** 295-299 *)
Definition get_marking (n : net) : dict string Z := map (fun '(id, p) => (id, p_tokens p)) (places n).
(** 301-303; on a KeyError the entries before it are already set, they are lost here *)
Definition set_marking (m : dict string Z) (n : net) : result net :=
  foldM (fun n '(id, k) => set_tokens id k n) m n.
(** 301-303 again, with the net as the call leaves it *)
Fixpoint set_marking_loop (m : dict string Z) (n : net) : net * option error :=
  match m with
  | [] => (n, None)
  | (id, k) :: m' =>
    match set_tokens id k n with
    | Ok n' => set_marking_loop m' n'
    | Err e => (n, Some e)
    end
  end.
(** 305-309 *)
Fixpoint matches_marking (m : dict string Z) (n : net) : result bool :=
  match m with
  | [] => Ok true
  | (id, k) :: m' =>
    do p <- of_option KeyError (dict_get id (places n)) ;
    if (p_tokens p =? k)%Z then matches_marking m' n else Ok false
  end.

(** 180-183, 312-313: the net as it is left, and the exception if one is raised *)
Fixpoint take_tokens (l : list string) (n : net) : net * option error :=
  match l with
  | [] => (n, None)
  | id :: l' =>
    match dict_get id (places n) with
    | None => (n, Some KeyError)
    | Some p =>
      if (p_tokens p <=? 0)%Z then (n, Some ValueError)
      else match set_tokens id (p_tokens p - 1) n with
           | Ok n' => take_tokens l' n'
           | Err e => (n, Some e)
           end
    end
  end.
(** 178-179, 314-315 *)
Fixpoint put_tokens (l : list string) (n : net) : net * option error :=
  match l with
  | [] => (n, None)
  | id :: l' =>
    match dict_get id (places n) with
    | None => (n, Some KeyError)
    | Some p => match set_tokens id (p_tokens p + 1) n with
                | Ok n' => put_tokens l' n'
                | Err e => (n, Some e)
                end
    end
  end.
(** iteration order of a set of places *)
Definition order := list string -> list string.
(** 311-315 *)
Definition fire_transition (ord : order) (t : transition) (n : net) : net * option error :=
  match take_tokens (ord (t_start t)) n with
  | (n', None) => put_tokens (ord (t_end t)) n'
  | r => r
  end.
(** 317-327 *)
Definition force_transition (ord : order) (id : string) (n : net) : net * option error :=
  match dict_get id (transitions n) with
  | None => (n, Some ValueError)
  | Some t => fire_transition ord t n
  end.

(** [filter(lambda t: t.can_fire(), ...)]: 215-216, 272-274 *)
Fixpoint fireable (st : store) (n : net) (l : list string) : result (list string) :=
  match l with
  | [] => Ok []
  | id :: l' =>
    do t <- of_option KeyError (dict_get id (transitions n)) ;
    do b <- accept st (t_guard t) ;
    do r <- fireable st n l' ;
    Ok (if b then id :: r else r)
  end.
(** 269-281; [pick p l] is what random.choice gives place [p] *)
Definition select (st : store) (pick : string -> list string -> string) (n : net) : result (dict string nat) :=
  foldM (fun firings '(id, p) =>
    if (p_tokens p <=? 0)%Z then Ok firings
    else do l <- fireable st n (p_transitions p) ;
         match l with
         | [] => Ok firings
         | _ => let t := pick id l in
                match dict_get t firings with
                | None => Ok (dict_set t 1 firings)
                | Some k => Ok (dict_set t (k + 1) firings)
                end
         end) (places n) [].
(** 268-285 *)
Definition simulate_one_timestep (st : store) (ord : order) (pick : string -> list string -> string) (n : net) : result net :=
  do firings <- select st pick n ;
  foldM (fun n' '(id, k) =>
    do t <- of_option KeyError (dict_get id (transitions n')) ;
    if length (t_start t) <=? k then
      match fire_transition ord t n' with (n'', None) => Ok n'' | (_, Some e) => Err e end
    else Ok n') firings n.

(** 287-293 *)
Definition get_fireable_transitions (st : store) (ignore_guards : bool) (n : net) : result (list string) :=
  foldM (fun acc '(id, t) =>
    do b <- (if ignore_guards then Ok true else accept st (t_guard t)) ;
    if b then
      do ks <- mapM (fun p => do pl <- of_option KeyError (dict_get p (places n)) ; Ok (p_tokens pl)) (t_start t) ;
      if (fold_left Z.add ks 0 =? Z.of_nat (length (t_start t)))%Z then Ok (acc ++ [id]) else Ok acc
    else Ok acc) (transitions n) [].

(** 347-357 *)
Definition get_source_sink_places (n : net) : list string * list string :=
  let before := set_of (flat_map t_start (values (transitions n))) in
  let after := set_of (flat_map t_end (values (transitions n))) in
  (filter (fun p => negb (mem p after)) before, filter (fun p => negb (mem p before)) after).
(** 339-345 *)
Definition is_workflow_net (n : net) : bool :=
  let '(sources, sinks) := get_source_sink_places n in
  (2 <=? length (places n)) && (length sources =? 1) && (length sinks =? 1).

(** 372-390; the variables get new objects, the guards are taken over *)
Definition copy (st : store) (n : net) : result (net * store) :=
  do n1 <- foldM (fun c '(id, p) => add_place id (p_label p) (p_tokens p) c) (places n) new_net ;
  do n2 <- foldM (fun c '(id, t) =>
      do c' <- add_transition id (Some (t_label t)) (t_visible t) c ;
      set_guard_function id (Some (t_guard t)) c') (transitions n) n1 ;
  do n3 <- foldM (fun c '(id, p) =>
      foldM (fun c t =>
        do pl <- of_option KeyError (dict_get id (places c)) ;
        do _ <- of_option KeyError (dict_get t (transitions c)) ;
        Ok (Net (dict_set id (Place (p_label pl) (p_tokens pl) (set_add t (p_transitions pl))) (places c)) (transitions c) (variables c)))
      (p_transitions p) c) (places n) n2 ;
  do n4 <- foldM (fun c '(id, t) =>
      do c1 <- foldM (fun c p =>
        do tr <- of_option KeyError (dict_get id (transitions c)) ;
        do _ <- of_option KeyError (dict_get p (places c)) ;
        Ok (Net (places c) (dict_set id (Transition (t_label tr) (t_visible tr) (set_add p (t_start tr)) (t_end tr) (t_guard tr)) (transitions c)) (variables c)))
      (t_start t) c ;
      foldM (fun c p =>
        do tr <- of_option KeyError (dict_get id (transitions c)) ;
        do _ <- of_option KeyError (dict_get p (places c)) ;
        Ok (Net (places c) (dict_set id (Transition (t_label tr) (t_visible tr) (t_start tr) (set_add p (t_end tr)) (t_guard tr)) (transitions c)) (variables c)))
      (t_end t) c1) (transitions n) n3 ;
  Ok (Net (places n4) (transitions n4)
        (map (fun '(i, (name, _)) => (name, length st + i)) (combine (seq 0 (length (variables n))) (variables n))),
      st ++ map (fun '(_, r) => value st r) (variables n)).

(** 493-502; some id with up to [length existing] quotes is free *)
Fixpoint unique_from (fuel : nat) (id : string) (existing : list string) : result string :=
  if mem id existing then
    match fuel with
    | 0 => Err OutOfFuel
    | S fuel' => unique_from fuel' (id ++ "'")%string existing
    end
  else Ok id.
Definition make_id_unique (id : string) (existing : list string) : result string :=
  unique_from (length existing) id existing.

(** 476-482 *)
Definition introduce_new_source_place (l : list string) (n : net) : result net :=
  let new := String.concat "," l in
  do n1 <- add_place new "" 0 n ;
  foldM (fun n p => do n' <- add_transition p None false n ; add_connection new p p n') l n1.
(** 484-491 *)
Definition introduce_new_sink_place (l : list string) (n : net) : result net :=
  let new := String.concat "," l in
  do n1 <- add_place new "" 0 n ;
  foldM (fun n p =>
    do t <- make_id_unique p (keys (transitions n)) ;
    do n' <- add_transition t None false n ; add_connection p t new n') l n1.
(** 359-370 *)
Definition transform_to_workflow_net (ord : order) (st : store) (n : net) : result (net * store) :=
  do (c, st') <- copy st n ;
  let '(sources, sinks) := get_source_sink_places c in
  do c1 <- (if 1 <? length sources then introduce_new_source_place (ord sources) c else Ok c) ;
  do c2 <- (if 1 <? length sinks then introduce_new_sink_place (ord sinks) c1 else Ok c1) ;
  Ok (c2, st').

(** 447-452 *)
Definition has_guards (n : net) : bool :=
  existsb (fun t => match t_guard t with AcceptAlways => false | _ => true end) (values (transitions n)).

(** [set.remove] *)
Definition set_remove (x : string) (l : list string) : result (list string) :=
  if mem x l then Ok (filter (fun y => negb (eqb y x)) l) else Err KeyError.
Definition set_transition (id : string) (t : transition) (n : net) : net :=
  Net (places n) (dict_set id t (transitions n)) (variables n).
Definition with_ends (t : transition) (l : list string) : transition :=
  Transition (t_label t) (t_visible t) (t_start t) l (t_guard t).
Definition with_starts (t : transition) (l : list string) : transition :=
  Transition (t_label t) (t_visible t) l (t_end t) (t_guard t).
(** 454-473; sources and sinks are those of the net before any pruning *)
Definition can_be_pruned (sources sinks : list string) (t : transition) (n : net) : result bool :=
  match t_visible t, t_start t, t_end t with
  | false, [s], [e] =>
    do p <- of_option KeyError (dict_get s (places n)) ;
    (* 455-459 *)
    do loops <- mapM (fun u => do tu <- of_option KeyError (dict_get u (transitions n)) ; Ok (mem s (t_end tu))) (p_transitions p) ;
    Ok (negb (existsb (fun b => b) loops) && negb (mem s sources) && (length (p_transitions p) =? 1)
        && (negb (mem e sinks) || (length (p_transitions p) =? 1))
        && match t_guard t with AcceptAlways => true | _ => false end)
  | _, _, _ => Ok false
  end.
(** 434-445; the inner loop changes a predecessor only, so it is a map *)
Definition prune_transition (ord : order) (id : string) (n : net) : result net :=
  do t <- of_option KeyError (dict_get id (transitions n)) ;
  foldM (fun n s =>
    do t <- of_option KeyError (dict_get id (transitions n)) ;
    do ss <- set_remove s (t_start t) ;
    do p <- of_option KeyError (dict_get s (places n)) ;
    do ts <- set_remove id (p_transitions p) ;
    let n1 := Net (dict_set s (Place (p_label p) (p_tokens p) ts) (places n))
                  (dict_set id (with_starts t ss) (transitions n)) (variables n) in
    foldM (fun n e =>
      do t <- of_option KeyError (dict_get id (transitions n)) ;
      do es <- set_remove e (t_end t) ;
      let n2 := set_transition id (with_ends t es) n in
      Ok (Net (places n2)
        (map (fun '(u, tu) =>
           (u, if mem s (t_end tu) then
                 with_ends tu (let l := set_add e (t_end tu) in
                               match ts with [] => filter (fun y => negb (eqb y s)) l | _ => l end)
               else tu)) (transitions n2)) (variables n2)))
      (ord (t_end t)) n1)
    (ord (t_start t)) n.
(** 413-432 *)
Definition prune (ord : order) (n : net) : result net :=
  let '(sources, sinks) := get_source_sink_places n in
  do (n1, remaining) <- foldM (fun '(n, remaining) id =>
      do t <- of_option KeyError (dict_get id (transitions n)) ;
      do b <- can_be_pruned sources sinks t n ;
      if b then do n' <- prune_transition ord id n ; Ok (n', remaining) else Ok (n, remaining ++ [id]))
    (keys (transitions n)) (n, []) ;
  let ts := filter (fun '(id, _) => mem id remaining) (transitions n1) in
  do ps <- foldM (fun ps '(_, t) =>
      foldM (fun ps p => do pl <- of_option KeyError (dict_get p (places n1)) ; Ok (dict_set p pl ps))
        (ord (t_start t) ++ ord (t_end t)) ps) ts [] ;
  Ok (Net ps ts (variables n1)).
