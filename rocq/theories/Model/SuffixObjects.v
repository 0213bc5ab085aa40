(** Model of prolothar_common/models/suffix_tree.py with its node objects, and of
    models/patterns.py 83-107 on them.  A node object gets the number
    [len(self.nodes)] and is appended to [self.nodes] right after, so a reference
    to a node is its number.  [dollar] is the terminator '$'. *)
From Verif.Model Require Import Base ListUtils Patterns SuffixTree.

(** suffix_tree.py 33-38 *)
Record object := Object { parent : option nat; number : nat; children : list nat }.
(** suffix_tree.py 23-25: [self.nodes] and [self.edges] *)
Record objects := Objects { objs : list object; edges : dict (nat * nat) (nat * nat) }.

Section S.
  Context {A : Type} `{Eq A} (dollar : A).

  Definition object_at (h : objects) (k : nat) : result object := of_option AttributeError (nth_error (objs h) k).
  (** assignment to the attributes of an object *)
  Definition update (k : nat) (f : object -> object) (h : objects) : objects :=
    Objects (match nth_error (objs h) k with Some o => match list_set (objs h) k (f o) with Some l => l | None => objs h end | None => objs h end) (edges h).
  (** suffix_tree.py 40-47 *)
  Definition add_child (c : nat) (o : object) : object := Object (parent o) (number o) (children o ++ [c]).
  Fixpoint list_remove (c : nat) (l : list nat) : result (list nat) :=
    match l with
    | [] => Err ValueError
    | x :: l' => if x =? c then Ok l' else do r <- list_remove c l' ; Ok (x :: r)
    end.
  Definition remove_child (k c : nat) (h : objects) : result objects :=
    do o <- object_at h k ;
    do l <- list_remove c (children o) ;
    Ok (update k (fun o => Object (parent o) (number o) l) h).
  Definition update_parent (p : nat) (o : object) : object := Object (Some p) (number o) (children o).

  (** suffix_tree.py 86-96 *)
  Definition visit_children (rec : nat -> nat -> result (nat * nat * bool)) (word : list A) (h : objects) (start k : nat)
    : list nat -> result (nat * nat * bool) :=
    fix go (cs : list nat) : result (nat * nat * bool) :=
      match cs with
      | [] => Ok (k, start, false)
      | c :: rest =>
        do e <- of_option KeyError (dict_get (k, c) (edges h)) ;
        let '(es, ee) := e in
        if eqb (slice word start (start + ee - es)) (slice word es ee)
        then rec (start + ee - es) c
        else
          do x <- of_option IndexError (nth_error word es) ;
          do y <- of_option IndexError (nth_error word start) ;
          if eqb x y then Ok (c, start, true) else go rest
      end.
  Fixpoint insert_position (fuel : nat) (word : list A) (h : objects) (start k : nat) : result (nat * nat * bool) :=
    match fuel with
    | 0 => Err OutOfFuel
    | S fuel' =>
      do o <- object_at h k ;
      visit_children (fun start c => insert_position fuel' word h start c) word h start k (children o)
    end.

  (** suffix_tree.py 98-113; [o] is the child *)
  Definition add_node (k edge_start edge_end : nat) (o : object) (h : objects) : objects :=
    let h1 := update k (add_child (number o)) (Objects (objs h ++ [o]) (edges h)) in
    Objects (objs h1) (dict_set (k, number o) (edge_start, edge_end) (edges h1)).

  (** suffix_tree.py 57-84: one round of the loop *)
  Definition add_suffix_objects (word : list A) (h : objects) (i : nat) : result objects :=
    do r <- insert_position (length (objs h)) word h i 0 ;
    let '(k, edge_start, overlap) := r in
    if (overlap : bool) then
      do o <- object_at h k ;
      do p <- of_option AttributeError (parent o) ;
      do e <- of_option KeyError (dict_get (p, k) (edges h)) ;
      let '(ps, pe) := e in
      do len <- insert_len (length word + 1) word edge_start ps 0 ;
      let new := length (objs h) in
      let h1 := add_node p ps (ps + len - 1) (Object (Some p) new [k]) h in
      do h2 <- (if dict_has (p, k) (edges h1) then Ok (Objects (objs h1) (dict_del (p, k) (edges h1))) else Err KeyError) ;
      do h3 <- remove_child p k h2 ;
      let h4 := update k (update_parent new) h3 in
      let h5 := Objects (objs h4) (dict_set (new, k) (ps + len - 1, pe) (edges h4)) in
      Ok (add_node new (edge_start + len - 1) (length word) (Object (Some new) (length (objs h5)) []) h5)
    else
      Ok (add_node k edge_start (length word) (Object (Some k) (length (objs h)) []) h).
  (** suffix_tree.py 22-31, 48-84 *)
  Definition suffix_objects (word : list A) : result (list A * objects) :=
    do w <- terminated dollar word ;
    do h <- foldM (add_suffix_objects w) (seq 0 (length w)) (Objects [Object None 0 []] []) ;
    Ok (w, h).

  (** suffix_tree.py 119-124; [known] is [self.descendants_dict] *)
  Fixpoint descendants_of (fuel : nat) (h : objects) (known : dict nat nat) (k : nat) : result (nat * dict nat nat) :=
    match fuel with
    | 0 => Err OutOfFuel
    | S fuel' =>
      match dict_get k known with
      | Some d => Ok (d, known)
      | None =>
        do o <- object_at h k ;
        do r <- foldM (fun (acc : nat * dict nat nat) c =>
                         do r <- descendants_of fuel' h (snd acc) c ; Ok (fst acc + fst r, snd r)) (children o) (0, known) ;
        let d := length (children o) + fst r in
        Ok (d, dict_set k d (snd r))
      end
    end.
  (** suffix_tree.py 115-117 *)
  Definition print_edges_of (word : list A) (h : objects) : list (list A) := map (fun e => slice word (fst (snd e)) (snd (snd e))) (edges h).
  (** suffix_tree.py 126-136: the loop, then the removal of the terminator *)
  Fixpoint climb (fuel : nat) (word : list A) (h : objects) (k : nat) (current_word : list A) : result (list A) :=
    match fuel with
    | 0 => Err OutOfFuel
    | S fuel' =>
      do o <- object_at h k ;
      if number o =? 0 then Ok current_word else
      do p <- of_option AttributeError (parent o) ;
      do e <- of_option KeyError (dict_get (p, number o) (edges h)) ;
      climb fuel' word h p (slice word (fst e) (snd e) ++ current_word)
    end.
  Definition node_word (word : list A) (h : objects) (k : nat) : result (list A) :=
    do w <- climb (length (objs h)) word h k [] ; Ok (strip dollar w).

  (** patterns.py 93-98: one round of the loop; the repeated calls of
      [total_descendants] and [node_word] *)
  Definition count_repeat (word : list A) (h : objects) (min_length : Z) (acc : dict nat nat * dict nat (list (list A))) (k : nat)
    : result (dict nat nat * dict nat (list (list A))) :=
    let fuel := length (objs h) in
    let '(known, d) := acc in
    do r <- descendants_of fuel h known k ;
    if negb (2 <=? fst r) then Ok (snd r, d) else
    do w <- node_word word h k ;
    if negb (min_length <=? Z.of_nat (length w))%Z then Ok (snd r, d) else
    do r2 <- descendants_of fuel h (snd r) k ;
    do r3 <- descendants_of fuel h (snd r2) k ;
    do w2 <- node_word word h k ;
    match dict_get (fst r2) d with
    | None => Ok (snd r3, dict_set (fst r3) [w2] d)
    | Some _ => do ws <- of_option KeyError (dict_get (fst r3) d) ; Ok (snd r3, dict_set (fst r3) (ws ++ [w2]) d)
    end.
  (** patterns.py 83-107 *)
  Definition find_maximal_repeats_objects (sequence : list A) (min_length : Z) : result (list (list A)) :=
    do wh <- suffix_objects sequence ;
    do r <- foldM (count_repeat (fst wh) (snd wh) min_length) (seq 1 (length (objs (snd wh)) - 1)) ([], []) ;
    do rs <- mapM keep_values (map snd (snd r)) ;
    Ok (concat rs).
End S.
