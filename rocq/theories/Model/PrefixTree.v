(** Model of prolothar_common/models/prefix_tree/prefix_tree.py.
    The symbol of a child is kept with it in the list of children (the root
    has none).  A node id, the string ".k1.k2...", is the list [k1; k2; ...].
    Trees are only changed through their root, so they are values here. *)
From Verif.Model Require Import Base.

Section Tree.
  Context {A : Type} `{Eq A}.
  (** [ltb] is the order [<] of the symbols *)
  Variable ltb : A -> A -> bool.
  (** 26-35 *)
  Inductive ptree := PT (id : list nat) (count : nat) (children : list (A * ptree)).
  Definition get_node_id t := let 'PT i _ _ := t in i.
  (** 71-73, 87-88 *)
  Definition get_nr_of_sequences t := let 'PT _ n _ := t in n.
  (** 81-82 *)
  Definition get_children t := let 'PT _ _ cs := t in cs.
  (** 75-79 *)
  Definition is_leaf t : bool := match get_children t with [] => true | _ => false end.
  Definition new_tree : ptree := PT [] 0 [].

  (** 52-63 *)
  Fixpoint search (fuel : nat) (symbol : A) (cs : list (A * ptree)) (lo hi : nat) : result nat :=
    if lo <? hi then
      match fuel with
      | 0 => Err OutOfFuel
      | S fuel' =>
        let mid := (lo + hi) / 2 in
        do (mid_symbol, _) <- of_option IndexError (nth_error cs mid) ;
        if eqb mid_symbol symbol then Ok mid
        else if ltb mid_symbol symbol then search fuel' symbol cs lo mid
        else search fuel' symbol cs (mid + 1) hi
      end
    else Ok lo.
  (** 49-63 *)
  Definition find_insertion_point (symbol : A) (cs : list (A * ptree)) : result nat :=
    match cs with
    | [] => Ok 0
    | _ => search (length cs) symbol cs 0 (length cs)
    end.

  (** 37-47, 65-69 *)
  Fixpoint append (s : list A) (t : ptree) : result ptree :=
    let 'PT id n cs := t in
    match s with
    | [] => Ok (PT id (n + 1) cs)
    | x :: s' =>
      do i <- find_insertion_point x cs ;
      let create_child := append s' (PT (id ++ [length cs]) 0 []) in
      if length cs <=? i then
        do c <- create_child ; Ok (PT id (n + 1) (cs ++ [(x, c)]))
      else
        do (y, u) <- of_option IndexError (nth_error cs i) ;
        if eqb y x then
          do u' <- append s' u ; do cs' <- of_option IndexError (list_set cs i (y, u')) ; Ok (PT id (n + 1) cs')
        else
          do c <- create_child ; Ok (PT id (n + 1) (firstn i cs ++ (x, c) :: skipn i cs))
    end.
  (** appending several sequences to a new tree *)
  Definition append_all (ss : list (list A)) : result ptree := foldM (fun t s => append s t) ss new_tree.

  (** 93-103; the head of the list is the right end of the deque; a node comes
      with its symbol *)
  Fixpoint level_order (fuel : nat) (queue : list (A * ptree)) : result (list (A * ptree)) :=
    match queue with
    | [] => Ok []
    | (x, t) :: queue' =>
      match fuel with
      | 0 => Err OutOfFuel
      | S fuel' => do l <- level_order fuel' (queue' ++ get_children t) ; Ok ((x, t) :: l)
      end
    end.
  Fixpoint size (t : ptree) : nat :=
    let 'PT _ _ cs := t in fold_right (fun xt n => S (size (snd xt) + n)) 0 cs.
  Definition traverse_level_order (t : ptree) : result (list (A * ptree)) := level_order (size t) (get_children t).
End Tree.
Arguments ptree : clear implicits.
