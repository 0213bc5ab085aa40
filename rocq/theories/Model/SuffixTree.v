(** Model of prolothar_common/models/suffix_tree.py and of the functions of
    models/patterns.py built on it.

    The mutable node objects with parent links, the node list and the edge
    dictionary are simplified to a tree value: a node carries its number and
    its children in order, every child together with its edge [start, end].
    That this makes no difference is proved for the model with objects in
    [SuffixObjects].  [dollar] is the terminator '$'. *)
From Verif.Model Require Import Base Sort ListUtils Patterns.

(** suffix_tree.py 23-24, 33-38 *)
Inductive tree := Node (number : nat) (children : list (nat * nat * tree)).

Section S.
  Context {A : Type} `{Eq A} (dollar : A).

  (** suffix_tree.py 66-68: smallest insert_len for which the slices differ *)
  Fixpoint insert_len (fuel : nat) (word : list A) (a b len : nat) : result nat :=
    if eqb (slice word a (a + len)) (slice word b (b + len))
    then match fuel with
         | 0 => Err OutOfFuel
         | S fuel' => insert_len fuel' word a b (len + 1)
         end
    else Ok len.

  (** what happened to the list of children of the node at which the search
      for the insert position stands *)
  Inductive outcome :=
  | NotFound
  | InPlace (cs : list (nat * nat * tree))
  | Removed (cs : list (nat * nat * tree)) (new_node : nat * nat * tree).

  (** suffix_tree.py 60-80: split the edge [(ps, pe)] to [child];
      [next] is len(self.nodes) *)
  Definition split_edge (word : list A) (next start ps pe : nat) (child : tree)
    : result (nat * nat * tree) :=
    do len <- insert_len (length word + 1) word start ps 0 ;
    Ok (ps, ps + len - 1,
        Node next [(ps + len - 1, pe, child);
                   (start + len - 1, length word, Node (next + 1) [])]).

  (** suffix_tree.py 86-96 and 59-80: the loop over the children; [rec] is the
      recursive call of insert_position followed by the insertion *)
  Definition insert_children (rec : nat -> tree -> result tree) (word : list A) (next start : nat)
    : list (nat * nat * tree) -> result outcome :=
    fix go (cs : list (nat * nat * tree)) : result outcome :=
      match cs with
      | [] => Ok NotFound
      | ((es, ee), c) :: rest =>
        if eqb (slice word start (start + ee - es)) (slice word es ee)
        then do c' <- rec (start + ee - es) c ; Ok (InPlace (((es, ee), c') :: rest))
        else
          do x <- of_option IndexError (nth_error word es) ;
          do y <- of_option IndexError (nth_error word start) ;
          if eqb x y
          then do nn <- split_edge word next start es ee c ; Ok (Removed rest nn)
          else
            do o <- go rest ;
            match o with
            | NotFound => Ok NotFound
            | InPlace rest' => Ok (InPlace (((es, ee), c) :: rest'))
            | Removed rest' nn => Ok (Removed (((es, ee), c) :: rest') nn)
            end
      end.

  (** suffix_tree.py 57-96 for one suffix: insert_position descends, the node
      is added at the place it finds *)
  Fixpoint insert (word : list A) (next start : nat) (t : tree) : result tree :=
    match t with
    | Node num cs =>
      do o <- insert_children (fun st c => insert word next st c) word next start cs ;
      match o with
      | NotFound => Ok (Node num (cs ++ [(start, length word, Node next [])]))
      | InPlace cs' => Ok (Node num cs')
      | Removed cs' nn => Ok (Node num (cs' ++ [nn]))
      end
    end.

  (** number of nodes, len(self.nodes) *)
  Fixpoint size (t : tree) : nat :=
    match t with Node _ cs => S (list_sum (map (fun c => size (snd c)) cs)) end.

  (** suffix_tree.py 48-58 *)
  Definition add_suffix (word : list A) (t : tree) (i : nat) : result tree :=
    insert word (size t) i t.
  Definition terminated (word : list A) : result (list A) :=
    match rev word with
    | [] => Err IndexError
    | x :: _ => Ok (if eqb x dollar then word else word ++ [dollar])
    end.
  (** suffix_tree.py 22-31, 48-80: the word of the tree and the tree *)
  Definition suffix_tree (word : list A) : result (list A * tree) :=
    do w <- terminated word ;
    do t <- foldM (add_suffix w) (seq 0 (length w)) (Node 0 []) ;
    Ok (w, t).

  (** suffix_tree.py 119-124; the dictionary of known results is in [SuffixObjects] *)
  Fixpoint total_descendants (t : tree) : nat :=
    match t with Node _ cs => length cs + list_sum (map (fun c => total_descendants (snd c)) cs) end.
  (** suffix_tree.py 115-117; in the order of the tree, not in that of insertion *)
  Fixpoint print_edges (word : list A) (t : tree) : list (list A) :=
    match t with Node _ cs => flat_map (fun c => slice word (fst (fst c)) (snd (fst c)) :: print_edges word (snd c)) cs end.
  (** suffix_tree.py 126-135: removal of the terminator *)
  Definition strip (u : list A) : list A :=
    match rev u with
    | [] => u
    | x :: r => if eqb x dollar then rev r else u
    end.
  (** all nodes below: number, node_word, total_descendants *)
  Fixpoint nodes (word path : list A) (t : tree) : list (nat * list A * nat) :=
    match t with
    | Node num cs =>
      flat_map (fun c =>
        let p := path ++ slice word (fst (fst c)) (snd (fst c)) in
        match snd c with
        | Node k _ => (k, strip p, total_descendants (snd c)) :: nodes word p (snd c)
        end) cs
    end.

  (** patterns.py 93-98: repeat_dict, keyed by the number of descendants *)
  Definition group (min_length : Z) (d : list (nat * list (list A))) (n : nat * list A * nat)
    : list (nat * list (list A)) :=
    let '(_, w, k) := n in
    if (2 <=? k) && (min_length <=? Z.of_nat (length w))%Z
    then match dict_get k d with
         | None => dict_set k [w] d
         | Some ws => dict_set k (ws ++ [w]) d
         end
    else d.
  (** patterns.py 101-106.  [v not in word] asks whether the list [v] is one of
      the symbols of [word]; a symbol is never a list, hence it is always true
      and nothing is filtered out.  [reduce] of an empty list raises
      TypeError. *)
  Definition keep_values (values : list (list A)) : result (list (list A)) :=
    match values with
    | [_] => Ok values
    | _ => mapM (fun v => if existsb (fun word => negb (eqb word v)) values then Ok v else Err TypeError) values
    end.
  (** patterns.py 83-107; the nodes in the order of their numbers *)
  Definition find_maximal_repeats (sequence : list A) (min_length : Z) : result (list (list A)) :=
    do wt <- suffix_tree sequence ;
    let ns := stable_sort (fun a b : nat * list A * nat => fst (fst a) <=? fst (fst b)) (nodes (fst wt) [] (snd wt)) in
    let d := fold_left (group min_length) ns [] in
    do rs <- mapM keep_values (map snd d) ;
    Ok (concat rs).

  (** patterns.py 109-114 *)
  Definition find_super_maximal_repeats (sequence : list A) (min_length : Z) : result (list (list A)) :=
    do ms <- find_maximal_repeats sequence min_length ;
    filter_super_maximal_repeats ms.

  (** patterns.py 166-172: the inner loops, marking [len] positions from [o] *)
  Definition mark (mask : list bool) (o len : nat) : result (list bool) :=
    foldM (fun m i => of_option IndexError (list_set m i true)) (seq o len) mask.
  (** patterns.py 162-173 *)
  Definition build_mask (sequence : list A) (supers : list (list A)) : result (list bool) :=
    foldM (fun mask s =>
             do os <- search_all sequence s ;
             foldM (fun m o => mark m o (length s)) os mask)
          supers (repeat false (length sequence)).
  (** patterns.py 175-193 *)
  Definition free_once (sequence w : list A) (mask : list bool) : result bool :=
    do os <- search_all sequence w ;
    Ok (existsb (fun o => negb (existsb (fun b : bool => b) (slice mask o (o + length w)))) os).
  (** patterns.py 149-156: the loop; the list filtered here was sorted in place
      by filter_super_maximal_repeats *)
  Fixpoint near_loop (sequence : list A) (supers : list (list A)) (mask : list bool) (ms : list (list A))
    : result (list (list A)) :=
    match ms with
    | [] => Ok []
    | w :: rest =>
      do b <- (if mem w supers then Ok false else free_once sequence w mask) ;
      do r <- near_loop sequence supers mask rest ;
      Ok (if b then w :: r else r)
    end.
  (** patterns.py 136-160; [order] is the iteration order of the set *)
  Definition find_near_super_maximal_repeats (order : list (list A) -> list (list A))
             (sequence : list A) (min_length : Z) : result (list (list A)) :=
    do ms <- find_maximal_repeats sequence min_length ;
    do sm <- filter_super_maximal_repeats ms ;
    let ms := stable_sort (fun u v => length u <=? length v) ms in
    let supers := order (set_of sm) in
    do mask <- build_mask sequence supers ;
    do near <- near_loop sequence supers mask ms ;
    Ok (near ++ supers).

  (** patterns.py 326: reduce(lambda a,b: a + [trace_separator] + b, log) *)
  Definition concatenate_log (sep : A) (log : list (list A)) : result (list A) :=
    match log with
    | [] => Err TypeError
    | t :: rest => Ok (fold_left (fun a b => a ++ [sep] ++ b) rest t)
    end.
  (** patterns.py 335-339 *)
  Fixpoint pieces (w : list A) (i : nat) (occ : list nat) : list (list A) :=
    match occ with
    | [] => [slice w i (length w)]
    | j :: occ' => slice w i j :: pieces w (j + 1) occ'
    end.
  (** patterns.py 324-341; the separator is a one-symbol string, searched as a
      one-element sequence *)
  Definition get_maximal_repeats_over_log (order : list (list A) -> list (list A))
             (log : list (list A)) (sep : A) (min_length : Z) : result (list (list A)) :=
    do s <- concatenate_log sep log ;
    do rs <- find_super_maximal_repeats s min_length ;
    do ps <- mapM (fun w => do occ <- search_all w [sep] ; Ok (pieces w 0 occ)) rs ;
    Ok (filter (fun r => (min_length <=? Z.of_nat (length r))%Z) (order (set_of (concat ps)))).
End S.
