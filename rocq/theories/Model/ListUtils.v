(** Model of prolothar_common/collections/list_utils.pyx (search part). *)
From Verif.Model Require Import Base.

Section BM.
  Context {A : Type} `{Eq A}.

  (** list_utils.pyx 81-89 make_boyer_moore_char_table *)
  Definition make_char_table (needle : list A) : dict A nat :=
    fold_left
      (fun table i =>
         match nth_error needle i with
         | Some c => dict_set c (length needle - 1 - i) table
         | None => table          (* i < len(needle) - 1: not reached *)
         end)
      (seq 0 (length needle - 1)) [].

  (** list_utils.pyx 107-116 is_prefix: the loop [for i in range(p, len)]
      compares needle[i] with needle[j]; [i] walks the list [needle[p:]] and
      [j] the list [needle]. *)
  Fixpoint is_prefix_loop (suffix needle : list A) : bool :=
    match suffix, needle with
    | [], _ => true
    | x :: suffix', y :: needle' => if eqb x y then is_prefix_loop suffix' needle' else false
    | _ :: _, [] => false          (* needle[p:] is not longer than needle *)
    end.
  Definition is_prefix (needle : list A) (p : nat) : bool :=
    is_prefix_loop (skipn p needle) needle.

  (** list_utils.pyx 118-130 suffix_length: [i] runs p, p-1, .., 0 and [j]
      runs len-1, len-2, ..; [c] is the number of remaining values of [i],
      i.e. i = c - 1. *)
  Fixpoint suffix_length_loop (needle : list A) (c j : nat) (len : nat) : nat :=
    match c with
    | 0 => len
    | S i =>
      match nth_error needle i, nth_error needle j with
      | Some x, Some y => if eqb x y then suffix_length_loop needle i (j - 1) (S len) else len
      | _, _ => len                (* indices are in range: not reached *)
      end
    end.
  Definition suffix_length (needle : list A) (p : nat) : nat :=
    suffix_length_loop needle (S p) (length needle - 1) 0.

  (** list_utils.pyx 96-101: first loop of make_boyer_moore_offset_table; [c]
      counts the remaining values of [i] = len-1, .., 0. *)
  Fixpoint offset_table_prefix (needle : list A) (c last_prefix : nat) (table : list nat) : list nat :=
    match c with
    | 0 => table
    | S i =>
      let lp := if is_prefix needle (i + 1) then i + 1 else last_prefix in
      offset_table_prefix needle i lp (table ++ [lp - i + length needle - 1])
    end.
  (** list_utils.pyx 91-105 make_boyer_moore_offset_table *)
  Definition make_offset_table (needle : list A) : result (list nat) :=
    foldM
      (fun table i =>
         let slen := suffix_length needle i in
         of_option IndexError (list_set table slen (length needle - 1 - i + slen)))
      (seq 0 (length needle - 1))
      (offset_table_prefix needle (length needle) (length needle) []).

  Inductive scan := Found (i : nat) | Mismatch (i j : nat).

  (** list_utils.pyx 73-77: inner loop, comparing backwards.  A negative list
      index (Python would wrap around) is made an error here and shown not to
      occur. *)
  Fixpoint bm_inner (l sub : list A) (j i : nat) : result scan :=
    match nth_error sub j, nth_error l i with
    | Some x, Some y =>
      if eqb x y then
        match j, i with
        | 0, _ => Ok (Found i)
        | S j', S i' => bm_inner l sub j' i'
        | S _, 0 => Err IndexError
        end
      else Ok (Mismatch i j)
    | _, _ => Err IndexError
    end.

  (** list_utils.pyx 71-79: outer loop *)
  Fixpoint bm_loop (fuel : nat) (l sub : list A) (char_table : dict A nat)
           (offset_table : list nat) (i : nat) : result Z :=
    if i <? length l then
      match fuel with
      | 0 => Err OutOfFuel
      | S fuel' =>
        do r <- bm_inner l sub (length sub - 1) i ;
        match r with
        | Found k => Ok (Z.of_nat k)
        | Mismatch i' j =>
          do o <- of_option IndexError (nth_error offset_table (length sub - 1 - j)) ;
          do c <- of_option IndexError (nth_error l i') ;
          bm_loop fuel' l sub char_table offset_table
                  (i' + Nat.max o (match dict_get c char_table with Some d => d | None => 1 end))
        end
      end
    else Ok (-1)%Z.

  (** list_utils.pyx 59-79 search_sublist_bm; the tables are optional
      arguments in the code, callers pass exactly the tables made below. *)
  Definition search_with_tables (l sub : list A) (ct : dict A nat) (ot : list nat) : result Z :=
    match sub with
    | [] => Ok 0%Z
    | _ => bm_loop (S (length l)) l sub ct ot (length sub - 1)
    end.
  Definition search_sublist_bm (l sub : list A) : result Z :=
    match sub with
    | [] => Ok 0%Z
    | _ =>
      do ot <- make_offset_table sub ;
      search_with_tables l sub (make_char_table sub) ot
    end.

  (** list_utils.pyx 47-57 is_sublist_bm *)
  Definition is_sublist_bm (l sub : list A) : result bool :=
    do k <- search_sublist_bm l sub ; Ok (0 <=? k)%Z.

  (** list_utils.pyx 37-43: loop of search_sublist_all_occurences *)
  Fixpoint all_occ_loop (fuel : nat) (l sub : list A) (ct : dict A nat) (ot : list nat)
           (index : nat) (subindex : Z) (occ : list nat) : result (list nat) :=
    if (0 <=? subindex)%Z && (index <=? length l) then
      match fuel with
      | 0 => Err OutOfFuel
      | S fuel' =>
        let index := index + Z.to_nat subindex in
        let occ := occ ++ [index] in
        let index := index + 1 in
        do s <- search_with_tables (skipn index l) sub ct ot ;
        all_occ_loop fuel' l sub ct ot index s occ
      end
    else Ok occ.
  (** list_utils.pyx 24-45 search_sublist_all_occurences *)
  Definition search_all (l sub : list A) : result (list nat) :=
    let ct := make_char_table sub in
    do ot <- make_offset_table sub ;
    do s <- search_with_tables l sub ct ot ;
    all_occ_loop (length l + 2) l sub ct ot 0 s [].

  (** list_utils.pyx 132-139 view_of_n_partitions.  [range(a, b, step)] with
      [step = 0] raises ValueError in Python, but [divmod] by 0 raises first;
      [s >= 1] whenever it is reached. *)
  Fixpoint range_step (fuel a b step : nat) : list nat :=
    match fuel with
    | 0 => []
    | S f => if a <? b then a :: range_step f (a + step) b step else []
    end.
  Definition view_of_n_partitions (l : list A) (n : Z) : result (list (list A)) :=
    let L := length l in
    let n := Z.to_nat (Z.max (Z.min n (Z.of_nat L)) 0) in
    if n =? 0 then Err ZeroDivisionError
    else
      let s := L / n in
      let r := L mod n in
      let t := s + 1 in
      Ok (map (fun p => slice l p (p + t)) (range_step (r * t) 0 (r * t) t) ++
          map (fun p => slice l p (p + s)) (range_step L (r * t) L s)).

  (** list_utils.pyx 141-144 enumerate_reversed *)
  Definition enumerate_reversed (l : list A) : list (nat * A) :=
    map (fun '(index, value) => (length l - 1 - index, value))
        (combine (seq 0 (length l)) (rev l)).

  (** list_utils.pyx 160-185 iterate_self_product (the generator's output as a list) *)
  Definition iterate_self_product (l : list A) (skip_diagonal : bool) : list (A * A) :=
    flat_map
      (fun '(i, x) =>
         flat_map
           (fun '(j, y) => if negb skip_diagonal || negb (i =? j) then [(x, y)] else [])
           (combine (seq 0 (length l)) l))
      (combine (seq 0 (length l)) l).

  (** list_utils.pyx 211-222: body of the double loop of
      longest_common_sublists.  State: previous matrix row, current row (built
      left to right), best length, indices.  The code keeps the whole matrix;
      only [matrix[i-1,j-1]] is ever read, so the previous row suffices. *)
  Definition lcs_cell (prev row : list nat) (i j : nat) (x y : A)
             (st : nat * list (nat * nat)) : nat * (nat * list (nat * nat)) :=
    let '(len, indices) := st in
    if eqb x y then
      let m := if (i =? 0) || (j =? 0) then 1 else nth (j - 1) prev 0 + 1 in
      if len <? m then (m, (m, [(i, j)]))
      else if m =? len then (m, (len, indices ++ [(i, j)]))
      else (m, (len, indices))
    else (0, (len, indices)).
  Fixpoint lcs_row (prev : list nat) (i j : nat) (x : A) (ys : list A) (row : list nat)
           (st : nat * list (nat * nat)) : list nat * (nat * list (nat * nat)) :=
    match ys with
    | [] => (row, st)
    | y :: ys' =>
      let '(m, st') := lcs_cell prev row i j x y st in
      lcs_row prev i (S j) x ys' (row ++ [m]) st'
    end.
  Fixpoint lcs_rows (prev : list nat) (i : nat) (xs ys : list A)
           (st : nat * list (nat * nat)) : nat * list (nat * nat) :=
    match xs with
    | [] => st
    | x :: xs' =>
      let '(row, st') := lcs_row prev i 0 x ys [] st in
      lcs_rows row (S i) xs' ys st'
    end.
  (** list_utils.pyx 189-224 longest_common_sublists *)
  Definition longest_common_sublists (a b : list A) : nat * list (nat * nat) :=
    let '(len, indices) := lcs_rows [] 0 a b (0, []) in
    (len, map (fun '(i, j) => (i + 1 - len, j + 1 - len)) indices).
End BM.

(** list_utils.pyx 146-158 deep_flatten: a Python value is a list of values
    or something else *)
Inductive pyval (A : Type) := Leaf (a : A) | PyList (l : list (pyval A)).
Arguments Leaf {A} a.
Arguments PyList {A} l.
Fixpoint deep_flatten {A} (xs : pyval A) : list A :=
  match xs with
  | PyList l => fold_left (fun flat_list x => flat_list ++ deep_flatten x) l []
  | Leaf a => [a]
  end.

(** Python [zip] of all lists: stops at the shortest list; no list, no row *)
Definition min_length {A} (ls : list (list A)) : nat :=
  match ls with
  | [] => 0
  | l :: ls' => fold_left (fun m l' => Nat.min m (length l')) ls' (length l)
  end.
Definition column {A} (k : nat) (ls : list (list A)) : list A :=
  flat_map (fun l => match nth_error l k with Some x => [x] | None => [] end) ls.
Definition zip_star {A} (ls : list (list A)) : list (list A) :=
  map (fun k => column k ls) (seq 0 (min_length ls)).
(** list_utils.pyx 226-235 shuffle_together; [shuffle] is the effect of
    [random.shuffle] on the row list *)
Definition shuffle_together {A} (shuffle : list (list A) -> list (list A))
           (list_of_lists : list (list A)) : list (list A) :=
  zip_star (shuffle (zip_star list_of_lists)).
