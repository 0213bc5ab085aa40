(** The matrices of levenshtein.pyx, longest_common_subsequence.pyx and
    list_utils.pyx once more, now with the 32 bit integers ([int]) of the
    compiled code.  An addition that leaves their range has no defined result in
    C: it is [None].

    The conversion of Python ints that are no C ints when a function is called
    (OverflowError) is left out, as is the lack of memory for large matrices. *)
From Verif.Model Require Import Base DP Lcs Levenshtein.
From Verif.Model Require ListUtils.
Open Scope nat_scope.

Definition is_int (z : Z) : bool := (- 2 ^ 31 <=? z)%Z && (z <? 2 ^ 31)%Z.
Definition c_int (z : Z) : option Z := if is_int z then Some z else None.
(** [a + b], [min(a, b)], [max(a, b)] *)
Definition lift (f : Z -> Z -> option Z) (a b : option Z) : option Z :=
  match a, b with Some x, Some y => f x y | _, _ => None end.
Definition c_add := lift (fun x y => c_int (x + y)).
Definition c_min := lift (fun x y => Some (Z.min x y)).
Definition c_max := lift (fun x y => Some (Z.max x y)).
(** all values of a matrix, unless one of them is undefined *)
Fixpoint all_some {X} (l : list (option X)) : option (list X) :=
  match l with
  | [] => Some []
  | Some x :: l' => match all_some l' with Some r => Some (x :: r) | None => None end
  | None :: _ => None
  end.

Section M.
  Context {A : Type} `{Eq A}.
  (** the lengths, and the counters that end one above them (levenshtein.pyx
      63-91; simplified to the same bound for the loops of
      longest_common_subsequence.pyx 37-38 and list_utils.pyx 203-212) *)
  Definition counters (a b : list A) : bool := is_int (Z.of_nat (length a + 1)) && is_int (Z.of_nat (length b + 1)).
  (** levenshtein.pyx 83-86 *)
  Definition lev_cell_int (ins del sub : Z) (x y : A) (diag up left : option Z) : option Z :=
    c_min (c_min (c_add left (Some ins)) (c_add up (Some del))) (c_add diag (Some (if eqb x y then 0 else sub)%Z)).
  (** levenshtein.pyx 59-91 *)
  Definition cost_matrix_int (s1 s2 : list A) (ins del sub : Z) : list (list (option Z)) :=
    dp_matrix (lev_cell_int ins del sub) (fun i => c_int (Z.of_nat i))
      (map (fun j => c_int (Z.of_nat j)) (seq 0 (length s2 + 1))) s1 s2.
  (** levenshtein.pyx 42-55 *)
  Definition levenshtein_int (fuel : nat) (s1 s2 : list A) (ins del sub : Z) : option (result (Z * list edit_op)) :=
    if counters s1 s2 then
      match all_some (map all_some (cost_matrix_int s1 s2 ins del sub)) with
      | None => None
      | Some C => Some (do ops <- backtrace fuel s1 s2 C ; do c <- entry C (length s1) (length s2) ; Ok (c, ops))
      end
    else None.

  (** longest_common_subsequence.pyx 39-42 *)
  Definition lcs_cell_int (x y : A) (diag up left : option Z) : option Z :=
    if eqb x y then c_add diag (Some 1%Z) else c_max left up.
  (** longest_common_subsequence.pyx 32-44; none of the values is negative *)
  Definition lcs_matrix_int (x_list y_list : list A) : option (list (list nat)) :=
    if counters x_list y_list then
      option_map (map (map Z.to_nat))
        (all_some (map all_some (dp_matrix lcs_cell_int (fun _ => Some 0%Z) (repeat (Some 0%Z) (length y_list + 1)) x_list y_list)))
    else None.
  (** longest_common_subsequence.pyx 46-47 *)
  Definition lcs_length_int (x_list y_list : list A) : option (result nat) :=
    option_map (fun C => entry C (length x_list) (length y_list)) (lcs_matrix_int x_list y_list).
  (** longest_common_subsequence.pyx 51-72 *)
  Definition lcs_backtrace_int (x_list y_list : list A) : option (result (nat * list (nat * nat))) :=
    option_map (fun C =>
      do bt <- lcs_backtrace (length x_list + length y_list) C x_list y_list (length x_list) (length y_list) [] ;
      do m <- entry C (length x_list) (length y_list) ;
      Ok (m, rev bt)) (lcs_matrix_int x_list y_list).

  (** list_utils.pyx 211-222: as [ListUtils.lcs_cell] *)
  Definition block_cell_int (prev : list nat) (i j : nat) (x y : A) (st : nat * list (nat * nat))
    : option (nat * (nat * list (nat * nat))) :=
    let '(len, indices) := st in
    if eqb x y then
      let m := if (i =? 0) || (j =? 0) then 1 else nth (j - 1) prev 0 + 1 in
      if is_int (Z.of_nat m) then
        Some (if len <? m then (m, (m, [(i, j)]))
              else if m =? len then (m, (len, indices ++ [(i, j)]))
              else (m, (len, indices)))
      else None
    else Some (0, (len, indices)).
  Fixpoint block_row_int (prev : list nat) (i j : nat) (x : A) (ys : list A) (row : list nat)
      (st : nat * list (nat * nat)) : option (list nat * (nat * list (nat * nat))) :=
    match ys with
    | [] => Some (row, st)
    | y :: ys' =>
      match block_cell_int prev i j x y st with
      | Some (m, st') => block_row_int prev i (S j) x ys' (row ++ [m]) st'
      | None => None
      end
    end.
  Fixpoint block_rows_int (prev : list nat) (i : nat) (xs ys : list A) (st : nat * list (nat * nat))
    : option (nat * list (nat * nat)) :=
    match xs with
    | [] => Some st
    | x :: xs' =>
      match block_row_int prev i 0 x ys [] st with
      | Some (row, st') => block_rows_int row (S i) xs' ys st'
      | None => None
      end
    end.
  (** list_utils.pyx 189-224; [i-length+1] is not negative *)
  Definition longest_common_sublists_int (a b : list A) : option (nat * list (nat * nat)) :=
    if counters a b then
      option_map (fun '(len, indices) => (len, map (fun '(i, j) => (i + 1 - len, j + 1 - len)) indices))
        (block_rows_int [] 0 a b (0, []))
    else None.
End M.
