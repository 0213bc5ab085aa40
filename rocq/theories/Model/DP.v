(** Matrices filled row by row by nested loops, as in
    longest_common_subsequence.pyx 32-44 and levenshtein.pyx 59-91: the cell
    (i+1, j+1) is computed from its diagonal, upper and left neighbour. *)
From Verif.Model Require Import Base.

Section DP.
  Context {A V : Type}.
  Variable cell : A -> A -> V -> V -> V -> V.  (* x y diagonal up left *)

  (** inner loop over y_list: [prev] is C[i, j..], [left] is C[i+1, j] *)
  Fixpoint dp_row (x : A) (ys : list A) (prev : list V) (left : V) : list V :=
    match ys, prev with
    | y :: ys', diag :: (up :: _) as prev' =>
      let c := cell x y diag up left in
      c :: dp_row x ys' (tl prev) c
    | _, _ => []
    end.
  (** outer loop over x_list; [col i] is the initial value of C[i, 0] *)
  Fixpoint dp_rows (col : nat -> V) (i : nat) (xs ys : list A) (prev : list V) : list (list V) :=
    match xs with
    | [] => []
    | x :: xs' =>
      let row := col (S i) :: dp_row x ys prev (col (S i)) in
      row :: dp_rows col (S i) xs' ys row
    end.
  Definition dp_matrix (col : nat -> V) (row0 : list V) (xs ys : list A) : list (list V) :=
    row0 :: dp_rows col 0 xs ys row0.
End DP.

(** [C[i][j]]; out of range is an error (the Cython code would not check) *)
Definition entry {V} (C : list (list V)) (i j : nat) : result V :=
  of_option IndexError
    (match nth_error C i with Some row => nth_error row j | None => None end).
