(** Model of prolothar_common/longest_common_subsequence.pyx *)
From Verif.Model Require Import Base DP.

Section Lcs.
  Context {A : Type} `{Eq A}.

  (** longest_common_subsequence.pyx 39-42 *)
  Definition lcs_cell (x y : A) (diag up left : nat) : nat :=
    if eqb x y then diag + 1 else Nat.max left up.
  (** longest_common_subsequence.pyx 32-44 compute_lcs_matrix *)
  Definition compute_lcs_matrix (x_list y_list : list A) : list (list nat) :=
    dp_matrix lcs_cell (fun _ => 0) (repeat 0 (length y_list + 1)) x_list y_list.

  (** longest_common_subsequence.pyx 46-47 *)
  Definition length_of_common_subsequence (x_list y_list : list A) : result nat :=
    entry (compute_lcs_matrix x_list y_list) (length x_list) (length y_list).

  (** longest_common_subsequence.pyx 63-71: the [while] loop; every branch
      decreases i + j, which is used as fuel *)
  Fixpoint lcs_backtrace (fuel : nat) (C : list (list nat)) (x_list y_list : list A)
           (i j : nat) (backtrace : list (nat * nat)) : result (list (nat * nat)) :=
    match i, j with
    | S i', S j' =>
      match fuel with
      | 0 => Err OutOfFuel
      | S fuel' =>
        do x <- of_option IndexError (nth_error x_list i') ;
        do y <- of_option IndexError (nth_error y_list j') ;
        if eqb x y then
          lcs_backtrace fuel' C x_list y_list i' j' (backtrace ++ [(i', j')])
        else
          do up <- entry C i' j ;
          do lft <- entry C i j' ;
          if lft <? up then lcs_backtrace fuel' C x_list y_list i' j backtrace
          else lcs_backtrace fuel' C x_list y_list i j' backtrace
      end
    | _, _ => Ok backtrace
    end.
  (** longest_common_subsequence.pyx 51-72 lcs_with_backtrace *)
  Definition lcs_with_backtrace (x_list y_list : list A) : result (nat * list (nat * nat)) :=
    let C := compute_lcs_matrix x_list y_list in
    do bt <- lcs_backtrace (length x_list + length y_list) C x_list y_list
               (length x_list) (length y_list) [] ;
    do m <- entry C (length x_list) (length y_list) ;
    Ok (m, rev bt).
End Lcs.
