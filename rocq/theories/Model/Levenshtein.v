(** Model of prolothar_common/levenshtein.pyx.  C [int] is modelled by [Z]
    without overflow. *)
From Verif.Model Require Import Base DP.

(** levenshtein.pyx 23 *)
Definition MAX_COST : Z := 100000%Z.

(** levenshtein.pxd 18-21, levenshtein.pyx 25-29 *)
Inductive op_type := DELETE | INSERT | SUBSTITUTE.
Record edit_op := EditOperation { op_i : nat; op_j : nat; op_t : op_type }.

Section Lev.
  Context {A : Type} `{Eq A}.

  (** levenshtein.pyx 83-86 *)
  Definition lev_cell (ins del sub : Z) (x y : A) (diag up left : Z) : Z :=
    let insertions := (left + ins)%Z in
    let deletions := (up + del)%Z in
    let substitutions := (diag + (if eqb x y then 0 else sub))%Z in
    Z.min (Z.min insertions deletions) substitutions.
  (** levenshtein.pyx 59-91 compute_cost_matrix; borders (70-75) are the bare
      indices, whatever the costs *)
  Definition compute_cost_matrix (s1 s2 : list A) (ins del sub : Z) : list (list Z) :=
    dp_matrix (lev_cell ins del sub) Z.of_nat (map Z.of_nat (seq 0 (length s2 + 1))) s1 s2.

  (** levenshtein.pyx 107-129 the [while] loop, including the [reverse] inside
      the loop body *)
  Fixpoint backtrace_loop (fuel : nat) (C : list (list Z)) (i j : nat) (edits : list edit_op)
    : result (list edit_op) :=
    if (i =? 0) && (j =? 0) then Ok edits
    else
      match fuel with
      | 0 => Err OutOfFuel
      | S fuel' =>
        let min_cost := MAX_COST in
        do min_cost <- (if negb (i =? 0) && negb (j =? 0)
                        then do d <- entry C (i - 1) (j - 1) ; Ok (Z.min min_cost d)
                        else Ok min_cost) ;
        do min_cost <- (if negb (i =? 0)
                        then do d <- entry C (i - 1) j ; Ok (Z.min min_cost d)
                        else Ok min_cost) ;
        do min_cost <- (if negb (j =? 0)
                        then do d <- entry C i (j - 1) ; Ok (Z.min min_cost d)
                        else Ok min_cost) ;
        do here <- entry C i j ;
        let is_cost i' j' := match entry C i' j' with Ok d => (min_cost =? d)%Z | Err _ => false end in
        if (min_cost =? here)%Z then
          (* i, j = i-1, j-1: a negative index would follow if one is 0 *)
          if (i =? 0) || (j =? 0) then Err IndexError
          else backtrace_loop fuel' C (i - 1) (j - 1) (rev edits)
        else if negb (i =? 0) && negb (j =? 0) && is_cost (i - 1) (j - 1) then
          backtrace_loop fuel' C (i - 1) (j - 1)
                         (rev (edits ++ [EditOperation (i - 1) (j - 1) SUBSTITUTE]))
        else if negb (i =? 0) && is_cost (i - 1) j then
          backtrace_loop fuel' C (i - 1) j (rev (edits ++ [EditOperation (i - 1) j DELETE]))
        else if negb (j =? 0) && is_cost i (j - 1) then
          backtrace_loop fuel' C i (j - 1) (rev (edits ++ [EditOperation i (j - 1) INSERT]))
        else backtrace_loop fuel' C i j (rev edits)
      end.
  (** levenshtein.pyx 95-131 backtrace; [fuel] bounds the loop iterations *)
  Definition backtrace (fuel : nat) (s1 s2 : list A) (C : list (list Z)) : result (list edit_op) :=
    backtrace_loop fuel C (length s1) (length s2) [].

  (** levenshtein.pyx 42-55 levenshtein_with_backtrace *)
  Definition levenshtein_with_backtrace (fuel : nat) (s1 s2 : list A) (ins del sub : Z)
    : result (Z * list edit_op) :=
    let C := compute_cost_matrix s1 s2 ins del sub in
    do ops <- backtrace fuel s1 s2 C ;
    do c <- entry C (length s1) (length s2) ;     (* cost_matrix[-1][-1] *)
    Ok (c, ops).
End Lev.
