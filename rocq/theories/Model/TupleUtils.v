(** Model of prolothar_common/collections/tuple_utils.pyx *)
From Verif.Model Require Import Base.

Section Tuple.
  Context {A : Type}.
  (** the parallel lists current_left / current_middle / current_right are
      modelled as one list of triples *)
  Definition triple := (list A * list A * list A)%type.

  (** tuple_utils.pyx 29-32; [range] of a non-positive number is empty *)
  Definition init_triples (t : list A) (k : Z) : list triple :=
    flat_map
      (fun i => match nth_error t i with
                | Some x => [(firstn i t, [x], skipn (i + 1) t)]
                | None => []            (* i <= len(t) - k < len(t): not reached *)
                end)
      (seq 0 (Z.to_nat (Z.of_nat (length t) - k + 1))).
  (** tuple_utils.pyx 37-44 *)
  Definition extend_triples (cur : list triple) : list triple :=
    flat_map
      (fun '(left_i, middle_i, right_i) =>
         flat_map
           (fun j => match nth_error right_i j with
                     | Some x => [(left_i ++ firstn j right_i, middle_i ++ [x], skipn (j + 1) right_i)]
                     | None => []
                     end)
           (seq 0 (length right_i)))
      cur.
  (** tuple_utils.pyx 33-48: [while k > 1], c = k - 1 iterations *)
  Fixpoint extend_loop (c : nat) (cur : list triple) : list triple :=
    match c with 0 => cur | S c' => extend_loop c' (extend_triples cur) end.
  (** tuple_utils.pyx 20-55 *)
  Definition all_splits_of_size_k (t : list A) (k : Z) : result (list (list A * list A)) :=
    if (k <? 1)%Z then Err ValueError
    else
      Ok (map (fun '(l, m, r) => (m, l ++ r))
              (extend_loop (Z.to_nat (k - 1)) (init_triples t k))).
End Tuple.
