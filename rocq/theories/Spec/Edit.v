(** What it means to edit one sequence into another; independent of the model. *)
From Coq Require Import List Arith ZArith Bool.
Import ListNotations.

(** one single-symbol edit and its price *)
Inductive edit_step {A} (ins del sub : Z) : list A -> list A -> Z -> Prop :=
| step_insert u v y : edit_step ins del sub (u ++ v) (u ++ y :: v) ins
| step_delete u v x : edit_step ins del sub (u ++ x :: v) (u ++ v) del
| step_subst u v x y : edit_step ins del sub (u ++ x :: v) (u ++ y :: v) sub.

(** a sequence of edits and its total price *)
Inductive edit_path {A} (ins del sub : Z) : list A -> list A -> Z -> Prop :=
| path_nil s : edit_path ins del sub s s 0
| path_step s t u c d :
    edit_path ins del sub s t c -> edit_step ins del sub t u d ->
    edit_path ins del sub s u (c + d).

(** [c] is the price of a cheapest edit sequence from [s] to [t] *)
Definition cheapest {A} (ins del sub : Z) (s t : list A) (c : Z) : Prop :=
  edit_path ins del sub s t c /\ forall c', edit_path ins del sub s t c' -> (c <= c')%Z.

(** The sequence described by a set of positioned operations on [s]: before
    position [i] of [s] the symbols [t[j]] with [inserted i j] are inserted in
    the order of [j]; position [i] itself is dropped if [deleted i], replaced
    by [t[j]] if [substituted i j], and kept otherwise. *)
Definition edited {A} (inserted : nat -> nat -> bool) (deleted : nat -> bool)
           (substituted : nat -> nat -> bool) (s t : list A) : list A :=
  let pick (p : nat -> bool) := map snd (filter (fun q => p (fst q)) (combine (seq 0 (length t)) t)) in
  flat_map
    (fun q : nat * option A =>
       let i := fst q in
       pick (inserted i) ++
       match snd q with
       | None => []
       | Some x =>
         if deleted i then []
         else match pick (substituted i) with [] => [x] | ys => ys end
       end)
    (combine (seq 0 (length s + 1)) (map Some s ++ [None])).

(** An alignment of two sequences, built from left to right, with the prices
    the code really uses: an insertion costs 1 as long as nothing of the first
    sequence has been consumed, and a deletion costs 1 as long as nothing of
    the second one has. *)
Inductive priced_alignment {A} (ins del sub : Z) : list A -> list A -> Z -> Prop :=
| pa_nil : priced_alignment ins del sub [] [] 0
| pa_insert s t c y : priced_alignment ins del sub s t c ->
    priced_alignment ins del sub s (t ++ [y]) (c + match s with [] => 1 | _ => ins end)
| pa_delete s t c x : priced_alignment ins del sub s t c ->
    priced_alignment ins del sub (s ++ [x]) t (c + match t with [] => 1 | _ => del end)
| pa_keep s t c x : priced_alignment ins del sub s t c -> priced_alignment ins del sub (s ++ [x]) (t ++ [x]) c
| pa_change s t c x y : priced_alignment ins del sub s t c -> x <> y ->
    priced_alignment ins del sub (s ++ [x]) (t ++ [y]) (c + sub).
