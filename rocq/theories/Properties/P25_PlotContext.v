(** Properties C116 and C117: plot contexts and grids of subplots *)
From Coq Require Import String.
From Verif.Model Require Import Base Plots.
From Verif.Spec Require Import PlotSpec.
From Verif.Proofs Require PlotA.
Open Scope string_scope.
Open Scope list_scope.
Open Scope nat_scope.

(** C116: Plot contexts save, log and close *)
(** every figure is saved with what was drawn in its context, its log file is
    complete and closed, and pyplot is left as it was, also after exceptions *)
Theorem C116_blocks : forall inner can_save keep p w t n r, plain can_save p = true -> trace (length (heap w)) [] p = (t, n, r) ->
  exists w', run inner can_save keep [] p w = (w', r) /\ saved w' = saved w ++ files inner t /\ known w' = known w /\ shown w' = shown w /\
    tight w' = tight w ++ ends_tight t /\
    (forall i x, In (Begin i x) t -> nth_error (heap w') i = Some (result_of inner i x true t)) /\
    (forall i, i < length (heap w) -> nth_error (heap w') i = nth_error (heap w) i).
Proof. exact @PlotA.C116_blocks. Qed.
Print Assumptions C116_blocks.
(** a single context that shows its figure shows this one, if pyplot has no other *)
Theorem C116_show : forall inner can_save keep x p w t n r, known w = [] -> x_show x = true -> plain can_save p = true -> match x_file x with Some f => can_save f | None => true end = true ->
  trace (S (length (heap w))) [length (heap w)] p = (t, n, r) ->
  exists w', run inner can_save keep [] (With x p) w = (w', r) /\ shown w' = shown w ++ [[length (heap w)]] /\
    nth_error (heap w') (length (heap w)) = Some (result_of inner (length (heap w)) x true t).
Proof. exact @PlotA.C116_show. Qed.
Print Assumptions C116_show.
(** inside of a context another figure can be shown, closed or left open in place of its own *)
Theorem C116_other_figure_witness : forall inner can_save c, c_fails c = false ->
  let x show := Context None show None None false in
  let w0 := World [] [] [] [] [] in
  (let w := fst (run inner can_save true [] (With (x false) (With (x true) (CallOn 0 c))) w0) in shown w = [[0; 1]] /\ known w = [0]) /\
  (let w := fst (run inner can_save true [] (With (x false) NewFigure) w0) in known w = [0]) /\
  (let w := fst (run inner can_save true [] (Seq NewFigure (With (x false) CloseFigure)) w0) in known w = []).
Proof. exact @PlotA.C116_other_figure_witness. Qed.
Print Assumptions C116_other_figure_witness.
(** if the figure cannot be saved, the log file is not closed and the figure not removed *)
Theorem C116_save_witness : forall inner can_save keep file log, can_save file = false ->
  run inner can_save keep [] (With (Context None false (Some file) (Some log) false) (CallOn 0 (Call Plot log true))) (World [] [] [] [] []) =
  (World [Figure None [] (Some (Logfile log [(Plot, log)] false))] [0] [] [] [], true).
Proof. exact @PlotA.C116_save_witness. Qed.
Print Assumptions C116_save_witness.
(** a histogram draws bars; the inner block raises an exception, which is caught *)
Definition bars_of_hist (c : call) : list call := match c_kind c with Hist => [Call Bar "b" false] | _ => [] end.
Definition nested : prog :=
  With (Context (Some "outer") false (Some "o.png") (Some "o.log") true)
    (Seq (CallOn 0 (Call Hist "h" false))
    (Seq (Try (With (Context None false (Some "i.png") None false) (Seq (CallOn 1 (Call Other "grid" false)) (CallOn 0 (Call Plot "bad" true)))) (CallOn 0 (Call Legend "" false)))
         (CallOn 0 (Call Scatter "s" true)))).
Example C116_example : plain (fun _ => true) nested = true /\ exists t n, trace 0 [] nested = (t, n, true) /\ length t = 9 /\
  files bars_of_hist t = [("i.png", Figure None [] None);
    ("o.png", Figure (Some "outer") [Call Hist "h" false; Call Other "grid" false; Call Legend "" false]
               (Some (Logfile "o.log" [(Hist, "h"); (Bar, "b"); (Legend, ""); (Scatter, "s")] false)))] /\ ends_tight t = [0].
Proof. split; [reflexivity|]. do 2 eexists. split; [vm_compute; reflexivity|]. vm_compute. auto. Qed.
Example C116_example_show : let w := World [] [] [] [] [] in let x := Context None true None None true in known w = [] /\ x_show x = true /\
  plain (fun _ => false) (CallOn 0 (Call Bar "b" false)) = true /\ trace 1 [0] (CallOn 0 (Call Bar "b" false)) = ([On 0 (Call Bar "b" false)], 1, false).
Proof. repeat split; reflexivity. Qed.

(** C117: Grids of subplots *)
Theorem C117_get_axes : forall rows columns, (0 < rows)%Z -> (0 < columns)%Z -> exists a, grid rows columns = Ok a /\
  forall i j, ((- rows <= i < rows)%Z -> (- columns <= j < columns)%Z -> get_axes a i j = Ok ((if (i <? 0)%Z then i + rows else i)%Z, (if (j <? 0)%Z then j + columns else j)%Z)) /\
    (~ (- rows <= i < rows)%Z \/ ~ (- columns <= j < columns)%Z -> get_axes a i j = Err IndexError).
Proof. exact @PlotA.C117_get_axes. Qed.
Print Assumptions C117_get_axes.
(** every subplot once, row by row *)
Theorem C117_list : forall rows columns, (0 < rows)%Z -> (0 < columns)%Z -> exists a, grid rows columns = Ok a /\
  length (get_list_of_axes a) = Z.to_nat (rows * columns) /\
  forall i j, (0 <= i < rows)%Z -> (0 <= j < columns)%Z -> nth_error (get_list_of_axes a) (Z.to_nat (i * columns + j)) = Some (i, j).
Proof. exact @PlotA.C117_list. Qed.
Print Assumptions C117_list.
Theorem C117_errors : forall rows columns, (rows <= 0)%Z \/ (columns <= 0)%Z -> grid rows columns = Err ValueError.
Proof. exact @PlotA.C117_errors. Qed.
Print Assumptions C117_errors.
Example C117_example : (do a <- grid 2 3 ; get_axes a (-1) 2) = Ok (1, 2)%Z /\ (do a <- grid 3 1 ; get_axes a 2 0) = Ok (2, 0)%Z /\
  (do a <- grid 1 1 ; get_axes a 0 1) = Err IndexError /\
  (do a <- grid 1 3 ; Ok (get_list_of_axes a)) = Ok [(0, 0); (0, 1); (0, 2)]%Z.
Proof. repeat split; reflexivity. Qed.
