(** Properties C110 and C111: text files and figures of the result collector *)
From Coq Require Import String QArith Permutation.
From Verif.Model Require Import Base ResultCollector.
From Verif.Spec Require Import ResultSpec.
From Verif.Proofs Require RcE.
Open Scope string_scope.
Open Scope list_scope.
Open Scope nat_scope.
(** two miners and two data sets given by their names; one of the results is measured twice *)
Definition study : list op :=
  [Color "fast" "red"; Add (Call "fast" "score" (XStr "small") (1 # 2)); Add (Call "good" "score" (XStr "small") 1);
   Add (Call "fast" "score" (XStr "large") (1 # 4)); Add (Call "good" "score" (XStr "large") (3 # 4));
   Add (Call "good" "score" (XStr "large") (1 # 4)); Marker "good" "o"; Add (Call "good" "runtime" (XNum 3) 7)].
Example study_few : (Z.of_nat (length (calls study)) < 2 ^ 63)%Z.
Proof. vm_compute. reflexivity. Qed.
Example as_is : forall l : list Z, Permutation ((fun l => l) l) l.
Proof. intros l. apply Permutation_refl. Qed.

(** C110: The text files of a result collector hold what was added *)
Theorem C110_text : forall (ord : list Z -> list Z) m x_name ops,
  (forall l, Permutation (ord l) l) -> (Z.of_nat (length (calls ops)) < 2 ^ 63)%Z ->
  exists c es, run_ops ord m ops = Ok c /\ save_plots m x_name c = Ok es /\
    Forall2 (fun tn fe => fst fe = (fst tn ++ ".txt")%string /\ is_entry m (calls ops) x_name (fst tn) (snd tn) (snd fe))
      (flat_map (fun t => map (pair t) (kept m (calls ops) t)) (types (calls ops))) (appended es).
Proof. exact @RcE.C110_text. Qed.
Print Assumptions C110_text.
(** the miners that are written *)
Theorem C110_kept : forall m ks t n,
  In n (kept m ks t) <-> In n (miners ks t) /\ forall n', In n' (miners ks t) -> points m ks t n' <= points m ks t n.
Proof. exact @RcE.C110_kept. Qed.
Print Assumptions C110_kept.
(** the order in which Python lists a set does not matter *)
Theorem C110_order : forall (ord ord' : list Z -> list Z) m ops,
  (forall l, Permutation (ord l) l) -> (forall l, Permutation (ord' l) l) -> run_ops ord m ops = run_ops ord' m ops.
Proof. exact @RcE.C110_order. Qed.
Print Assumptions C110_order.
(** different labels have different numbers *)
Theorem C110_labels : forall ks s s', In s (labels_used ks) -> In s' (labels_used ks) -> number ks (XStr s) = number ks (XStr s') -> s = s'.
Proof. exact @RcE.C110_labels. Qed.
Print Assumptions C110_labels.
Theorem C110_label_witness : forall (ord : list Z -> list Z), exists c es,
  run_ops ord Line [Add (Call "m" "t" (XStr "a") 1); Add (Call "m" "t" (XNum 0) 3)] = Ok c /\ save_plots Line "x" c = Ok es /\
  map (fun fe => (fst fe, en_miner (snd fe), en_xs (snd fe), en_counts (snd fe))) (appended es) = [("t.txt", "m", [0%Z], [2%Z])].
Proof. exact @RcE.C110_label_witness. Qed.
Print Assumptions C110_label_witness.
Theorem C110_dropped_witness : forall (ord : list Z -> list Z), exists c es,
  run_ops ord Line [Add (Call "a" "t" (XNum 1) 1); Add (Call "b" "t" (XNum 1) 2); Add (Call "b" "t" (XNum 2) 3)] = Ok c /\ save_plots Line "x" c = Ok es /\
  map (fun fe => (fst fe, en_miner (snd fe))) (appended es) = [("t.txt", "b")].
Proof. exact @RcE.C110_dropped_witness. Qed.
Print Assumptions C110_dropped_witness.
Example C110_example : kept Line (calls study) "score" = ["fast"; "good"] /\ values_at (calls study) "score" "good" 1 = [(3 # 4)%Q; (1 # 4)%Q] /\
  kept Scatter (calls study) "score" = ["good"] /\ labels_used (calls study) = ["small"; "large"] /\
  exists c es, run_ops (fun l => l) Line study = Ok c /\ save_plots Line "data" c = Ok es /\
  map (fun fe => (fst fe, en_miner (snd fe), en_xs (snd fe), en_counts (snd fe), length (en_stddevs (snd fe)))) (appended es) =
    [("score.txt", "fast", [0%Z; 1%Z], [1%Z; 1%Z], 0%nat); ("score.txt", "good", [0%Z; 1%Z], [1%Z; 2%Z], 1%nat); ("runtime.txt", "good", [3%Z], [1%Z], 0%nat)].
Proof. do 4 (split; [reflexivity|]). do 2 eexists. split; [vm_compute; reflexivity|]. split; [vm_compute; reflexivity|]. reflexivity. Qed.

(** C111: The figures of a result collector show what was added *)
Theorem C111_figures : forall (ord : list Z -> list Z) m x_name ops,
  (forall l, Permutation (ord l) l) -> (Z.of_nat (length (calls ops)) < 2 ^ 63)%Z ->
  exists c es, run_ops ord m ops = Ok c /\ save_plots m x_name c = Ok es /\
    Forall2 (is_figure m ops x_name) (all_figures m (calls ops)) (saved es).
Proof. exact @RcE.C111_figures. Qed.
Print Assumptions C111_figures.
(** bars beside each other do not meet, and they stand symmetrically around their x *)
Theorem C111_dodge : forall i j n, i < n -> j < n ->
  (dodge i n = dodge j n -> i = j) /\ (i + j = n - 1 -> dodge i n = (- dodge j n)%Z).
Proof. exact @RcE.C111_dodge. Qed.
Print Assumptions C111_dodge.
(** a miner has its color and its marker *)
Theorem C111_styles : forall m ks t (f : string -> string),
  kept m ks t = miners ks t \/ (exists n, miners ks t = kept m ks t ++ [n] /\ forall n', In n' (kept m ks t) -> f n' <> f n) ->
  styles m ks t f = map f (kept m ks t).
Proof. exact @RcE.C111_styles. Qed.
Print Assumptions C111_styles.
(** the figures of a result type, and those of result types of which none is the beginning of another, have different files *)
Theorem C111_names : forall m ks t l a b t' l' a' b',
  (forall u u', In u (types ks) -> In u' (types ks) -> String.prefix u u' = true -> u = u') ->
  In (t, l, (a, b)) (all_figures m ks) -> In (t', l', (a', b')) (all_figures m ks) ->
  file_name t l a b = file_name t' l' a' b' -> (t, l, (a, b)) = (t', l', (a', b')).
Proof. exact @RcE.C111_names. Qed.
Print Assumptions C111_names.
Theorem C111_color_witness : forall (ord : list Z -> list Z), exists c es,
  run_ops ord Line [Color "a" "red"; Color "b" "blue"; Add (Call "a" "t" (XNum 1) 1); Add (Call "b" "t" (XNum 1) 2); Add (Call "b" "t" (XNum 2) 3)] = Ok c /\
  save_plots Line "x" c = Ok es /\ map (fun fp => (keys (pl_columns (snd fp)), pl_colors (snd fp))) (saved es) = [(["b"], ["red"]); (["b"], ["red"])].
Proof. exact @RcE.C111_color_witness. Qed.
Print Assumptions C111_color_witness.
Theorem C111_index_witness : forall (ord : list Z -> list Z), exists c es,
  run_ops ord Line [Add (Call "a" "t" (XNum 1) 1); Add (Call "b" "t" (XNum 2) 2)] = Ok c /\ save_plots Line "x" c = Ok es /\
  map (fun fp => (keys (pl_columns (snd fp)), pl_index (snd fp))) (saved es) = [(["a"; "b"], [1%Z]); (["a"; "b"], [1%Z])] /\
  map (fun fe => (en_miner (snd fe), en_xs (snd fe))) (appended es) = [("a", [1%Z]); ("b", [2%Z])].
Proof. exact @RcE.C111_index_witness. Qed.
Print Assumptions C111_index_witness.
Theorem C111_names_witness : forall (ord : list Z -> list Z), exists c es,
  run_ops ord Line [Add (Call "m" "a" (XNum 1) 1); Add (Call "m" "a_with_legend" (XNum 1) 2)] = Ok c /\ save_plots Line "x" c = Ok es /\
  map (fun fp => (fst fp, pl_ylabel (snd fp))) (saved es) =
    [("a_with_legend.pdf", "a"); ("a.pdf", "a"); ("a_with_legend_with_legend.pdf", "a_with_legend"); ("a_with_legend.pdf", "a_with_legend")].
Proof. exact @RcE.C111_names_witness. Qed.
Print Assumptions C111_names_witness.
Example C111_example : exists c es, run_ops (fun l => l) Line study = Ok c /\ save_plots Line "data" c = Ok es /\
  map fst (saved es) = ["score_with_legend_with_stddev.pdf"; "score_with_legend_with_stderr.pdf"; "score_with_legend.pdf";
    "score_with_stddev.pdf"; "score_with_stderr.pdf"; "score.pdf"; "runtime_with_legend.pdf"; "runtime.pdf"] /\
  map (fun fp => (length (pl_bars (snd fp)), pl_unit (snd fp))) (saved es) =
    [(1, true); (1, true); (0, true); (1, true); (1, true); (0, true); (0, false); (0, false)].
Proof. do 2 eexists. split; [vm_compute; reflexivity|]. split; [vm_compute; reflexivity|]. split; reflexivity. Qed.
Example C111_example_styles : kept Line (calls study) "score" = miners (calls study) "score" /\
  styles Line (calls study) "score" (color_set study) = ["red"; "black"] /\ styles Line (calls study) "score" (marker_set study) = ["X"; "o"].
Proof. repeat split. Qed.
Example C111_example_dropped : exists ks, miners ks "t" = kept Line ks "t" ++ ["b"] /\ kept Line ks "t" = ["a"].
Proof. exists [Call "a" "t" (XNum 1) 1; Call "a" "t" (XNum 2) 1; Call "b" "t" (XNum 1) 1]. split; reflexivity. Qed.
Example C111_example_names : forall u u', In u (types (calls study)) -> In u' (types (calls study)) -> String.prefix u u' = true -> u = u'.
Proof. intros u u' [<-|[<-|[]]] [<-|[<-|[]]]; cbn; congruence. Qed.
