(** Properties C118 to C121: histograms, heatmaps, Min and colors *)
From Coq Require Import String QArith Sorted Permutation Reals.
From Verif.Model Require Import Base Sort Histogram Heatmap FuncTools Color.
From Verif.Spec Require Import FigureSpec.
From Verif.Proofs Require PlotB PlotC.
Open Scope string_scope.
Open Scope list_scope.
Open Scope nat_scope.

(** C118: Histograms show frequencies *)
Theorem C118_value : forall (V : Type) (EV : Eq V) leb (values : list V) width, total_order leb -> values <> [] ->
  exists x y, plot_counts leb values "value" width = Ok (x, y, width) /\ bars values x y /\ StronglySorted (fun v u => leb v u = true /\ v <> u) x.
Proof. exact @PlotB.C118_value. Qed.
Print Assumptions C118_value.
(** values with the same frequency are in the order in which they were seen first *)
Theorem C118_ascending : forall (V : Type) (EV : Eq V) leb (values : list V) width, values <> [] ->
  exists x y, plot_counts leb values "frequency_asc" width = Ok (x, y, width) /\ bars values x y /\
    StronglySorted (fun v u => frequency v values < frequency u values \/ (frequency v values = frequency u values /\ first v values < first u values)) x.
Proof. exact @PlotB.C118_ascending. Qed.
Print Assumptions C118_ascending.
Theorem C118_descending : forall (V : Type) (EV : Eq V) leb (values : list V) width, values <> [] ->
  exists x y, plot_counts leb values "frequency_desc" width = Ok (x, y, width) /\ bars values x y /\
    StronglySorted (fun v u => frequency u values < frequency v values \/ (frequency v values = frequency u values /\ first v values < first u values)) x.
Proof. exact @PlotB.C118_descending. Qed.
Print Assumptions C118_descending.
(** the heights sum up to the number of values *)
Theorem C118_total : forall (V : Type) (EV : Eq V) (values x : list V) y, bars values x y -> fold_right Nat.add 0 y = length values.
Proof. exact @PlotB.C118_total. Qed.
Print Assumptions C118_total.
Theorem C118_errors : forall (V : Type) (EV : Eq V) leb (values : list V) order_by width,
  values = [] \/ ~ In order_by ["value"; "frequency_asc"; "frequency_desc"] -> plot_counts leb values order_by width = Err ValueError.
Proof. exact @PlotB.C118_errors. Qed.
Print Assumptions C118_errors.
Theorem C118_bins : forall (A : Type) (values : list A) bins,
  (bins = None \/ bins = Some 0%Z -> (values = [] -> nr_of_bins values bins = Err ValueError) /\
     (values <> [] -> exists k, nr_of_bins values bins = Ok k /\ (1 <= k /\ k * k <= Z.of_nat (length values) < (k + 1) * (k + 1))%Z)) /\
  (forall k, bins = Some k -> k <> 0%Z -> nr_of_bins values bins = if (k <? 0)%Z then Err ValueError else Ok k).
Proof. exact @PlotB.C118_bins. Qed.
Print Assumptions C118_bins.
Example C118_example : plot_counts Z.leb [5; 3; 5; 4; 3; 5]%Z "value" 1 = Ok ([3; 4; 5]%Z, [2; 1; 3], 1%Z) /\
  plot_counts Z.leb [5; 3; 4; 4; 3; 2]%Z "frequency_desc" 1 = Ok ([3; 4; 5; 2]%Z, [2; 2; 1; 1], 1%Z) /\
  plot_counts Z.leb [5; 3; 4; 4; 3; 2]%Z "frequency_asc" 1 = Ok ([5; 2; 3; 4]%Z, [1; 1; 2; 2], 1%Z) /\
  nr_of_bins [5; 3; 4; 4; 3; 2]%Z None = Ok 2%Z.
Proof. repeat split; reflexivity. Qed.
Example C118_example_order : total_order Z.leb.
Proof. repeat split; intros; rewrite ?Z.leb_le in *; lia. Qed.

(** C119: Heatmaps show the data *)
Theorem C119_plot : forall data row_labels col_labels show label,
  (shape data = [length row_labels; length col_labels] -> exists ax, plot_heatmap data row_labels col_labels show label = Ok ax /\
     image ax = data /\ colorbar ax = (if show then Some label else None) /\ xlabels ax = col_labels /\ ylabels ax = row_labels /\
     (forall j, nth_error (xticks ax) j = if j <? length col_labels then Some (Z.of_nat j) else None) /\
     (forall i, nth_error (yticks ax) i = if i <? length row_labels then Some (Z.of_nat i) else None) /\
     (forall j, nth_error (xminor ax) j = if j <? length col_labels + 1 then Some (inject_Z (Z.of_nat j) - (1 # 2))%Q else None) /\
     (forall i, nth_error (yminor ax) i = if i <? length row_labels + 1 then Some (inject_Z (Z.of_nat i) - (1 # 2))%Q else None)) /\
  (shape data <> [length row_labels; length col_labels] -> plot_heatmap data row_labels col_labels show label = Err ValueError).
Proof. exact @PlotC.C119_plot. Qed.
Print Assumptions C119_plot.
(** the array that is annotated *)
Theorem C119_annotate : forall valfmt below above rest im data a n m t, data = Array a \/ (data = Nothing /\ array_of im = a) -> shape a = [n; m] -> (vmin im < vmax im)%Q ->
  exists texts, annotate_heatmap valfmt (below :: above :: rest) im data (Some t) = Ok texts /\ length texts = n * m /\
    forall i j, i < n -> j < m -> exists color, nth_error texts (i * m + j) = Some (Text j i (valfmt (cell a i j)) color) /\
      ((t < cell a i j)%Q -> color = above) /\ ((cell a i j <= t)%Q -> color = below).
Proof. exact @PlotC.C119_annotate. Qed.
Print Assumptions C119_annotate.
(** without a threshold: the middle between the lower end of the colors and the largest value *)
Theorem C119_default : forall valfmt below above rest im data a n m, data = Array a \/ (data = Nothing /\ array_of im = a) -> shape a = [n; m] -> 0 < n -> 0 < m -> (vmin im < vmax im)%Q ->
  exists texts q, annotate_heatmap valfmt (below :: above :: rest) im data None = Ok texts /\ length texts = n * m /\
    (exists i j, i < n /\ j < m /\ q = cell a i j) /\ (forall i j, i < n -> j < m -> (cell a i j <= q)%Q) /\
    forall i j, i < n -> j < m -> exists color, nth_error texts (i * m + j) = Some (Text j i (valfmt (cell a i j)) color) /\
      (((vmin im + q) / 2 < cell a i j)%Q -> color = above) /\ ((cell a i j <= (vmin im + q) / 2)%Q -> color = below).
Proof. exact @PlotC.C119_default. Qed.
Print Assumptions C119_default.
(** an image of one color: all texts have the first color *)
Theorem C119_constant : forall valfmt below above rest im data a n m t, data = Array a \/ (data = Nothing /\ array_of im = a) -> shape a = [n; m] -> (vmin im == vmax im)%Q -> (t = None -> 0 < n /\ 0 < m) ->
  exists texts, annotate_heatmap valfmt (below :: above :: rest) im data t = Ok texts /\ length texts = n * m /\
    forall i j, i < n -> j < m -> nth_error texts (i * m + j) = Some (Text j i (valfmt (cell a i j)) below).
Proof. exact @PlotC.C119_constant. Qed.
Print Assumptions C119_constant.
Theorem C119_errors : forall valfmt colors im t, annotate_heatmap valfmt colors im AList t = Err AttributeError /\
  forall a n m, shape a = [n; m] -> n = 0 \/ m = 0 -> annotate_heatmap valfmt colors im (Array a) None = Err ValueError.
Proof. exact @PlotC.C119_errors. Qed.
Print Assumptions C119_errors.
Definition two_by_two : ndarray := Nd [2; 2] (fun i j => inject_Z (nth (2 * i + j) [1; 2; 5; 9]%Z 0%Z)).
Definition im : picture := Picture two_by_two 1 9.
Example C119_example : shape two_by_two = [2; 2] /\ (vmin im < vmax im)%Q /\
  annotate_heatmap (fun q => if Qeq_bool q 9 then "nine" else "other") ["black"; "white"] im Nothing None =
  Ok [Text 0 0 "other" "black"; Text 1 0 "other" "black"; Text 0 1 "other" "black"; Text 1 1 "nine" "white"] /\
  annotate_heatmap (fun q => if Qeq_bool q 9 then "nine" else "other") ["black"; "white"] im (Array two_by_two) (Some 3%Q) =
  Ok [Text 0 0 "other" "black"; Text 1 0 "other" "black"; Text 0 1 "other" "white"; Text 1 1 "nine" "white"].
Proof. repeat split; reflexivity. Qed.
Example C119_example_constant : (vmin (Picture two_by_two 4 4) == vmax (Picture two_by_two 4 4))%Q.
Proof. reflexivity. Qed.

(** C120: Min is smaller than everything *)
Theorem C120_order : forall (V : Type) (EV : Eq V) leb, total_order leb -> let ok (a : obj V) := forall n, a = Least n -> n = 0 in
  (forall a b, ok a -> ok b -> py_le leb a b = true \/ py_le leb b a = true) /\
  (forall a b c, ok a -> ok b -> ok c -> py_le leb a b = true -> py_le leb b c = true -> py_le leb a c = true) /\
  (forall a b, ok a -> ok b -> py_le leb a b = true -> py_le leb b a = true -> a = b) /\
  (forall a b, ok a -> ok b -> (py_eq a b = true <-> a = b) /\ (py_lt leb a b = true <-> py_le leb a b = true /\ a <> b) /\
     py_gt leb a b = py_lt leb b a /\ py_ge leb a b = py_le leb b a) /\
  (forall v, py_lt leb (Least 0) (Val v) = true).
Proof. exact @PlotC.C120_order. Qed.
Print Assumptions C120_order.
Theorem C120_sorted : forall (V : Type) (EV : Eq V) leb (l : list (option V)), total_order leb ->
  exists vs, sorted_none_first leb l = repeat None (length (filter (fun x => match x with None => true | Some _ => false end) l)) ++ map Some vs /\
    Permutation (map Some vs) (filter (fun x => match x with None => false | Some _ => true end) l) /\
    StronglySorted (fun v w => leb v w = true) vs.
Proof. exact @PlotC.C120_sorted. Qed.
Print Assumptions C120_sorted.
(** two different objects of the class are smaller than each other *)
Theorem C120_two_witness : forall (V : Type) (EV : Eq V) leb m n, m <> n -> py_lt (V := V) leb (Least m) (Least n) = true /\ py_lt (V := V) leb (Least n) (Least m) = true.
Proof. exact @PlotC.C120_two_witness. Qed.
Print Assumptions C120_two_witness.
Example C120_example : total_order Z.leb /\ sorted_none_first Z.leb [Some 3; None; Some (-7); None; Some 3]%Z = [None; None; Some (-7); Some 3; Some 3]%Z.
Proof. split; [|reflexivity]. repeat split; intros; rewrite ?Z.leb_le in *; lia. Qed.

(** C121: Light and dark colors *)
Theorem C121_threshold : forall r g b, is_light_or_dark_rgb [r; g; b] = Ok (if (16256250 <? 299 * (r * r) + 587 * (g * g) + 114 * (b * b))%Z then Light else Dark).
Proof. exact @PlotC.C121_threshold. Qed.
Print Assumptions C121_threshold.
(** more of any color never makes a light color dark *)
Theorem C121_monotone : forall r g b r' g' b', (0 <= r <= r')%Z -> (0 <= g <= g')%Z -> (0 <= b <= b')%Z ->
  is_light_or_dark_rgb [r; g; b] = Ok Light -> is_light_or_dark_rgb [r'; g'; b'] = Ok Light.
Proof. exact @PlotC.C121_monotone. Qed.
Print Assumptions C121_monotone.
(** a grey is light from the middle on *)
Theorem C121_grey : forall v, (0 <= v)%Z -> is_light_or_dark_rgb [v; v; v] = Ok (if (128 <=? v)%Z then Light else Dark).
Proof. exact @PlotC.C121_grey. Qed.
Print Assumptions C121_grey.
Theorem C121_errors : forall rgb, length rgb <> 3 -> is_light_or_dark_rgb rgb = Err ValueError.
Proof. exact @PlotC.C121_errors. Qed.
Print Assumptions C121_errors.
Example C121_example : is_light_or_dark_rgb [255; 255; 0]%Z = Ok Light /\ is_light_or_dark_rgb [255; 0; 0]%Z = Ok Light /\ is_light_or_dark_rgb [0; 0; 255]%Z = Ok Dark.
Proof. rewrite !C121_threshold. repeat split; reflexivity. Qed.
