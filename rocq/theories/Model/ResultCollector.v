(** Model of prolothar_common/experiments/result_collector.py.  What
    [save_plots] does to the file system is a list of effects: figures saved
    and entries appended to text files.  Drawing itself (seaborn, matplotlib)
    is not modelled and taken not to raise; of a figure the model keeps what the
    code hands to the drawing functions.  Floats are rationals; standard
    deviations and errors are given by their squares. *)
From Coq Require Import String QArith.
From Verif.Model Require Import Base Sort TwoWayDict Statistics.
Open Scope string_scope.
Open Scope list_scope.
Open Scope nat_scope.

(** 314-318 *)
Inductive mode := Line | Scatter.
(** what is collected for one x: 222-223, 275-276 *)
Inductive collected := CStats (s : statistics) | CList (l : list Q).
Definition create_value_collector (m : mode) : collected :=
  match m with Line => CStats st_empty | Scatter => CList [] end.
(** 225-226, 278-279; a collector is only used by the mode that made it *)
Definition add_to_value_collector (v : Q) (c : collected) : collected :=
  match c with CStats s => CStats (st_push s v) | CList l => CList (l ++ [v]) end.
(** [len] *)
Definition clen (c : collected) : Z := match c with CStats s => st_len s | CList l => Z.of_nat (length l) end.

(** an x is an int or a str *)
Inductive xval := XNum (z : Z) | XStr (s : string).
Definition store := dict string (dict string (dict Z collected)).
(** 326-332 *)
Record collector := Collector {
  rc_results : store; rc_colors : dict string string; rc_markers : dict string string;
  rc_labels : two_way_dict (K := Z) (V := string) }.
Definition new_collector : collector := Collector [] [] [] twd_empty.

(** 342-347; [ord] is the iteration order of a set *)
Definition x_number (ord : list Z -> list Z) (x : xval) (labels : two_way_dict (K := Z) (V := string))
    : result (two_way_dict (K := Z) (V := string) * Z) :=
  match x with
  | XNum z => Ok (labels, z)
  | XStr s =>
    match twd_inverse_lookup labels s with
    | Ok ks => do k <- of_option StopIteration (hd_error (ord ks)) ; Ok (labels, k)
    | Err _ =>
      let labels' := twd_setitem labels (Z.of_nat (length (twd_dict labels))) s in
      Ok (labels', (Z.of_nat (length (twd_dict labels')) - 1)%Z)
    end
  end.
(** 334-350 *)
Definition add_result (ord : list Z -> list Z) (m : mode) (miner_name result_type : string) (x : xval) (value : Q)
    (c : collector) : result collector :=
  let miner_dict := match dict_get result_type (rc_results c) with Some d => d | None => [] end in
  let x_dict := match dict_get miner_name miner_dict with Some d => d | None => [] end in
  do (labels, k) <- x_number ord x (rc_labels c) ;
  let old := match dict_get k x_dict with Some v => v | None => create_value_collector m end in
  Ok (Collector
        (dict_set result_type (dict_set miner_name (dict_set k (add_to_value_collector value old) x_dict) miner_dict)
           (rc_results c)) (rc_colors c) (rc_markers c) labels).
(** 413-417 *)
Definition set_color (miner_name color : string) (c : collector) : collector :=
  Collector (rc_results c) (dict_set miner_name color (rc_colors c)) (rc_markers c) (rc_labels c).
Definition set_marker (miner_name marker : string) (c : collector) : collector :=
  Collector (rc_results c) (rc_colors c) (dict_set miner_name marker (rc_markers c)) (rc_labels c).

(** [sorted] of pairs *)
Definition pair_leb (a b : Z * Q) : bool :=
  (fst a <? fst b)%Z || ((fst a =? fst b)%Z && Qle_bool (snd a) (snd b)).
(** 228-232, 281-287; [zip( *[] )] cannot be unpacked *)
Definition get_x_y (m : mode) (x_dict : dict Z collected) : result (list Z * list Q) :=
  match m with
  | Line =>
    do l <- mapM (fun '(x, c) => match c with CStats s => Ok (x, st_get_mean s) | CList _ => Err AttributeError end) x_dict ;
    match stable_sort pair_leb l with [] => Err ValueError | l' => Ok (map fst l', map snd l') end
  | Scatter =>
    do l <- mapM (fun '(x, c) => match c with CList ys => Ok (x, ys) | CStats _ => Err TypeError end) x_dict ;
    Ok (flat_map (fun '(x, ys) => repeat x (length ys)) l, flat_map snd l)
  end.

(** columns of a data frame *)
Definition frame := dict string (list Q).
(** [pd.DataFrame.from_dict]: ValueError unless all columns have the same length *)
Definition from_dict (d : frame) : result frame :=
  match d with
  | [] => Ok []
  | (_, v) :: _ => if forallb (fun '(_, w) => length w =? length v) d then Ok d else Err ValueError
  end.
(** [list.remove] *)
Fixpoint list_remove (x : string) (l : list string) : result (list string) :=
  match l with
  | [] => Err ValueError
  | y :: l' => if eqb x y then Ok l' else do r <- list_remove x l' ; Ok (y :: r)
  end.
(** 28-61: the default color and the default marker *)
Definition color_of (c : collector) (miner : string) : string :=
  match dict_get miner (rc_colors c) with Some s => s | None => "black" end.
Definition marker_of (c : collector) (miner : string) : string :=
  match dict_get miner (rc_markers c) with Some s => s | None => "X" end.
(** 363-390; the number of dashes (391-408) is that of the markers, at most 18 *)
Definition get_plot_data (m : mode) (c : collector) (miner_dict : dict string (dict Z collected))
    : result (frame * list Z * list string * list string) :=
  do (pd, colors, markers, xs, last) <- foldM (fun '(pd, colors, markers, xs, last) '(miner_name, x_dict) =>
      do (x_list, values) <- get_x_y m x_dict ;
      Ok (dict_set miner_name values pd, colors ++ [color_of c miner_name], markers ++ [marker_of c miner_name],
          if length xs <? length x_list then x_list else xs, Some miner_name))
    miner_dict ([], [], [], [], None) ;
  do (f, colors', markers') <-
    match from_dict pd with
    | Ok f => Ok (f, colors, markers)
    | Err _ =>
      let longest := fold_right (fun '(_, v) n => Nat.max (length v) n) 0 pd in
      do f <- from_dict (filter (fun '(_, v) => length v =? longest) pd) ;
      do miner_name <- of_option UnboundLocalError last ;
      do colors' <- list_remove (color_of c miner_name) colors ;
      do markers' <- list_remove (marker_of c miner_name) markers ;
      Ok (f, colors', markers')
    end ;
  match f with
  | (_, v) :: _ => if length v =? length xs then Ok (f, xs, colors', markers') else Err ValueError
  | [] => Ok (f, xs, colors', markers')
  end.

(** a bar for a deviation: color, x, place beside x in multiples of the
    distance between bars, middle, square of the distance to its ends *)
Record bar := Bar { bar_color : string; bar_x : Z; bar_dodge : Z; bar_mean : Q; bar_square : option Q }.
(** 180-188 *)
Definition dodge (miner_index nr_of_miners : nat) : Z :=
  let d := (Z.of_nat miner_index - Z.of_nat nr_of_miners / 2)%Z in
  if (0 <=? d)%Z && Nat.even nr_of_miners then (d + 1)%Z else d.
(** 190-218: what is written about one miner; the lines for empty lists are left out *)
Record entry := Entry {
  en_x_name : string; en_xs : list Z; en_miner : string; en_values : list Q;
  en_stddevs : list (option Q); en_stderrs : list (option Q);
  en_mins : list (option Q); en_maxs : list (option Q); en_counts : list Z }.
Definition square_stddev (s : statistics) : option Q := st_variance s 1.
Definition square_stderr (s : statistics) : option Q :=
  option_map (fun v => (v / inject_Z (st_len s))%Q) (st_variance s 1).
Record plot := Plot {
  pl_columns : frame; pl_index : list Z; pl_colors : list string; pl_markers : list string;
  pl_bars : list bar; pl_ticks : list (Z * string); pl_unit : bool; pl_legend : bool; pl_xlabel : string; pl_ylabel : string }.
Inductive effect := Appends (file : string) (e : entry) | Saves (file : string) (p : plot).

(** [min(acc, min(l))], [max(acc, max(l))] where None is infinite *)
Definition min_of (l : list Q) (acc : option Q) : result (option Q) :=
  match l with
  | [] => Err ValueError
  | _ => Ok (fold_left (fun a q => match a with Some b => Some (if Qle_bool b q then b else q) | None => Some q end) l acc)
  end.
Definition max_of (l : list Q) (acc : option Q) : result (option Q) :=
  match l with
  | [] => Err ValueError
  | _ => Ok (fold_left (fun a q => match a with Some b => Some (if Qle_bool q b then b else q) | None => Some q end) l acc)
  end.
(** 161-178 for one x *)
Definition bar_at (square : statistics -> option Q) (show : bool) (colors : list string) (i n : nat) (x : Z) (c : collected) : result (list bar) :=
  if show && (1 <? clen c)%Z then
    do color <- of_option IndexError (nth_error colors i) ;
    match c with
    | CStats s => Ok [Bar color x (dodge i n) (st_get_mean s) (square s)]
    | CList _ => Err AttributeError
    end
  else Ok [].
Definition stats_of (c : collected) : list statistics := match c with CStats s => [s] | CList _ => [] end.
(** 125-154: one miner *)
Definition plot_miner (m : mode) (x_name : string) (show_stddev show_stderr : bool)
    (colors : list string) (nr_of_miners i : nat) (miner_name : string) (x_dict : dict Z collected) : result (list bar * entry) :=
  let items := stable_sort (fun a b => (fst a <=? fst b)%Z) x_dict in
  do bars <- mapM (fun '(x, c) =>
      do b1 <- bar_at square_stddev show_stddev colors i nr_of_miners x c ;
      do b2 <- bar_at square_stderr show_stderr colors i nr_of_miners x c ;
      Ok (b1 ++ b2)) items ;
  let stats := flat_map (fun '(_, c) => stats_of c) items in
  let many := filter (fun s => (1 <? st_len s)%Z) stats in
  do (x_list, values) <- get_x_y m x_dict ;
  Ok (concat bars, Entry x_name x_list miner_name values (map square_stddev many) (map square_stderr many)
                     (map st_minimum stats) (map st_maximum stats) (map st_len stats)).
(** 104-159 *)
Definition plot_values_for_miners (m : mode) (x_name : string) (miner_dict : dict string (dict Z collected))
    (show_stddev show_stderr : bool) (colors : list string) (miner_order : list string)
    : result (list bar * list entry * bool) :=
  do (_, mn, mx, bars, entries) <- foldM (fun '(i, mn, mx, bars, entries) miner_name =>
      do x_dict <- of_option KeyError (dict_get miner_name miner_dict) ;
      do (bs, e) <- plot_miner m x_name show_stddev show_stderr colors (length miner_dict) i miner_name x_dict ;
      do mn' <- min_of (en_values e) mn ;
      do mx' <- max_of (en_values e) mx ;
      Ok (S i, mn', mx', bars ++ bs, entries ++ [e]))
    miner_order (0, None, None, [], []) ;
  Ok (bars, entries,
      match mn with Some q => Qle_bool 0 q | None => true end && match mx with Some q => Qle_bool q 1 | None => true end).
(** 262-272, 305-311 *)
Definition plot_name (result_type : string) (show_legend show_stddev show_stderr : bool) : string :=
  (result_type ++ (if show_legend then "_with_legend" else "") ++ (if show_stddev then "_with_stddev" else "") ++
   (if show_stderr then "_with_stderr" else "") ++ ".pdf")%string.
(** 110-114 *)
Definition x_ticks (x_labels : dict Z string) : list (Z * string) := stable_sort (fun a b => (fst a <=? fst b)%Z) x_labels.
(** 246-257, 296-303: one figure; the text file is written while the figure is
    drawn, the figure is saved at the end *)
Definition save_plot (m : mode) (x_name result_type : string) (c : collector) (miner_dict : dict string (dict Z collected))
    (f : frame) (index : list Z) (colors markers : list string) (show_legend show_stddev show_stderr : bool) : result (list effect) :=
  do (bars, entries, unit) <- plot_values_for_miners m x_name miner_dict show_stddev show_stderr colors (keys f) ;
  Ok ((if show_stddev || show_legend || show_stderr then [] else map (Appends (result_type ++ ".txt")%string) entries) ++
      [Saves (plot_name result_type show_legend show_stddev show_stderr)
         (Plot f index colors markers bars (x_ticks (twd_dict (rc_labels c))) unit show_legend x_name result_type)]).
(** 234-245, 289-295 *)
Definition figures (m : mode) (miner_dict : dict string (dict Z collected)) : list (bool * bool) :=
  match m with
  | Line =>
    if existsb (fun '(_, d) => existsb (fun '(_, v) => (1 <? clen v)%Z) d) miner_dict
    then [(true, false); (false, true); (false, false)] else [(false, false)]
  | Scatter => [(false, false)]
  end.
(** 352-361 *)
Definition save_result_type (m : mode) (x_name : string) (c : collector) (result_type : string)
    (miner_dict : dict string (dict Z collected)) : result (list effect) :=
  do (f, index, colors, markers) <- get_plot_data m c miner_dict ;
  do es <- mapM (fun show_legend =>
      do es <- mapM (fun '(show_stddev, show_stderr) =>
          save_plot m x_name result_type c miner_dict f index colors markers show_legend show_stddev show_stderr) (figures m miner_dict) ;
      Ok (concat es)) [true; false] ;
  Ok (concat es).
Definition save_plots (m : mode) (x_name : string) (c : collector) : result (list effect) :=
  do es <- mapM (fun '(result_type, miner_dict) => save_result_type m x_name c result_type miner_dict) (rc_results c) ;
  Ok (concat es).
