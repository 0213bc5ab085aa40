(** Specification vocabulary for the result collector: what a history of calls
    has collected *)
From Coq Require Import String QArith Sorted.
From Verif.Model Require Import Base ResultCollector.
From Verif.Spec Require Import Moments.
Open Scope string_scope.
Open Scope list_scope.
Open Scope nat_scope.

(** one call of [add_result] *)
Record call := Call { c_miner : string; c_type : string; c_x : xval; c_value : Q }.
(** a history: results are added, colors and markers are set, in any order *)
Inductive op := Add (k : call) | Color (miner color : string) | Marker (miner marker : string).
Definition step (ord : list Z -> list Z) (m : mode) (c : collector) (o : op) : result collector :=
  match o with
  | Add k => add_result ord m (c_miner k) (c_type k) (c_x k) (c_value k) c
  | Color n s => Ok (set_color n s c)
  | Marker n s => Ok (set_marker n s c)
  end.
Definition run_ops (ord : list Z -> list Z) (m : mode) (ops : list op) : result collector := foldM (step ord m) ops new_collector.
Definition calls (ops : list op) : list call := flat_map (fun o => match o with Add k => [k] | _ => [] end) ops.
(** what was set last for a miner *)
Definition color_set (ops : list op) (miner : string) : string :=
  fold_left (fun s o => match o with Color n c => if eqb n miner then c else s | _ => s end) ops "black".
Definition marker_set (ops : list op) (miner : string) : string :=
  fold_left (fun s o => match o with Marker n c => if eqb n miner then c else s | _ => s end) ops "X".

(** the different labels in the order of their first use; [set_of] keeps first occurrences *)
Definition labels_used (ks : list call) : list string :=
  set_of (flat_map (fun k => match c_x k with XStr s => [s] | XNum _ => [] end) ks).
Fixpoint position (s : string) (l : list string) : nat :=
  match l with [] => 0 | x :: l' => if eqb s x then 0 else S (position s l') end.
(** a label stands for its position *)
Definition number (ks : list call) (x : xval) : Z :=
  match x with XNum z => z | XStr s => Z.of_nat (position s (labels_used ks)) end.
Definition types (ks : list call) : list string := set_of (map c_type ks).
Definition of_type (t : string) (ks : list call) : list call := filter (fun k => eqb (c_type k) t) ks.
Definition of_miner (t n : string) (ks : list call) : list call := filter (fun k => eqb (c_miner k) n) (of_type t ks).
Definition miners (ks : list call) (t : string) : list string := set_of (map c_miner (of_type t ks)).
Definition numbers (ks : list call) (t n : string) : list Z := set_of (map (fun k => number ks (c_x k)) (of_miner t n ks)).
(** the values added for a type, a miner and an x, in order *)
Definition values_at (ks : list call) (t n : string) (z : Z) : list Q :=
  map c_value (filter (fun k => eqb (number ks (c_x k)) z) (of_miner t n ks)).

(** the points of a miner: means in the order of x, or all values *)
Definition is_series (m : mode) (ks : list call) (t n : string) (s : list (Z * Q)) : Prop :=
  match m with
  | Line => StronglySorted Z.lt (map fst s) /\ (forall z, In z (map fst s) <-> In z (numbers ks t n)) /\
            forall z q, In (z, q) s -> (q == average (values_at ks t n z))%Q
  | Scatter => s = flat_map (fun z => map (pair z) (values_at ks t n z)) (numbers ks t n)
  end.
(** number of points, and the miners that have most of them *)
Definition points (m : mode) (ks : list call) (t n : string) : nat :=
  match m with Line => length (numbers ks t n) | Scatter => length (of_miner t n ks) end.
Definition most (m : mode) (ks : list call) (t : string) : nat :=
  fold_right Nat.max 0 (map (points m ks t) (miners ks t)).
Definition kept (m : mode) (ks : list call) (t : string) : list string :=
  filter (fun n => points m ks t n =? most m ks t) (miners ks t).

(** what is written to the text file about the miner [n]: [many] are the x with more than one value *)
Definition many (ks : list call) (t n : string) (zs : list Z) : list Z := filter (fun z => 1 <? length (values_at ks t n z)) zs.
Definition is_square_stddev (vs : list Q) (q : option Q) : Prop := exists v, q = Some v /\ (v == central 2 vs / (size vs - 1))%Q.
Definition is_square_stderr (vs : list Q) (q : option Q) : Prop := exists v, q = Some v /\ (v == central 2 vs / (size vs - 1) / size vs)%Q.
Definition is_entry (m : mode) (ks : list call) (x_name t n : string) (e : entry) : Prop :=
  en_x_name e = x_name /\ en_miner e = n /\ is_series m ks t n (combine (en_xs e) (en_values e)) /\ length (en_xs e) = length (en_values e) /\
  match m with
  | Scatter => en_stddevs e = [] /\ en_stderrs e = [] /\ en_mins e = [] /\ en_maxs e = [] /\ en_counts e = []
  | Line =>
    Forall2 (fun z q => exists v, q = Some v /\ is_minimum v (values_at ks t n z)) (en_xs e) (en_mins e) /\
    Forall2 (fun z q => exists v, q = Some v /\ is_maximum v (values_at ks t n z)) (en_xs e) (en_maxs e) /\
    en_counts e = map (fun z => Z.of_nat (length (values_at ks t n z))) (en_xs e) /\
    Forall2 (fun z => is_square_stddev (values_at ks t n z)) (many ks t n (en_xs e)) (en_stddevs e) /\
    Forall2 (fun z => is_square_stderr (values_at ks t n z)) (many ks t n (en_xs e)) (en_stderrs e)
  end.

(** the list without the first [x] *)
Fixpoint without (x : string) (l : list string) : list string :=
  match l with [] => [] | y :: l' => if eqb x y then l' else y :: without x l' end.
(** colors or markers handed to the figure: those of all miners; if a miner is
    left out, the one of the last miner is removed *)
Definition styles (m : mode) (ks : list call) (t : string) (f : string -> string) : list string :=
  if length (kept m ks t) =? length (miners ks t) then map f (miners ks t)
  else without (f (last (miners ks t) "")) (map f (miners ks t)).
(** the columns of a figure and its x *)
Definition is_drawn (m : mode) (ks : list call) (t : string) (p : plot) : Prop :=
  Forall2 (fun n c => fst c = n /\ exists s, is_series m ks t n s /\ snd c = map snd s) (kept m ks t) (pl_columns p) /\
  exists n s, hd_error (kept m ks t) = Some n /\ is_series m ks t n s /\ pl_index p = map fst s.
(** the bars: for the [i]-th miner and each x with more than one value *)
Definition bar_places (m : mode) (ks : list call) (t : string) : list (nat * string * Z) :=
  flat_map (fun '(i, n) => map (fun z => (i, n, z)) (many ks t n (Sort.stable_sort Z.leb (numbers ks t n))))
    (combine (seq 0 (length (kept m ks t))) (kept m ks t)).
Definition is_bar (m : mode) (ks : list call) (t : string) (colors : list string) (square : list Q -> option Q -> Prop)
    (place : nat * string * Z) (b : bar) : Prop :=
  let '(i, n, z) := place in
  nth_error colors i = Some (bar_color b) /\ bar_x b = z /\ bar_dodge b = dodge i (length (miners ks t)) /\
  (bar_mean b == average (values_at ks t n z))%Q /\ square (values_at ks t n z) (bar_square b).
(** the figures of a result type: with legend or not, with deviations or not *)
Definition has_many (ks : list call) (t : string) : bool :=
  existsb (fun n => existsb (fun z => 1 <? length (values_at ks t n z)) (numbers ks t n)) (miners ks t).
Definition variants (m : mode) (ks : list call) (t : string) : list (bool * bool) :=
  match m with
  | Line => if has_many ks t then [(true, false); (false, true); (false, false)] else [(false, false)]
  | Scatter => [(false, false)]
  end.
Definition file_name (t : string) (legend stddev stderr : bool) : string :=
  (t ++ (if legend then "_with_legend" else "") ++ (if stddev then "_with_stddev" else "") ++ (if stderr then "_with_stderr" else "") ++ ".pdf")%string.
Definition all_figures (m : mode) (ks : list call) : list (string * bool * (bool * bool)) :=
  flat_map (fun t => flat_map (fun legend => map (fun v => (t, legend, v)) (variants m ks t)) [true; false]) (types ks).
Definition appended (es : list effect) : list (string * entry) := flat_map (fun e => match e with Appends f x => [(f, x)] | _ => [] end) es.
Definition saved (es : list effect) : list (string * plot) := flat_map (fun e => match e with Saves f x => [(f, x)] | _ => [] end) es.
(** a figure as it should be *)
Definition is_figure (m : mode) (ops : list op) (x_name : string) (fig : string * bool * (bool * bool)) (sp : string * plot) : Prop :=
  let '(t, legend, (stddev, stderr)) := fig in
  let ks := calls ops in
  let p := snd sp in
  fst sp = file_name t legend stddev stderr /\ is_drawn m ks t p /\
  pl_colors p = styles m ks t (color_set ops) /\ pl_markers p = styles m ks t (marker_set ops) /\
  (if stddev then Forall2 (is_bar m ks t (pl_colors p) is_square_stddev) (bar_places m ks t) (pl_bars p)
   else if stderr then Forall2 (is_bar m ks t (pl_colors p) is_square_stderr) (bar_places m ks t) (pl_bars p)
   else pl_bars p = []) /\
  pl_ticks p = combine (map Z.of_nat (seq 0 (length (labels_used ks)))) (labels_used ks) /\
  (pl_unit p = true <-> forall n c q, In (n, c) (pl_columns p) -> In q c -> (0 <= q <= 1)%Q) /\
  pl_legend p = legend /\ pl_xlabel p = x_name /\ pl_ylabel p = t.
