(** Model of the conversions between event logs and tables
    (prolothar_common/models/eventlog/eventlog.py 76-97, 220-247, 415-436) and
    of prolothar_common/models/log_statistics.py.
    Data frames are tables of Python objects: the conversion of column types by
    pandas (ints to floats where a cell is missing and the like) is not
    modelled, and numbers are exact. *)
From Coq Require Import QArith String DecimalString.
From Verif.Model Require Import Base Sort EventLog Statistics.
Open Scope string_scope.
Open Scope list_scope.
Open Scope nat_scope.

Section T.
  (** [C]: Python objects: activity names, trace ids, attribute values; [None];
      what pandas takes for missing (None and NaN); the order of group keys;
      names that a namedtuple does not replace (identifiers that are no
      keywords, do not begin with an underscore and are not "Index") *)
  Context {C : Type} `{Eq C}.
  Variable none : C.
  Variable isna : C -> bool.
  Variable leb : C -> C -> bool.
  Variable identifier : string -> bool.

  Record frame := Frame { columns : list string; rows : list (list C) }.

  (** [pd.DataFrame(rows, columns=columns)]: short rows are filled up with
      None; the longest row must have as many cells as there are columns *)
  Definition fill (w : nat) (row : list C) : list C := row ++ repeat none (w - length row).
  Definition data_frame (rs : list (list C)) (cols : list string) : result frame :=
    match rs with
    | [] => Ok (Frame cols [])
    | _ =>
      let w := fold_right Nat.max 0 (map (@length C) rs) in
      if w =? length cols then Ok (Frame cols (map (fill w) rs)) else Err ValueError
    end.

  Definition by_name (x y : string * C) : bool := String.leb (fst x) (fst y).
  (** eventlog.py 231-239: the cells of one event *)
  Definition event_row (append_trace_id_column : bool) (t : trace C C C) (e : event C C) : list C :=
    (if append_trace_id_column then [tid t] else []) ++ map snd (stable_sort by_name (tr_attrs t))
    ++ [activity e] ++ map snd (stable_sort by_name (ev_attrs e)).
  (** eventlog.py 220-247 *)
  Definition to_pandas_df (append_trace_id_column : bool) (l : log C C C) : result frame :=
    let rs := flat_map (fun t => map (event_row append_trace_id_column t) (events t)) l in
    match l with
    | [] => Err IndexError
    | t :: _ =>
      match events t with
      | [] => Err IndexError
      | e :: _ =>
        data_frame rs ((if append_trace_id_column then ["trace"] else []) ++ stable_sort String.leb (keys (tr_attrs t))
                       ++ ["Activity"] ++ stable_sort String.leb (keys (ev_attrs e)))
      end
    end.

  Fixpoint index_of (name : string) (cols : list string) : option nat :=
    match cols with
    | [] => None
    | c :: cols' => if eqb name c then Some 0 else option_map S (index_of name cols')
    end.
  Definition cell (i : nat) (row : list C) : C := nth i row none.
  (** the position of a column for [groupby] and [agg]: KeyError if it does not
      exist; a frame with several columns of the name is no group key
      (ValueError) *)
  Definition column (name : string) (f : frame) : result nat :=
    match index_of name (columns f) with
    | None => Err KeyError
    | Some i => if length (filter (eqb name) (columns f)) =? 1 then Ok i else Err ValueError
    end.
  (** the keys of [groupby]: distinct, in ascending order, without missing ones *)
  Definition group_keys (i : nat) (f : frame) : list C :=
    stable_sort leb (filter (fun c => negb (isna c)) (set_of (map (cell i) (rows f)))).
  Definition group (i : nat) (k : C) (f : frame) : list (list C) := filter (fun r => eqb (cell i r) k) (rows f).

  (** [getattr(row, name)] for a row of [itertuples] after grouping by the
      column [case]: the values of the group in the first column of this name.
      Other attributes of a namedtuple (Index, count, index, _1, ...) are not
      modelled. *)
  Definition get_field (case name : string) (f : frame) (g : list (list C)) : result (list C) :=
    if identifier name && negb (eqb name case) then
      match index_of name (columns f) with Some i => Ok (map (cell i) g) | None => Err AttributeError end
    else Err AttributeError.
  Definition is_none (c : C) : bool := eqb c none.
  (** eventlog.py 427-430 *)
  Definition with_attribute (add_none_attributes : bool) (name : string) (es : list (event C C)) (vs : list C) : list (event C C) :=
    map (fun '(e, v) => if add_none_attributes || negb (is_none v)
                        then Event (activity e) (dict_set name v (ev_attrs e)) (transition e) else e) (combine es vs).
  (** eventlog.py 415-436; None for a list of columns is the empty list *)
  Definition create_from_pandas_df (case_id_column activity_column : string) (event_attribute_columns trace_attribute_columns : list string)
      (add_none_attributes : bool) (f : frame) : result (log C C C) :=
    do i <- column case_id_column f ;
    mapM (fun k =>
      let g := group i k f in
      do acts <- get_field case_id_column activity_column f g ;
      do es <- foldM (fun es name => do vs <- get_field case_id_column name f g ; Ok (with_attribute add_none_attributes name es vs))
                 event_attribute_columns (map new_event acts) ;
      do d <- foldM (fun d name => do vs <- get_field case_id_column name f g ; Ok (dict_set name (nth 0 vs none) d))
                trace_attribute_columns [(case_id_column, k)] ;
      new_trace k es d) (group_keys i f).

  (** numbers that can be NaN or infinite ([None]) *)
  Definition div (a b : option Q) : option Q :=
    match a, b with
    | Some x, Some y => if Qeq_bool y 0 then None else Some (x / y)%Q
    | _, _ => None
    end.
  Definition times (a b : option Q) : option Q :=
    match a, b with Some x, Some y => Some (x * y)%Q | _, _ => None end.
  Definition of_nat (n : nat) : option Q := Some (inject_Z (Z.of_nat n)).

  Record activity_row := ActivityRow {
    r_support : nat; r_traces : nat; r_frequency : option Q; r_frequency_traces : option Q;
    r_a_start : option Q; r_a_end : option Q; r_start_a : option Q; r_end_a : option Q }.
  (** log_statistics.py 122-127 for one counter: first or last events *)
  Definition end_counter (pick : list (event C C) -> option (event C C)) (l : log C C C) : result (dict C nat) :=
    foldM (fun c t => do e <- of_option IndexError (pick (events t)) ; Ok (counter_inc (activity e) c)) l [].
  Definition count_in (a : C) (c : dict C nat) : nat := match dict_get a c with Some n => n | None => 0 end.
  Definition last_event (es : list (event C C)) : option (event C C) := nth_error (rev es) 0.
  (** log_statistics.py 66-108 and 119-148 without continuous attributes *)
  Definition compute_activity_statistics_df (trace_id_attribute : option string) (l : log C C C) : result (list (C * activity_row)) :=
    do f <- to_pandas_df (match trace_id_attribute with None => true | Some _ => false end) l ;
    do ia <- column "Activity" f ;
    do it <- column (match trace_id_attribute with None => "trace" | Some s => s end) f ;
    let stat := map (fun a =>
      let ids := filter (fun c => negb (isna c)) (map (cell it) (group ia a f)) in
      (a, (length ids, length (set_of ids)))) (group_keys ia f) in
    let total := fold_right Nat.add 0 (map (fun x => fst (snd x)) stat) in
    let n := length l in
    do starts <- end_counter (fun es => nth_error es 0) l ;
    do ends <- end_counter last_event l ;
    Ok (map (fun '(a, (support, traces)) =>
      let frequency := div (of_nat support) (of_nat total) in
      let a_start := div (of_nat (count_in a starts)) (of_nat n) in
      let a_end := div (of_nat (count_in a ends)) (of_nat n) in
      (a, ActivityRow support traces frequency (div (of_nat traces) (of_nat n)) a_start a_end
            (div (times a_start (div (of_nat n) (of_nat total))) frequency)
            (div (times a_end (div (of_nat n) (of_nat total))) frequency))) stat).

  (** [num]: a cell as a number *)
  Variable num : C -> Q.
  (** log_statistics.py 27-34: [Series.min], [max] and [mean] skip missing cells;
      NaN ([None]) if no other cell is left *)
  Definition present (cs : list C) : list Q := map num (filter (fun c => negb (isna c)) cs).
  Definition series_min (cs : list C) : option Q :=
    match present cs with [] => None | x :: xs => Some (fold_left (fun m y => if Qle_bool m y then m else y) xs x) end.
  Definition series_max (cs : list C) : option Q :=
    match present cs with [] => None | x :: xs => Some (fold_left (fun m y => if Qle_bool y m then m else y) xs x) end.
  Definition series_mean (cs : list C) : option Q :=
    div (Some (fold_left Qplus (present cs) 0%Q)) (of_nat (length (present cs))).
  Record attribute_statistics := AttributeStatistics { a_min : option Q; a_max : option Q; a_mean : option Q }.
  (** log_statistics.py 66-121: the table with the columns min(x), max(x) and
      mean(x) of each continuous attribute x; an attribute that is given twice
      overwrites its entries of [aggregation_dict] *)
  Definition compute_statistics_with_attributes (trace_id_attribute : option string) (continuous_event_attributes : list string)
      (l : log C C C) : result (list (C * (activity_row * list (string * attribute_statistics)))) :=
    do f <- to_pandas_df (match trace_id_attribute with None => true | Some _ => false end) l ;
    do ia <- column "Activity" f ;
    do is <- mapM (fun x => do i <- column x f ; Ok (x, i)) (set_of continuous_event_attributes) ;
    do table <- compute_activity_statistics_df trace_id_attribute l ;
    Ok (map (fun '(a, r) =>
      (a, (r, map (fun '(x, i) =>
         let cs := map (cell i) (group ia a f) in
         (x, AttributeStatistics (series_min cs) (series_max cs) (series_mean cs))) is))) table).
End T.
Arguments frame : clear implicits.

(** Activity names are strings here. *)
Section V.
  Context {V I : Type}.
  Notation log := (log string V I).
  (** log_statistics.py 150-165; [defaultdict(int)] with [+= 1] *)
  Definition variant_counter (l : log) : dict (list string) nat :=
    fold_left (fun c t => counter_inc (to_activity_list t) c) l [].
  Definition compute_variant_statistics_df (l : log) : list (string * nat) :=
    map (fun '(variant, count) => (String.concat ", " variant, count)) (variant_counter l).
  (** [int(x)] of a float; NaN is a ValueError *)
  Definition int_of (x : option Q) : result Z :=
    match x with Some q => Ok (Z.quot (Qnum q) (Zpos (Qden q))) | None => Err ValueError end.
  Record trace_statistics := TraceStatistics {
    nr_of_traces : nat; nr_of_variants : nat; min_trace_length : Z; average_trace_length : Q; max_trace_length : Z }.
  (** log_statistics.py 36-47 *)
  Definition compute_trace_statistics (l : log) : result trace_statistics :=
    let s := st_of (map (fun t => inject_Z (Z.of_nat (length (events t)))) l) in
    do mn <- int_of (st_minimum s) ;
    do mx <- int_of (st_maximum s) ;
    Ok (TraceStatistics (length l) (length (set_of (map to_activity_list l))) mn (st_get_mean s) mx).

  (** [str(i)] *)
  Definition str_nat (i : nat) : string := NilZero.string_of_uint (Nat.to_uint i).
  Definition newline : string := String (Ascii.ascii_of_nat 10) "".
  (** eventlog.py 76-97: everything that is written *)
  Definition write_to_csv (trace_id_column activity_column separator : string) (l : log) : string :=
    (trace_id_column ++ separator ++ activity_column ++ newline ++
     String.concat "" (flat_map (fun '(i, t) => map (fun e => str_nat i ++ separator ++ activity e ++ newline) (events t))
       (combine (seq 0 (length l)) l)))%string.
End V.
