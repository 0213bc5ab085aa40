(** Properties C100 to C104: event logs as tables and csv files, statistics *)
From Coq Require Import QArith String Ascii Permutation Sorted List Lia DecimalString.
From Verif.Model Require Import Base EventLog LogTables.
From Verif.Spec Require Import Lists Logs EventLogSpec LogTableSpec.
From Verif.Lib Require StrLib.
From Verif.Proofs Require LogTablesA LogTablesB LogTablesC LogTablesD.
Open Scope string_scope.
Open Scope list_scope.
Open Scope nat_scope.
(** two traces with an attribute "org" whose events have an attribute "cost" *)
Definition two_traces : log string string string :=
  [Trace "2" [Event "a" [("cost", "5")] None; Event "b" [("cost", "")] None; Event "a" [("cost", "7")] None] [("org", "x")];
   Trace "1" [Event "b" [("cost", "5")] None] [("org", "y")]].
Example ex_uniform : uniform ["org"] ["cost"] two_traces /\ sorted_names ["org"] /\ sorted_names ["cost"] /\
  identified None ["org"] ["cost"] two_traces tid.
Proof.
  split; [|split; [|split]].
  - intros t [<-|[<-|[]]]; (split; [reflexivity|]); intros e He; repeat (destruct He as [<-|He]; [reflexivity|]); destruct He.
  - split; repeat constructor; intros [].
  - split; repeat constructor; intros [].
  - split; [cbn; intuition discriminate|]. split; [cbn; intuition discriminate|auto].
Qed.
Example ex_order : total_order String.leb.
Proof. split; [apply String.leb_total|]. split; [apply StrLib.str_leb_trans|apply String.leb_antisym]. Qed.

(** C100: Event logs as tables *)
(** If all traces have the same attributes and all events have the same
    attributes, every event becomes one row with each value below its name. *)
Theorem C100_table : forall (C : Type) (none : C) append tn en (l : log C C C), sorted_names tn -> sorted_names en -> uniform tn en l ->
  (exists t l', l = t :: l' /\ events t <> []) ->
  exists f, to_pandas_df none append l = Ok f /\ columns f = (if append then ["trace"] else []) ++ tn ++ ["Activity"] ++ en /\
    Forall2 (row_of append tn en) (log_events l) (rows f).
Proof. exact @LogTablesA.C100_table. Qed.
Print Assumptions C100_table.
(** Without an event in the first trace there is an IndexError; otherwise there
    is a ValueError exactly if some event has, with its trace, more attributes
    than the first event. *)
Theorem C100_errors : forall (C : Type) (none : C) append (l : log C C C),
  ((l = [] \/ exists t l', l = t :: l' /\ events t = []) -> to_pandas_df none append l = Err IndexError) /\
  (forall t e l' es, l = t :: l' -> events t = e :: es ->
    let width t e := length (tr_attrs t) + length (ev_attrs e) in
    ((exists t' e', In (t', e') (log_events l) /\ width t e < width t' e') -> to_pandas_df none append l = Err ValueError) /\
    ((forall t' e', In (t', e') (log_events l) -> width t' e' <= width t e) ->
       exists f, to_pandas_df none append l = Ok f /\ rectangular f /\ length (rows f) = length (log_events l))).
Proof. exact @LogTablesA.C100_errors. Qed.
Print Assumptions C100_errors.
(** With different attributes the values silently come below wrong names: here
    the cost of the second trace below "age", and the activity of the third
    trace, which has no attribute, too. *)
Theorem C100_wrong_column_witness : exists (l : log string string string) f,
  to_pandas_df "None" true l = Ok f /\ columns f = ["trace"; "age"; "Activity"] /\
  exists t2 t3 r2 r3, nth_error l 1 = Some t2 /\ nth_error (rows f) 1 = Some r2 /\ tr_attrs t2 = [("cost", "high")] /\ under f "age" r2 "high" /\
    nth_error l 2 = Some t3 /\ nth_error (rows f) 2 = Some r3 /\ tr_attrs t3 = [] /\ map activity (events t3) = ["ship"] /\
    under f "age" r3 "ship" /\ under f "Activity" r3 "None".
Proof. exact @LogTablesA.C100_wrong_column_witness. Qed.
Print Assumptions C100_wrong_column_witness.
Example C100_example : exists f, to_pandas_df "" true two_traces = Ok f /\ columns f = ["trace"; "org"; "Activity"; "cost"] /\
  rows f = [["2"; "x"; "a"; "5"]; ["2"; "x"; "b"; ""]; ["2"; "x"; "a"; "7"]; ["1"; "y"; "b"; "5"]].
Proof. eexists. split; [vm_compute; reflexivity|]. split; reflexivity. Qed.

(** C101: Event logs from tables *)
(** The traces of the log are the cases of the table, in ascending order of
    their ids. A trace has one event for every row of its case, in order. *)
Theorem C101_cases : forall (C : Type) (EC : Eq C) (none : C) isna leb identifier case act ecols tcols add_none (f : frame C),
  total_order leb -> rectangular f -> count_occ string_dec (columns f) case = 1 ->
  (forall name, In name (act :: ecols ++ tcols) -> readable identifier f case name) ->
  exists l, create_from_pandas_df none isna leb identifier case act ecols tcols add_none f = Ok l /\
    increasing leb (map tid l) /\
    (forall k, In k (map tid l) <-> isna k = false /\ exists r, In r (rows f) /\ under f case r k) /\
    forall t, In t l -> exists first rest,
      case_rows f case (tid t) (first :: rest) /\
      Forall2 (fun r e => under f act r (activity e) /\ transition e = None /\
        (forall name, In name ecols -> exists v, under f name r v /\ kept none add_none v (dict_get name (ev_attrs e))) /\
        (forall name, ~ In name ecols -> dict_get name (ev_attrs e) = None)) (first :: rest) (events t) /\
      dict_get case (tr_attrs t) = Some (tid t) /\
      (forall name, In name tcols -> exists v, under f name first v /\ dict_get name (tr_attrs t) = Some v) /\
      (forall name, name <> case -> ~ In name tcols -> dict_get name (tr_attrs t) = None).
Proof. exact @LogTablesB.C101_cases. Qed.
Print Assumptions C101_cases.
(** A missing case column is a KeyError and a repeated one a ValueError. Unless
    there is no case at all, a column that cannot be read is an AttributeError. *)
Theorem C101_errors : forall (C : Type) (EC : Eq C) (none : C) isna leb identifier case act ecols tcols add_none (f : frame C),
  rectangular f ->
  let outcome := create_from_pandas_df none isna leb identifier case act ecols tcols add_none f in
  let a_case := exists k r, isna k = false /\ In r (rows f) /\ under f case r k in
  (~ In case (columns f) -> outcome = Err KeyError) /\
  (1 < count_occ string_dec (columns f) case -> outcome = Err ValueError) /\
  (count_occ string_dec (columns f) case = 1 -> ~ a_case -> outcome = Ok []) /\
  (count_occ string_dec (columns f) case = 1 -> a_case -> (exists name, In name (act :: ecols ++ tcols) /\ ~ readable identifier f case name) ->
     outcome = Err AttributeError).
Proof. exact @LogTablesB.C101_errors. Qed.
Print Assumptions C101_errors.
(** A log that became a table and is read back from it is the same log in
    ascending order of the ids, if the ids are different. *)
Theorem C101_round_trip : forall (C : Type) (EC : Eq C) (none : C) isna leb identifier tn en add_none (l : log C C C),
  total_order leb -> sorted_names tn -> sorted_names en -> uniform tn en l ->
  (forall name, In name tn -> ~ In name en) -> ~ In "trace" (tn ++ en) -> ~ In "Activity" (tn ++ en) ->
  (forall name, In name ("Activity" :: en ++ tn) -> identifier name = true) ->
  l <> [] -> NoDup (map tid l) -> (forall t, In t l -> isna (tid t) = false /\ events t <> []) ->
  exists f l' m, to_pandas_df none true l = Ok f /\ create_from_pandas_df none isna leb identifier "trace" "Activity" en tn add_none f = Ok l' /\
    increasing leb (map tid l') /\ Permutation l m /\
    Forall2 (fun t t' => tid t' = tid t /\
      Forall2 (fun e e' => activity e' = activity e /\ transition e' = None /\
        forall name, match dict_get name (ev_attrs e) with
                     | Some v => kept none add_none v (dict_get name (ev_attrs e'))
                     | None => dict_get name (ev_attrs e') = None
                     end) (events t) (events t') /\
      dict_get "trace" (tr_attrs t') = Some (tid t) /\
      forall name, name <> "trace" -> dict_get name (tr_attrs t') = dict_get name (tr_attrs t)) m l'.
Proof. exact @LogTablesB.C101_round_trip. Qed.
Print Assumptions C101_round_trip.
(** Two traces with the same id become one trace. *)
Theorem C101_merged_witness : exists (l : log string string string) f l',
  to_pandas_df "" true l = Ok f /\ create_from_pandas_df "" (fun c => eqb c "") String.leb (fun _ => true) "trace" "Activity" [] [] true f = Ok l' /\
  length l = 2 /\ length l' = 1.
Proof. exact @LogTablesB.C101_merged_witness. Qed.
Print Assumptions C101_merged_witness.
Example C101_example : exists f, to_pandas_df "" true two_traces = Ok f /\ rectangular f /\ count_occ string_dec (columns f) "trace" = 1 /\
  (forall name, In name ["Activity"; "cost"; "org"] -> readable (fun _ => true) f "trace" name) /\
  NoDup (map tid two_traces) /\
  create_from_pandas_df "" (fun c => eqb c "") String.leb (fun _ => true) "trace" "Activity" ["cost"] ["org"] false f =
  Ok [Trace "1" [Event "b" [("cost", "5")] None] [("trace", "1"); ("org", "y")];
      Trace "2" [Event "a" [("cost", "5")] None; Event "b" [] None; Event "a" [("cost", "7")] None] [("trace", "2"); ("org", "x")]].
Proof.
  eexists. split; [vm_compute; reflexivity|]. split; [repeat constructor|]. split; [reflexivity|]. split; [|split; [|vm_compute; reflexivity]].
  - intros name Hn. split; [auto|]. cbn in Hn. decompose [or] Hn; try contradiction; subst; (split; [discriminate|cbn; auto]).
  - repeat constructor; cbn; intuition discriminate.
Qed.

(** C102: Statistics of activities *)
(** The table has one row for every activity that occurs, in ascending order.
    Support counts the events with the activity, "traces" the trace ids, and the
    relative numbers are the ones their names say. *)
Theorem C102_activities : forall (C : Type) (EC : Eq C) (none : C) isna leb attribute tn en trace_id (l : log C C C),
  total_order leb -> sorted_names tn -> sorted_names en -> uniform tn en l -> identified attribute tn en l trace_id ->
  l <> [] -> (forall t, In t l -> events t <> [] /\ isna (trace_id t) = false) ->
  (forall t e, In t l -> In e (events t) -> isna (activity e) = false) ->
  exists table, compute_activity_statistics_df none isna leb attribute l = Ok table /\
    increasing leb (map fst table) /\
    (forall a, In a (map fst table) <-> exists t, In t l /\ occurs_in a t) /\
    (forall a r, In (a, r) table ->
       counted (fun te => activity (snd te) = a) (log_events l) (r_support r) /\
       (exists ids, NoDup ids /\ length ids = r_traces r /\ forall k, In k ids <-> exists t, In t l /\ occurs_in a t /\ trace_id t = k) /\
       ratio (r_frequency r) (r_support r) (length (log_events l)) /\
       ratio (r_frequency_traces r) (r_traces r) (length l) /\
       (exists starts, counted (starts_with a) l starts /\ ratio (r_a_start r) starts (length l) /\ ratio (r_start_a r) starts (r_support r)) /\
       (exists ends, counted (ends_with a) l ends /\ ratio (r_a_end r) ends (length l) /\ ratio (r_end_a r) ends (r_support r))) /\
    total (map (fun x => r_frequency (snd x)) table) 1 /\
    total (map (fun x => r_a_start (snd x)) table) 1 /\
    total (map (fun x => r_a_end (snd x)) table) 1.
Proof. exact @LogTablesC.C102_activities. Qed.
Print Assumptions C102_activities.
(** A log without traces or with an empty trace has no such statistics. *)
Theorem C102_empty_trace : forall (C : Type) (EC : Eq C) (none : C) isna leb attribute tn en trace_id (l : log C C C),
  sorted_names tn -> sorted_names en -> uniform tn en l -> identified attribute tn en l trace_id ->
  (l = [] \/ exists t, In t l /\ events t = []) ->
  compute_activity_statistics_df none isna leb attribute l = Err IndexError.
Proof. exact @LogTablesC.C102_empty_trace. Qed.
Print Assumptions C102_empty_trace.
(** With different attributes, cells are in wrong columns: an activity that no
    event has appears in the table. *)
Theorem C102_not_uniform_witness : exists (l : log string string string) table,
  compute_activity_statistics_df "" (fun c => eqb c "") String.leb None l = Ok table /\
  (forall t, In t l -> events t <> []) /\
  exists a r, In (a, r) table /\ forall t, In t l -> ~ occurs_in a t.
Proof. exact @LogTablesC.C102_not_uniform_witness. Qed.
Print Assumptions C102_not_uniform_witness.
Example C102_example : (forall t, In t two_traces -> events t <> [] /\ eqb (tid t) "" = false) /\
  (forall t e, In t two_traces -> In e (events t) -> eqb (activity e) "" = false) /\
  exists table, compute_activity_statistics_df "" (fun c => eqb c "") String.leb None two_traces = Ok table /\
    map fst table = ["a"; "b"] /\ map (fun x => (r_support (snd x), r_traces (snd x))) table = [(2, 1); (2, 2)].
Proof.
  split; [intros t [<-|[<-|[]]]; (split; [discriminate|reflexivity])|]. split.
  - intros t e [<-|[<-|[]]] He; cbn in He; decompose [or] He; try contradiction; subst; reflexivity.
  - eexists. split; [vm_compute; reflexivity|]. split; reflexivity.
Qed.

(** C103: Variants and trace statistics *)
(** The table of variants has one row for every sequence of activities of the
    log: its activities joined by ", " and the number of traces with it. *)
Theorem C103_variants : forall (V I : Type) (l : log string V I),
  exists variants, NoDup variants /\ (forall v, In v variants <-> exists t, In t l /\ map activity (events t) = v) /\
    Forall2 (fun v row => fst row = String.concat ", " v /\ counted (fun t => map activity (events t) = v) l (snd row))
      variants (compute_variant_statistics_df l) /\
    fold_right Nat.add 0 (map snd (compute_variant_statistics_df l)) = length l.
Proof. exact @LogTablesD.C103_variants. Qed.
Print Assumptions C103_variants.
(** No two rows have the same name if no trace is empty and no activity contains
    the separator. *)
Theorem C103_names : forall (V I : Type) (l : log string V I),
  (forall t, In t l -> events t <> [] /\ forall e, In e (events t) -> ~ exists x y, activity e = (x ++ ", " ++ y)%string) ->
  NoDup (map fst (compute_variant_statistics_df l)).
Proof. exact @LogTablesD.C103_names. Qed.
Print Assumptions C103_names.
(** Otherwise different variants can have the same name. *)
Theorem C103_names_witness : exists l : log string unit unit, (forall t, In t l -> events t <> []) /\
  exists name, compute_variant_statistics_df l = [(name, 1); (name, 1)].
Proof. exact @LogTablesD.C103_names_witness. Qed.
Print Assumptions C103_names_witness.
(** The statistics of traces: numbers of traces and variants, and the minimum,
    the average and the maximum of the lengths. *)
Theorem C103_trace_statistics : forall (V I : Type) (l : log string V I), (Z.of_nat (length l) < 2 ^ 63)%Z ->
  (l = [] -> compute_trace_statistics l = Err ValueError) /\
  (l <> [] -> exists s variants, compute_trace_statistics l = Ok s /\ nr_of_traces s = length l /\
     NoDup variants /\ (forall v, In v variants <-> exists t, In t l /\ map activity (events t) = v) /\ nr_of_variants s = length variants /\
     (exists t, In t l /\ min_trace_length s = Z.of_nat (length (events t))) /\
     (exists t, In t l /\ max_trace_length s = Z.of_nat (length (events t))) /\
     (forall t, In t l -> min_trace_length s <= Z.of_nat (length (events t)) <= max_trace_length s)%Z /\
     (average_trace_length s == inject_Z (Z.of_nat (fold_right Nat.add 0%nat (map (fun t => length (events t)) l))) / inject_Z (Z.of_nat (length l)))%Q).
Proof. exact @LogTablesD.C103_trace_statistics. Qed.
Print Assumptions C103_trace_statistics.
Example C103_example : compute_variant_statistics_df two_traces = [("a, b, a", 1); ("b", 1)] /\
  exists s, compute_trace_statistics two_traces = Ok s /\ nr_of_variants s = 2 /\ min_trace_length s = 1%Z /\ max_trace_length s = 3%Z.
Proof. split; [reflexivity|]. eexists. split; [vm_compute; reflexivity|]. split; [reflexivity|]. split; reflexivity. Qed.

(** C104: Event logs as csv files *)
(** The file is the header line and then, for trace after trace and event after
    event, a line with the number of the trace, the separator and the activity. *)
Theorem C104_text : forall (V I : Type) (trace_id_column activity_column separator : string) (l : log string V I) t,
  let csv := write_to_csv trace_id_column activity_column separator in
  let line e := (NilZero.string_of_uint (Nat.to_uint (length l)) ++ separator ++ activity e ++ newline)%string in
  csv (@nil (trace string V I)) = (trace_id_column ++ separator ++ activity_column ++ newline)%string /\
  csv (l ++ [t]) = (csv l ++ String.concat "" (map line (events t)))%string.
Proof. exact @LogTablesD.C104_text. Qed.
Print Assumptions C104_text.
(** The file determines the activities of every trace, if the separator does not
    begin with a digit and no activity contains a line break. *)
Theorem C104_injective : forall (V I : Type) trace_id_column activity_column c s (l m : log string V I),
  ~ In c ["0"; "1"; "2"; "3"; "4"; "5"; "6"; "7"; "8"; "9"]%char ->
  (forall t e, In t l \/ In t m -> In e (events t) -> ~ exists x y, activity e = (x ++ newline ++ y)%string) ->
  write_to_csv trace_id_column activity_column (String c s) l = write_to_csv trace_id_column activity_column (String c s) m ->
  forall i, match nth_error l i with Some t => map activity (events t) | None => [] end =
            match nth_error m i with Some t => map activity (events t) | None => [] end.
Proof. exact @LogTablesD.C104_injective. Qed.
Print Assumptions C104_injective.
(** A line break in an activity can make two logs look the same. *)
Theorem C104_line_break_witness : exists l m : log string unit unit,
  map (fun t => map activity (events t)) l <> map (fun t => map activity (events t)) m /\
  write_to_csv "CaseID" "Activity" "," l = write_to_csv "CaseID" "Activity" "," m.
Proof. exact @LogTablesD.C104_line_break_witness. Qed.
Print Assumptions C104_line_break_witness.
Example C104_example : write_to_csv "CaseID" "Activity" "," two_traces =
  ("CaseID,Activity" ++ newline ++ "0,a" ++ newline ++ "0,b" ++ newline ++ "0,a" ++ newline ++ "1,b" ++ newline)%string /\
  ~ In ","%char ["0"; "1"; "2"; "3"; "4"; "5"; "6"; "7"; "8"; "9"]%char.
Proof. split; [vm_compute; reflexivity|]. cbn. intuition discriminate. Qed.
