(** Property C131: statistics of continuous attributes *)
From Coq Require Import QArith String Permutation Sorted.
From Verif.Model Require Import Base EventLog LogTables.
From Verif.Spec Require Moments.
From Verif.Spec Require Import Lists Logs EventLogSpec LogTableSpec.
From Verif.Lib Require StrLib.
From Verif.Proofs Require LogTablesE.
Open Scope string_scope.
Open Scope list_scope.
Open Scope nat_scope.

(** C131: Statistics of continuous attributes *)
(** the table has the rows and columns it has without continuous attributes, and
    for each attribute the least, the greatest and the average number that the
    events with the activity have; missing values do not count *)
Theorem C131_attributes : forall (C : Type) (EC : Eq C) (none : C) isna leb num attribute tn en trace_id attributes (l : log C C C),
  total_order leb -> sorted_names tn -> sorted_names en -> uniform tn en l -> identified attribute tn en l trace_id ->
  l <> [] -> (forall t, In t l -> events t <> [] /\ isna (trace_id t) = false) ->
  (forall t e, In t l -> In e (events t) -> isna (activity e) = false) ->
  (forall x, In x attributes -> In x (tn ++ en) /\ ~ (In x tn /\ In x en)) ->
  exists table, compute_statistics_with_attributes none isna leb num attribute attributes l = Ok table /\
    compute_activity_statistics_df none isna leb attribute l = Ok (map (fun row => (fst row, fst (snd row))) table) /\
    forall a r cs, In (a, (r, cs)) table ->
      NoDup (map fst cs) /\ (forall x, In x (map fst cs) <-> In x attributes) /\
      forall x s, In (x, s) cs -> exists selected values,
        selection (log_events l) selected (fun _ te => activity (snd te) = a /\ exists v, has_value x te v /\ isna v = false) /\
        Forall2 (fun te q => exists v, has_value x te v /\ q = num v) selected values /\
        (values = [] -> s = AttributeStatistics None None None) /\
        (values <> [] -> exists least greatest mean, s = AttributeStatistics (Some least) (Some greatest) (Some mean) /\
           Moments.is_minimum least values /\ Moments.is_maximum greatest values /\ (mean == Moments.average values)%Q).
Proof. exact @LogTablesE.C131_attributes. Qed.
Print Assumptions C131_attributes.
Theorem C131_unknown : forall (C : Type) (EC : Eq C) (none : C) isna leb num attribute tn en trace_id attributes x (l : log C C C),
  sorted_names tn -> sorted_names en -> uniform tn en l -> identified attribute tn en l trace_id -> (exists t l', l = t :: l' /\ events t <> []) ->
  (forall y, In y attributes -> ~ (In y tn /\ In y en)) ->
  In x attributes -> ~ In x (tn ++ en) -> x <> "Activity" -> (attribute = None -> x <> "trace") ->
  compute_statistics_with_attributes none isna leb num attribute attributes l = Err KeyError.
Proof. exact @LogTablesE.C131_unknown. Qed.
Print Assumptions C131_unknown.
(** two traces with an attribute "org" whose events have an attribute "cost",
    which one of them lacks *)
Definition priced : log string string string :=
  [Trace "2" [Event "a" [("cost", "5")] None; Event "b" [("cost", "")] None; Event "a" [("cost", "7")] None] [("org", "x")];
   Trace "1" [Event "a" [("cost", "9")] None] [("org", "y")]].
Definition price (s : string) : Q := if String.eqb s "5" then 5 else if String.eqb s "7" then 7 else 9.
Definition missing (s : string) : bool := String.eqb s "".
Example C131_hypotheses : total_order String.leb /\ sorted_names ["org"] /\ sorted_names ["cost"] /\ uniform ["org"] ["cost"] priced /\
  identified None ["org"] ["cost"] priced tid /\ priced <> [] /\ (forall t, In t priced -> events t <> [] /\ missing (tid t) = false) /\
  (forall t e, In t priced -> In e (events t) -> missing (activity e) = false) /\
  (forall x, In x ["cost"; "cost"] -> In x (["org"] ++ ["cost"]) /\ ~ (In x ["org"] /\ In x ["cost"])).
Proof.
  split; [split; [apply String.leb_total|]; split; [apply StrLib.str_leb_trans|apply String.leb_antisym]|].
  split; [split; repeat constructor; intros []|]. split; [split; repeat constructor; intros []|].
  split; [intros t [<-|[<-|[]]]; (split; [reflexivity|]); intros e He; repeat (destruct He as [<-|He]; [reflexivity|]); destruct He|].
  split; [split; [cbn; intuition discriminate|]; split; [cbn; intuition discriminate|auto]|]. split; [discriminate|].
  split; [intros t [<-|[<-|[]]]; split; [discriminate|reflexivity|discriminate|reflexivity]|].
  split; [intros t e [<-|[<-|[]]] He; repeat (destruct He as [<-|He]; [reflexivity|]); destruct He|].
  intros x [<-|[<-|[]]]; cbn; intuition discriminate.
Qed.
Example C131_example :
  (do t <- compute_statistics_with_attributes "" missing String.leb price None ["cost"; "cost"] priced ; Ok (map (fun row => (fst row, snd (snd row))) t)) =
    Ok [("a", [("cost", AttributeStatistics (Some 5%Q) (Some 9%Q) (Some (21 / 3)%Q))]); ("b", [("cost", AttributeStatistics None None None)])] /\
  compute_statistics_with_attributes "" missing String.leb price None ["weight"] priced = Err KeyError.
Proof. split; vm_compute; reflexivity. Qed.
