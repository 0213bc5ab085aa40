(** Property C148: event logs exchanged with pm4py, as objects *)
From Coq Require Import String ZArith Lia.
From Verif.Model Require Import Base EventLog LogObjects Pm4py Pm4pyObjects.
From Verif.Spec Require Import LogObjectSpec Pm4pyObjectSpec.
From Verif.Proofs Require Pm4pyObjB.
Open Scope string_scope.
Open Scope list_scope.
Open Scope nat_scope.

(** C148: Which attributes event logs share with pm4py *)
(** from pm4py: the pm4py log stays as it is, and the new log is the one that
    C109 describes *)
Theorem C148_import : forall V a i (s s1 : store string (pyvalue V) (pyvalue V)) l r,
  pm_exists s l -> import_log a i s l = (s1, r) ->
  view_pm_log s1 l = view_pm_log s l /\
  match convert_pm4py_log a i (view_pm_log s l) with
  | Ok v => exists c, r = Ok c /\ view_log s1 c = v
  | Err x => r = Err x
  end.
Proof. exact @Pm4pyObjB.C148_import. Qed.
Print Assumptions C148_import.
(** a trace of the new log and the trace it was made from have the same
    attributes for good: whatever one of them gets, the other one gets *)
Theorem C148_trace_attributes : forall V a i (s s1 : store string (pyvalue V) (pyvalue V)) l c j t u,
  pm_exists s l -> import_log a i s l = (s1, Ok c) -> nth_error l j = Some t -> nth_error c j = Some u ->
  (forall x, pmt_attrs (view_pm (set_dct (o_tattrs (trs s1 u)) x s1) t) = x) /\
  (forall x, tr_attrs (view_trace (set_dct (po_attrs t) x s1) u) = x).
Proof. exact @Pm4pyObjB.C148_trace_attributes. Qed.
Print Assumptions C148_trace_attributes.
(** events have attributes of their own *)
Theorem C148_event_attributes : forall V a i (s s1 : store string (pyvalue V) (pyvalue V)) l c,
  pm_exists s l -> import_log a i s l = (s1, Ok c) ->
  (forall u e x, In u c -> In e (contents s1 u) ->
     view_pm_log (set_dct (o_attrs (evs s1 e)) x s1) l = view_pm_log s l) /\
  (forall d x, in_pm_log l d -> map (@events _ _ _) (view_log (set_dct d x s1) c) = map (@events _ _ _) (view_log s1 c)).
Proof. exact @Pm4pyObjB.C148_event_attributes. Qed.
Print Assumptions C148_event_attributes.
(** so no method of the new log disturbs the pm4py log *)
Theorem C148_edits : forall V a i (s s1 s2 : store string (pyvalue V) (pyvalue V)) l c c' xs,
  pm_exists s l -> import_log a i s l = (s1, Ok c) -> edit_all xs s1 c = (s2, c') ->
  view_log s2 c' = edited_all xs (view_log s1 c) /\ view_pm_log s2 l = view_pm_log s l.
Proof. exact @Pm4pyObjB.C148_edits. Qed.
Print Assumptions C148_edits.
Theorem C148_derive : forall V minus negative start_attr end_attr dur_attr a i (s s1 s2 : store string (pyvalue V) (pyvalue V)) l c r,
  pm_exists s l -> own_attrs l -> import_log a i s l = (s1, Ok c) ->
  derive_obj minus negative start_attr end_attr dur_attr s1 c = (s2, r) ->
  view_pm_log s2 l = view_pm_log s l /\
  match derive_event_duration minus negative start_attr end_attr dur_attr (view_log s1 c) with
  | Ok v => r = Ok tt /\ view_log s2 c = v
  | Err x => r = Err x
  end.
Proof. exact @Pm4pyObjB.C148_derive. Qed.
Print Assumptions C148_derive.
Theorem C148_join : forall V (EV : Eq (pyvalue V)) minus plus ord start_attr end_attr dur_attr raise_error blacklist a i (s s1 s2 : store string (pyvalue V) (pyvalue V)) l c r,
  pm_exists s l -> own_attrs l -> import_log a i s l = (s1, Ok c) ->
  join_obj minus plus ord start_attr end_attr dur_attr raise_error blacklist s1 c = (s2, r) ->
  view_pm_log s2 l = view_pm_log s l /\
  match join_successive minus plus ord start_attr end_attr dur_attr raise_error blacklist (view_log s1 c) with
  | Ok v => r = Ok tt /\ view_log s2 c = v
  | Err x => r = Err x
  end.
Proof. exact @Pm4pyObjB.C148_join. Qed.
Print Assumptions C148_join.
(** to pm4py: the pm4py log has the content that C109 describes, in
    dictionaries of its own; neither of the two logs sees what happens to the
    attributes of the other one *)
Theorem C148_export : forall V (s s1 : store string (pyvalue V) (pyvalue V)) l ps,
  exists_in s l -> export_log s l = (s1, ps) ->
  view_log s1 l = view_log s l /\ view_pm_log s1 ps = convert_eventlog_to_pm4py (view_log s l) /\
  (forall d x, in_pm_log ps d -> view_log (set_dct d x s1) l = view_log s l) /\
  (forall d x, in_log s1 l d -> view_pm_log (set_dct d x s1) ps = view_pm_log s1 ps).
Proof. exact @Pm4pyObjB.C148_export. Qed.
Print Assumptions C148_export.

(** a pm4py log with two traces: the dictionaries 0 and 1 are those of the
    traces, 2, 3 and 4 those of their events *)
Definition ex_store : store string (pyvalue nat) (pyvalue nat) :=
  Store (fun _ => Ev "" 0 None) (fun _ => Tr (PVal 0) 0 0) (fun _ => [])
    (fun d => nth d [[("concept:name", PVal 7)]; [("concept:name", PVal 8)];
                     [("concept:name", PStr "a"); ("time", PVal 3)]; [("concept:name", PStr "b"); ("time", PVal 5)];
                     [("concept:name", PStr "a"); ("time", PVal 4)]] []) 5.
Definition ex_pm : list pm_obj := [PmObj 0 [2; 3]; PmObj 1 [4]].
Definition minus (x y : pyvalue nat) : result (pyvalue nat) :=
  match x, y with PVal m, PVal n => Ok (PVal (m - n)) | _, _ => Err TypeError end.
Definition ex_import := import_log "concept:name" "concept:name" ex_store ex_pm.
Definition ex_s1 := fst ex_import.
Definition ex_l : list nat := [10; 14].
Definition ex_edit := edit_all [FilterActivities ["b"] true; AddEnd "end"] ex_s1 ex_l.
Definition ex_derive := derive_obj minus (fun _ => Ok false) "start" "time" "duration" ex_s1 ex_l.
Lemma ex_pm_exists : pm_exists ex_store ex_pm.
Proof.
  intros t [<-|[<-|[]]]; cbn; (split; [repeat constructor|]); intros e He; repeat (destruct He as [<-|He]; [repeat constructor|]); destruct He.
Qed.
Lemma ex_exists : exists_in ex_s1 ex_l.
Proof.
  intros t [<-|[<-|[]]]; (split; [vm_compute; lia|split; [vm_compute; lia|split; [vm_compute; lia|]]]);
    intros e He; vm_compute in He; repeat (destruct He as [<-|He]; [split; vm_compute; lia|]); destruct He.
Qed.
Example C148_example : pm_exists ex_store ex_pm /\ own_attrs ex_pm /\ exists_in ex_s1 ex_l /\
  snd ex_import = Ok ex_l /\ map to_activity_list (view_log ex_s1 ex_l) = [["a"; "b"]; ["a"]] /\
  map to_activity_list (view_log (fst ex_edit) (snd ex_edit)) = [["b"; "end"]] /\
  snd ex_derive = Ok tt /\
  map (fun t => map (fun e => dict_get "duration" (ev_attrs e)) (events t)) (view_log (fst ex_derive) ex_l) =
     [[Some (PVal 0); Some (PVal 2)]; [Some (PVal 0)]] /\
  map (@pmt_attrs nat) (view_pm_log (set_dct (o_tattrs (trs ex_s1 10)) [("cost", PVal 1)] ex_s1) ex_pm) =
     [[("cost", PVal 1)]; [("concept:name", PVal 8)]] /\
  snd (export_log ex_s1 ex_l) = [PmObj 15 [16; 17]; PmObj 18 [19]].
Proof.
  split; [exact ex_pm_exists|]. split; [repeat constructor; cbn; intuition discriminate|]. split; [exact ex_exists|].
  repeat split; vm_compute; reflexivity.
Qed.
