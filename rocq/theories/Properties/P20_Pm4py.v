(** Properties C107 - C109: Petri nets and event logs exchanged with pm4py *)
From Coq Require Import String ZArith.
From Verif.Model Require Import Base PetriNet Pm4py EventLog.
From Verif.Spec Require Import PetriSpec Pm4pySpec.
From Verif.Proofs Require PetriD Pm4pyC Pm4pyE Pm4pyF Pm4pyG.
Open Scope string_scope.
Open Scope list_scope.
Open Scope nat_scope.
(** two sources and a sink, an invisible transition, a token that is not on a source *)
Definition bakery : net := PetriD.run_net
  [PetriD.AddP "p" 1; PetriD.AddP "q" 0; PetriD.AddP "r" 2; PetriD.AddP "s" 0; PetriD.AddT "bake"; PetriD.AddI "skip";
   PetriD.Conn "p" "bake" "r"; PetriD.Conn "q" "bake" "r"; PetriD.Conn "r" "skip" "s"].
Example bakery_built : built bakery.
Proof. apply PetriD.run_built. Qed.
Example as_is_ok : any_order (fun l => l).
Proof. intros l. apply Permutation.Permutation_refl. Qed.
Example bakery_two_sided : two_sided bakery.
Proof.
  intros t. unfold starts, ends. cbn. destruct (String.eqb t "bake"); [cbn; split; discriminate|].
  destruct (String.eqb t "skip"); cbn; [split; discriminate|tauto].
Qed.
Example bakery_no_loop : forall t, ~ namesake_loop bakery t.
Proof.
  intros t [H1 H2]. unfold starts in H1. unfold ends in H2. cbn in H1, H2. destruct (String.eqb t "bake"); [cbn in H1, H2; intuition congruence|].
  destruct (String.eqb t "skip"); cbn in H1, H2; intuition congruence.
Qed.
(** a net of pm4py with an unlabelled transition *)
Definition small : pm_net := PmNet [(7, "a"); (9, "b")] [(0, ("t", Some "x")); (1, ("u", None))] [ArcIn 7 0 1; ArcOut 0 9 1; ArcIn 9 1 1; ArcOut 1 7 1].
Example small_proper : proper small.
Proof.
  split; [repeat constructor; cbn; intuition discriminate|]. split; [repeat constructor; cbn; intuition discriminate|].
  repeat constructor; cbn; first [eexists; left; reflexivity|eexists; right; left; reflexivity|eexists; eexists; left; reflexivity|eexists; eexists; right; left; reflexivity].
Qed.
Example small_names : names_differ small.
Proof. split; repeat constructor; cbn; intuition discriminate. Qed.
Example small_plain : plain small.
Proof. split; repeat constructor; cbn; intuition discriminate. Qed.
(** a log with trace attributes, one of them named like the id in pm4py *)
Definition calls : py_log nat :=
  [Trace (PVal 1) [Event "a" [("cost", PVal 3)] None; Event "b" [] (Some "t")] [("age", PVal 40)];
   Trace (PVal 2) [Event "a" [] None] [("age", PVal 41); ("concept:name", PStr "two")]].
Example calls_real : Forall real_attrs calls.
Proof. repeat constructor; cbn; intuition discriminate. Qed.

(** C107: Petri nets handed to pm4py *)
(** every place and every transition is taken over under its name, visible transitions with their label; the initial
    marking has one token on every source, the final one on every sink, whatever the tokens of the net are; there is one
    arc of weight 1 for every start and end place of a transition that has both *)
Theorem C107_export : forall ord n, built n -> any_order ord -> exists m initial final,
  convert_data_petri_net_to_pm4py ord n = Ok (m, initial, final) /\ proper m /\ names_differ m /\ plain m /\
  map snd (pm_places m) = map pname (keys (places n)) /\
  map snd (pm_transitions m) = map (fun '(id, t) => (tname id, if t_visible t then Some (t_label t) else None)) (transitions n) /\
  (forall o p, is_place m o (pname p) ->
     (source n p -> pm_tokens initial o = 1%Z) /\ (~ source n p -> pm_tokens initial o = 0%Z) /\
     (sink n p -> pm_tokens final o = 1%Z) /\ (~ sink n p -> pm_tokens final o = 0%Z)) /\
  (forall p t, ~ (p = t /\ namesake_loop n t) -> arc_in m (pname p) (tname t) <-> In p (starts n t) /\ ends n t <> []) /\
  (forall p t, ~ (p = t /\ namesake_loop n t) -> arc_out m (tname t) (pname p) <-> In p (ends n t) /\ starts n t <> []) /\
  (forall t, namesake_loop n t -> arc_in m (pname t) (tname t) <-> ~ arc_out m (tname t) (pname t)).
Proof. exact @Pm4pyE.C107_export. Qed.
Print Assumptions C107_export.
(** the way back: up to the names, the structure is kept; guards, variables, tokens and the labels of
    invisible transitions are lost, and the sources carry one token each *)
Theorem C107_round_trip : forall ord n m m' initial final, built n -> any_order ord -> two_sided n -> (forall t, ~ namesake_loop n t) ->
  convert_data_petri_net_to_pm4py ord n = Ok (m, initial, final) -> same_net m m' -> exists n',
  convert_pm4py_to_data_petri_net m' initial = Ok n' /\ built n' /\
  (forall q, has_place n' q <-> exists p, q = pname p /\ has_place n p) /\
  (forall q, has_transition n' q <-> exists t, q = tname t /\ has_transition n t) /\
  (forall p, (source n p -> tokens n' (pname p) = 1%Z) /\ (~ source n p -> tokens n' (pname p) = 0%Z)) /\
  (forall t q, In q (starts n' (tname t)) <-> exists p, q = pname p /\ In p (starts n t)) /\
  (forall t q, In q (ends n' (tname t)) <-> exists p, q = pname p /\ In p (ends n t)) /\
  (forall t tr, dict_get t (transitions n) = Some tr -> exists tr', dict_get (tname t) (transitions n') = Some tr' /\
     t_visible tr' = t_visible tr /\ t_label tr' = (if t_visible tr then t_label tr else tname t) /\ t_guard tr' = AcceptAlways) /\
  variables n' = [].
Proof. exact @Pm4pyF.C107_round_trip. Qed.
Print Assumptions C107_round_trip.
(** a net without guards keeps its runs *)
Theorem C107_runs : forall ord n m m' initial final n' st st' M N, built n -> any_order ord -> two_sided n -> (forall t, ~ namesake_loop n t) ->
  has_guards n = false -> convert_data_petri_net_to_pm4py ord n = Ok (m, initial, final) -> same_net m m' ->
  convert_pm4py_to_data_petri_net m' initial = Ok n' -> (forall p, N (pname p) = M p) ->
  (forall l M1, run n st M l M1 <-> exists N1, run n' st' N (map tname l) N1 /\ forall p, N1 (pname p) = M1 p) /\
  (forall l' N1, run n' st' N l' N1 -> exists l, l' = map tname l).
Proof. exact @Pm4pyF.C107_runs. Qed.
Print Assumptions C107_runs.
(** a transition that bears the name of a place with arcs in both directions loses one of the two arcs: here the place is emptied *)
Theorem C107_namesake_witness : exists ord n m initial final n', built n /\ any_order ord /\ two_sided n /\ namesake_loop n "x" /\
  convert_data_petri_net_to_pm4py ord n = Ok (m, initial, final) /\ convert_pm4py_to_data_petri_net m initial = Ok n' /\
  effect n "x" "x" = 0%Z /\ effect n' (tname "x") (pname "x") = (-1)%Z.
Proof. exact @Pm4pyF.C107_namesake_witness. Qed.
Print Assumptions C107_namesake_witness.
(** a transition without end places (of a net taken over from pm4py) loses its arcs: it can then always fire *)
Theorem C107_one_sided_witness : exists ord n m initial final, built n /\ any_order ord /\ (forall t, ~ namesake_loop n t) /\
  convert_data_petri_net_to_pm4py ord n = Ok (m, initial, final) /\ starts n "t" = ["a"] /\ pm_arcs m = [].
Proof. exact @Pm4pyF.C107_one_sided_witness. Qed.
Print Assumptions C107_one_sided_witness.
Example C107_example : exists m initial final n', convert_data_petri_net_to_pm4py (fun l => l) bakery = Ok (m, initial, final) /\
  length (pm_arcs m) = 5 /\ pm_transitions m = [(0, ("tbake", Some "bake")); (1, ("tskip", None))] /\ has_guards bakery = false /\
  convert_pm4py_to_data_petri_net m initial = Ok n' /\ source bakery "q" /\ tokens n' "pq" = 1%Z /\ tokens n' "pr" = 0%Z /\ tokens bakery "r" = 2%Z.
Proof.
  do 4 eexists. split; [vm_compute; reflexivity|]. split; [reflexivity|]. split; [reflexivity|]. split; [reflexivity|]. split; [vm_compute; reflexivity|].
  split; [|vm_compute; auto]. split; [exists "bake"; vm_compute; auto|]. intros [t Ht]. unfold ends in Ht. cbn in Ht.
  destruct (String.eqb t "bake"); [cbn in Ht; intuition discriminate|]. destruct (String.eqb t "skip"); cbn in Ht; intuition discriminate.
Qed.

(** C108: Petri nets taken over from pm4py *)
(** a net whose places and transitions have different names is taken over: places with the tokens of the marking,
    transitions with their labels, an arc for an arc; transitions without label are invisible; no guards, no variables *)
Theorem C108_import : forall m initial, proper m -> names_differ m ->
  (forall o p, is_place m o p -> (0 <= pm_tokens initial o)%Z) -> exists n,
  convert_pm4py_to_data_petri_net m initial = Ok n /\
  keys (places n) = map snd (pm_places m) /\ keys (transitions n) = map (fun x => fst (snd x)) (pm_transitions m) /\
  variables n = [] /\
  (forall o p, is_place m o p -> tokens n p = pm_tokens initial o) /\
  (forall k t l, In (k, (t, l)) (pm_transitions m) -> exists tr, dict_get t (transitions n) = Some tr /\
     t_label tr = label_of t l /\ t_visible tr = (match l with Some _ => true | None => false end) /\ t_guard tr = AcceptAlways) /\
  (forall p t, In p (starts n t) <-> arc_in m p t) /\ (forall p t, In p (ends n t) <-> arc_out m t p).
Proof. exact @Pm4pyC.C108_import. Qed.
Print Assumptions C108_import.
(** otherwise, and only then, a ValueError is raised *)
Theorem C108_errors : forall m initial, proper m ->
  ~ (names_differ m /\ forall o p, is_place m o p -> (0 <= pm_tokens initial o)%Z) ->
  convert_pm4py_to_data_petri_net m initial = Err ValueError.
Proof. exact @Pm4pyC.C108_errors. Qed.
Print Assumptions C108_errors.
(** without weights and parallel arcs the imported net has the runs of the token game of pm4py *)
Theorem C108_runs : forall m initial n st M N, proper m -> names_differ m -> plain m ->
  convert_pm4py_to_data_petri_net m initial = Ok n -> same_marking m M N ->
  (forall ts M', pm_run m M ts M' -> exists l N', named m ts l /\ run n st N l N' /\ same_marking m M' N') /\
  (forall l N', run n st N l N' -> exists ts M', named m ts l /\ pm_run m M ts M' /\ same_marking m M' N').
Proof. exact @Pm4pyC.C108_runs. Qed.
Print Assumptions C108_runs.
(** with weights it has not: here the transition needs two tokens and one is there *)
Theorem C108_weight_witness : exists m initial n st M N l N', proper m /\ names_differ m /\ NoDup (pm_arcs m) /\
  convert_pm4py_to_data_petri_net m initial = Ok n /\ same_marking m M N /\
  run n st N l N' /\ forall ts M', named m ts l -> ~ pm_run m M ts M'.
Proof. exact @Pm4pyC.C108_weight_witness. Qed.
Print Assumptions C108_weight_witness.
Example C108_example : exists n, convert_pm4py_to_data_petri_net small [(7%nat, 1%Z)] = Ok n /\ starts n "u" = ["b"] /\ tokens n "a" = 1%Z /\
  same_marking small (pm_tokens [(7%nat, 1%Z)]) (tokens n) /\ forall o p, is_place small o p -> (0 <= pm_tokens [(7%nat, 1%Z)] o)%Z.
Proof.
  eexists. split; [vm_compute; reflexivity|]. split; [reflexivity|]. split; [reflexivity|].
  split; intros o p [X|[X|[]]]; injection X as <- <-; vm_compute; congruence.
Qed.
Example C108_example_errors : exists m, proper m /\ ~ names_differ m.
Proof.
  exists (PmNet [(0, "a"); (1, "a")] [] []). split; [split; [|split]; repeat constructor; cbn; intuition discriminate|].
  intros [X _]. inversion X as [|? ? Y]; subst. apply Y. left. reflexivity.
Qed.

(** C109: Event logs handed to pm4py and taken over from it *)
(** to pm4py: ids, trace attributes and activities arrive, everything else about the events is dropped *)
Theorem C109_export : forall V (l : py_log V), Forall real_attrs l ->
  Forall2 (fun t p => trace_sent t (pmt_attrs p) /\ pmt_events p = map (fun e => [("concept:name", PStr (activity e))]) (events t))
    l (convert_eventlog_to_pm4py l).
Proof. exact @Pm4pyG.C109_export. Qed.
Print Assumptions C109_export.
(** from pm4py: the traces that are read, for any choice of the two attributes *)
Theorem C109_import : forall V a i (l : list (pm_trace V)) (l' : py_log V),
  convert_pm4py_log a i l = Ok l' <-> Forall2 (trace_read a i) l l'.
Proof. exact @Pm4pyG.C109_import. Qed.
Print Assumptions C109_import.
(** the first trace that cannot be read decides on the exception *)
Theorem C109_errors : forall V a i (l : list (pm_trace V)) x, convert_pm4py_log a i l = Err x <->
  exists before p after, l = before ++ p :: after /\ Forall (fun p' => exists t, trace_read a i p' t) before /\ trace_fails a i p x.
Proof. exact @Pm4pyG.C109_errors. Qed.
Print Assumptions C109_errors.
(** there and back: the activities stay, the trace gets the attribute concept:name and the events get nothing but that *)
Theorem C109_round_trip : forall V (l : py_log V), Forall real_attrs l -> Forall (fun t => events t <> []) l -> exists l',
  convert_pm4py_log "concept:name" "concept:name" (convert_eventlog_to_pm4py l) = Ok l' /\
  to_simple_activity_log l' = to_simple_activity_log l /\
  Forall2 (fun t t' => Some (tid t') = sent_attr t "concept:name" /\ trace_sent t (tr_attrs t') /\
    events t' = map (fun e => Event (activity e) [("concept:name", PStr (activity e))] None) (events t)) l l'.
Proof. exact @Pm4pyG.C109_round_trip. Qed.
Print Assumptions C109_round_trip.
(** a trace without events, which [filter_activities] may leave, does not come back *)
Theorem C109_round_trip_empty : forall V (l : py_log V), Forall real_attrs l -> Exists (fun t => events t = []) l ->
  convert_pm4py_log "concept:name" "concept:name" (convert_eventlog_to_pm4py l) = Err ValueError.
Proof. exact @Pm4pyG.C109_round_trip_empty. Qed.
Print Assumptions C109_round_trip_empty.
(** a second trip changes nothing any more *)
Theorem C109_stable : forall V (l l' : py_log V), Forall real_attrs l ->
  convert_pm4py_log "concept:name" "concept:name" (convert_eventlog_to_pm4py l) = Ok l' ->
  convert_pm4py_log "concept:name" "concept:name" (convert_eventlog_to_pm4py l') = Ok l'.
Proof. exact @Pm4pyG.C109_stable. Qed.
Print Assumptions C109_stable.
(** the log that comes back is not equal to the one that was sent, since traces compare their attributes *)
Theorem C109_equality_witness : exists l l' : py_log nat, Forall real_attrs l /\
  convert_pm4py_log "concept:name" "concept:name" (convert_eventlog_to_pm4py l) = Ok l' /\
  forall (EV : Eq (pyvalue nat)) hash, log_eqb hash l l' = false.
Proof. exact @Pm4pyG.C109_equality_witness. Qed.
Print Assumptions C109_equality_witness.
Example C109_example : exists l', convert_pm4py_log "concept:name" "concept:name" (convert_eventlog_to_pm4py calls) = Ok l' /\
  map (fun t => tid t) l' = [PVal 1; PStr "two"] /\ Forall (fun t => events t <> []) calls.
Proof. eexists. split; [vm_compute; reflexivity|]. split; [reflexivity|]. repeat constructor; discriminate. Qed.
Example C109_example_errors :
  trace_fails "concept:name" "concept:name" (PmTrace [("concept:name", PVal 1)] [[("concept:name", PStr "a")]; [("concept:name", PVal 5)]]) TypeError /\
  Exists (fun t => events t = []) [Trace (PVal 1) [Event "a" [] None] []; Trace (PVal 2) [] [] : @trace string (pyvalue nat) (pyvalue nat)].
Proof.
  split; [|right; left; reflexivity]. right. right. split; [discriminate|]. exists [[("concept:name", PStr "a")]], [("concept:name", PVal 5)], []. split; [reflexivity|].
  split; [|right; exists 5; auto]. constructor; [|constructor]. exists (Event "a" [("concept:name", PStr "a")] None). repeat split.
Qed.
