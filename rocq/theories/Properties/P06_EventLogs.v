(** Properties C25 - C36, C70: event logs, log noise and log queries *)
From Coq Require Import Permutation QArith Qround.
From Verif.Model Require Import Base EventLog LogNoise LogQueries.
From Verif.Spec Require Import Lists Logs EventLogSpec QuerySpec.
From Verif.Proofs Require EventLogA EventLogB EventLogC EventLogD LogNoise LogQueries.
Open Scope nat_scope.

(** Concrete logs for the examples: activities and attribute values are
    numbers *)
Definition bare (i : nat) (acts : list nat) : trace nat nat nat := Trace i (map new_event acts) [].

(** C25: simple activity logs *)
Theorem C25_simple_log_round_trip :
  forall {A V} (l : list (list A)), Forall (fun acts => acts <> []) l ->
    exists g : log A V nat, create_from_simple l = Ok g /\ to_simple_activity_log g = l /\
      map tid g = seq 0 (length l) /\
      Forall (fun t => tr_attrs t = [] /\
        Forall (fun e => ev_attrs e = [] /\ transition e = None) (events t)) g.
Proof. exact @EventLogA.create_from_simple_ok. Qed.
Print Assumptions C25_simple_log_round_trip.
Theorem C25_empty_trace_rejected :
  forall {A V} (l : list (list A)), In [] l ->
    (create_from_simple l : result (log A V nat)) = Err ValueError.
Proof. exact @EventLogA.create_from_simple_empty. Qed.
Print Assumptions C25_empty_trace_rejected.
Example C25_example :
  match (create_from_simple [[1;2];[3]] : result (log nat nat nat)) with
  | Ok g => to_simple_activity_log g | Err _ => [] end = [[1;2];[3]].
Proof. reflexivity. Qed.

(** C26: dictionary round trip *)
Theorem C26_dict_round_trip :
  forall {A V I} (l : log A V I),
    Forall (fun t => events t <> []) l ->
    Forall (fun t => Forall (fun e => transition e = None) (events t)) l ->
    log_from_dict (log_to_dict l) = Ok l.
Proof. exact @EventLogA.log_dict_exact. Qed.
Print Assumptions C26_dict_round_trip.
(** in general everything but the transition ids survives *)
Theorem C26_only_transition_ids_lost :
  forall {A V I} (l : log A V I), Forall (fun t => events t <> []) l ->
    exists l', log_from_dict (log_to_dict l) = Ok l' /\
      Forall2 (fun t t' => tid t' = tid t /\ tr_attrs t' = tr_attrs t /\
        Forall2 (fun e e' => activity e' = activity e /\ ev_attrs e' = ev_attrs e /\
                             transition e' = None) (events t) (events t')) l l'.
Proof. exact @EventLogA.log_dict_ok. Qed.
Print Assumptions C26_only_transition_ids_lost.
(** a log holding an emptied trace (filter_activities without removal of empty
    traces) cannot be read back *)
Theorem C26_emptied_trace :
  forall {A V I} (l : log A V I), Exists (fun t => events t = []) l ->
    log_from_dict (log_to_dict l) = Err ValueError.
Proof. exact @EventLogA.log_dict_empty. Qed.
Print Assumptions C26_emptied_trace.
Theorem C26_transition_id_refuted :
  exists l : log nat nat nat, Forall (fun t => events t <> []) l /\
    log_from_dict (log_to_dict l) <> Ok l.
Proof.
  exists [Trace 0 [Event 1 [] (Some String.EmptyString)] []]. split.
  - constructor; [discriminate|constructor].
  - vm_compute. discriminate.
Qed.
Print Assumptions C26_transition_id_refuted.
Example C26_example : log_from_dict (log_to_dict [bare 7 [1;2]; bare 8 [3]]) = Ok [bare 7 [1;2]; bare 8 [3]].
Proof. reflexivity. Qed.

(** C27: filter_activities *)
Theorem C27_filter_activities :
  forall {A V I} `{Eq A} (allowed : list A) (remove_empty : bool) (l : log A V I),
    exists mid,
      Forall2 (fun t t' => tid t' = tid t /\ tr_attrs t' = tr_attrs t /\
        selection (events t) (events t') (fun _ e => In (activity e) allowed)) l mid /\
      (if remove_empty
       then selection mid (filter_activities allowed true l) (fun _ t => events t <> [])
       else filter_activities allowed false l = mid).
Proof. exact @EventLogA.filter_activities_ok. Qed.
Print Assumptions C27_filter_activities.
Example C27_example :
  filter_activities [1;3] true [bare 0 [1;2;3;1]; bare 1 [2;2]; bare 2 [3]] = [bare 0 [1;3;1]; bare 2 [3]].
Proof. reflexivity. Qed.

(** C28: cut_traces, exactly what the code does *)
Theorem C28_cut_traces :
  forall {A V I} `{Eq A} (starts ends : option (list A)) (l : log A V I),
    exists mid,
      Forall2 (fun t t' => tid t' = tid t /\ tr_attrs t' = tr_attrs t /\
        exists es, cut_start starts (events t) es /\ cut_end ends es (events t')) l mid /\
      selection mid (cut_traces starts ends l) (fun _ t => events t <> []).
Proof. exact @EventLogA.cut_traces_ok. Qed.
Print Assumptions C28_cut_traces.
(** a trace without any start activity is not removed: its last event stays *)
Theorem C28_start_activity_refuted :
  exists (l : log nat nat nat) t e, In t (cut_traces (Some [1]) None l) /\
    events t = [e] /\ activity e <> 1.
Proof.
  exists [bare 0 [2;3]], (bare 0 [3]), (new_event 3). split; [left; reflexivity|].
  split; [reflexivity|discriminate].
Qed.
Print Assumptions C28_start_activity_refuted.
Example C28_example :
  cut_traces (Some [1]) (Some [9]) [bare 0 [5;1;2;9;3;9;4]; bare 1 [1;2]] = [bare 0 [1;2;9;3;9]].
Proof. reflexivity. Qed.

(** C29: keep_first_occurence_of_activity_only *)
Theorem C29_keep_first_occurence :
  forall {A V I} `{Eq A} (l : log A V I),
    Forall2 (fun t t' => tid t' = tid t /\ tr_attrs t' = tr_attrs t /\
      selection (events t) (events t') (fun j e => forall i e', i < j ->
        nth_error (events t) i = Some e' -> activity e' <> activity e))
      l (keep_first_occurence l).
Proof. exact @EventLogA.keep_first_ok. Qed.
Print Assumptions C29_keep_first_occurence.
Example C29_example : keep_first_occurence [bare 0 [1;2;3;4;5;1;6;4]] = [bare 0 [1;2;3;4;5;6]].
Proof. reflexivity. Qed.

(** C30: counts and sets *)
Theorem C30_count_events :
  forall {A V I} (l : log A V I), count_nr_of_events l = length (flat_map events l).
Proof. exact @EventLogA.count_nr_of_events_ok. Qed.
Print Assumptions C30_count_events.
Theorem C30_activity_set :
  forall {A V I} `{Eq A} (l : log A V I), NoDup (compute_activity_set l) /\
    forall a, In a (compute_activity_set l) <->
      exists t e, In t l /\ In e (events t) /\ activity e = a.
Proof. exact @EventLogA.activity_set_ok. Qed.
Print Assumptions C30_activity_set.
Theorem C30_activity_supports :
  forall {A V I} `{Eq A} (l : log A V I), NoDup (keys (compute_activity_supports l)) /\
    forall a n, dict_get a (compute_activity_supports l) = Some n <->
      0 < n /\ has_size (fun '(i, j) => exists t e, nth_error l i = Some t /\
                            nth_error (events t) j = Some e /\ activity e = a) n.
Proof. exact @EventLogA.activity_supports_ok. Qed.
Print Assumptions C30_activity_supports.
Theorem C30_start_activities :
  forall {A V I} `{Eq A} (l : log A V I), Forall (fun t => events t <> []) l ->
    exists s, compute_start_activities l = Ok s /\ NoDup s /\
      forall a, In a s <-> exists t e es, In t l /\ events t = e :: es /\ activity e = a.
Proof. exact @EventLogA.start_activities_ok. Qed.
Print Assumptions C30_start_activities.
Theorem C30_end_activities :
  forall {A V I} `{Eq A} (l : log A V I), Forall (fun t => events t <> []) l ->
    exists s, compute_end_activities l = Ok s /\ NoDup s /\
      forall a, In a s <-> exists t e es, In t l /\ events t = es ++ [e] /\ activity e = a.
Proof. exact @EventLogA.end_activities_ok. Qed.
Print Assumptions C30_end_activities.
Theorem C30_emptied_trace_crashes :
  forall {A V I} `{Eq A} (l : log A V I), Exists (fun t => events t = []) l ->
    compute_start_activities l = Err IndexError /\ compute_end_activities l = Err IndexError.
Proof. exact @EventLogA.start_end_empty. Qed.
Print Assumptions C30_emptied_trace_crashes.
Example C30_example :
  compute_activity_supports [bare 0 [1;2;1]; bare 1 [2;3]] = [(1,2);(2,2);(3,1)] /\
  compute_start_activities [bare 0 [1;2;1]; bare 1 [2;3]] = Ok [1;2] /\
  compute_end_activities [bare 0 [1;2;1]; bare 1 [2;3]] = Ok [1;3].
Proof. repeat split. Qed.

(** C31: count_follows_directly_or_indirectly, for every iteration order of sets *)
Theorem C31_count_follows :
  forall {A V I} `{Eq A} (ord : list A -> list A), (forall s, Permutation (ord s) s) ->
    forall l : log A V I, NoDup (keys (count_follows ord l)) /\
      forall a b n, dict_get (a, b) (count_follows ord l) = Some n <->
        occurs l a /\ occurs l b /\ has_size (log_pairs l a b) n.
Proof. exact @EventLogB.count_follows_ok. Qed.
Print Assumptions C31_count_follows.
Example C31_example :
  let r := count_follows (@rev nat) [bare 0 [1;2;1;3;3]; bare 1 [1;3]] in
  (forall s : list nat, Permutation (rev s) s) /\
  dict_get (1,3) r = Some 3 /\ dict_get (1,1) r = Some 1 /\ dict_get (3,1) r = Some 0.
Proof. cbv zeta. split; [intros s; symmetry; apply Permutation_rev|]. repeat split. Qed.

(** C32: splits.  [rnd] is the rounding of floating point results: any monotone
    function that is exact on the integers up to the number of traces *)
Theorem C32_train_test_partition :
  forall {A V I} (rnd : Q -> Q) (shuffle : list (trace A V I) -> list (trace A V I)) (p : Q) (l : log A V I),
    (forall x y, (x <= y)%Q -> (rnd x <= rnd y)%Q) ->
    (forall n, (Z.abs n <= Z.max 1 (Z.of_nat (length l)))%Z -> (rnd (inject_Z n) == inject_Z n)%Q) ->
    (forall l, Permutation (shuffle l) l) ->
    (0 <= p)%Q -> (p <= 1)%Q ->
    exists train test, train_test_split rnd shuffle p l = Ok (train, test) /\
      train ++ test = shuffle l /\ Permutation (train ++ test) l /\
      Z.of_nat (length train) = Qfloor (rnd (inject_Z (Z.of_nat (length l)) * rnd (1 - p))%Q).
Proof. exact @EventLogB.train_test_ok. Qed.
Print Assumptions C32_train_test_partition.
Theorem C32_proportion_out_of_range :
  forall {A V I} (rnd : Q -> Q) (shuffle : list (trace A V I) -> list (trace A V I)) (p : Q) (l : log A V I),
    (p < 0 \/ 1 < p)%Q -> train_test_split rnd shuffle p l = Err ValueError.
Proof. exact @EventLogB.train_test_range. Qed.
Print Assumptions C32_proportion_out_of_range.
(** the test part has at least the demanded share (exact arithmetic) *)
Theorem C32_test_size :
  forall {A V I} (shuffle : list (trace A V I) -> list (trace A V I)) (p : Q) (l : log A V I) train test,
    (forall l, Permutation (shuffle l) l) -> (0 <= p)%Q -> (p <= 1)%Q ->
    train_test_split (fun x => x) shuffle p l = Ok (train, test) ->
    let n := inject_Z (Z.of_nat (length l)) in
    (p * n <= inject_Z (Z.of_nat (length test)) < p * n + 1)%Q.
Proof. exact @EventLogB.train_test_size. Qed.
Print Assumptions C32_test_size.
Theorem C32_k_folds :
  forall {A V I} (k : Z) (l : log A V I), (2 <= k <= Z.of_nat (length l))%Z ->
    exists folds, k_folds k l = Ok folds /\ Z.of_nat (length folds) = k /\
      concat (map snd folds) = l /\
      (forall i train test, nth_error folds i = Some (train, test) ->
         train = others (map snd folds) i) /\
      (forall f, In f folds -> length l / Z.to_nat k <= length (snd f) <= length l / Z.to_nat k + 1).
Proof. exact @EventLogB.k_folds_ok. Qed.
Print Assumptions C32_k_folds.
Theorem C32_k_out_of_range :
  forall {A V I} (k : Z) (l : log A V I), (k < 2 \/ Z.of_nat (length l) < k)%Z ->
    k_folds k l = Err ValueError.
Proof. exact @EventLogB.k_folds_range. Qed.
Print Assumptions C32_k_out_of_range.
Example C32_example :
  train_test_split (fun x => x) (@rev _) (1 # 3) [bare 0 [1]; bare 1 [2]; bare 2 [3]; bare 3 [4]]
    = Ok ([bare 3 [4]; bare 2 [3]], [bare 1 [2]; bare 0 [1]]) /\
  k_folds 2 [bare 0 [1]; bare 1 [2]; bare 2 [3]] =
    Ok [([bare 2 [3]], [bare 0 [1]; bare 1 [2]]); ([bare 0 [1]; bare 1 [2]], [bare 2 [3]])].
Proof. split; reflexivity. Qed.

(** C33: joining successive events.  Blocks are the maximal runs of equal,
    non-blacklisted activities; every block becomes one event *)
Theorem C33_join_successive :
  forall {A V I} `{Eq A} `{Eq V} (minus plus : V -> V -> result V) (ord : list string -> list string),
    (forall s, Permutation (ord s) s) ->
    forall sa ea da raise (bl : list A) (l l' : log A V I),
      join_successive minus plus ord sa ea da raise bl l = Ok l' ->
      Forall2 (fun t t' => tid t' = tid t /\ tr_attrs t' = tr_attrs t /\
        exists bs, blocks (joinable bl) (events t) bs /\
          Forall2 (merged minus plus sa ea da raise) bs (events t')) l l'.
Proof. exact (fun A V I H H0 m p => @EventLogD.join_successive_ok A V I H H0 m p (fun _ => Ok false)). Qed.
Print Assumptions C33_join_successive.
(** without date attributes it succeeds if joined neighbours agree on their
    attributes or the check is off *)
Theorem C33_join_succeeds :
  forall {A V I} `{Eq A} `{Eq V} (minus plus : V -> V -> result V) (ord : list string -> list string),
    (forall s, Permutation (ord s) s) ->
    forall sa ea da raise (bl : list A) (l : log A V I), sa = None -> ea = None -> da = None ->
      Forall (fun t => events t <> []) l ->
      (raise = true -> forall t i x y, In t l -> nth_error (events t) i = Some x ->
         nth_error (events t) (S i) = Some y -> joinable bl x y -> same_attrs (ev_attrs x) (ev_attrs y)) ->
      exists l', join_successive minus plus ord sa ea da raise bl l = Ok l'.
Proof. exact (fun A V I H H0 m p => @EventLogD.join_successive_total A V I H H0 m p). Qed.
Print Assumptions C33_join_succeeds.
Definition ev (a : nat) (d : list (string * nat)) : event nat nat := Event a d None.
Module Names.
  Import String. Local Open Scope string_scope.
  Definition s := "start". Definition e := "end". Definition d := "duration".
End Names.
Example C33_example :
  join_successive (fun a b => Ok (a - b)) (fun a b => Ok (a + b)) (fun s => s)
    (Some Names.s) (Some Names.e) (Some Names.d) true [7]
    [Trace 0 [ev 1 [(Names.s,0);(Names.e,2)]; ev 1 [(Names.s,2);(Names.e,5)]; ev 7 []; ev 7 []; ev 1 []] []]
  = Ok [Trace 0 [ev 1 [(Names.s,0);(Names.e,5);(Names.d,5)]; ev 7 []; ev 7 []; ev 1 []] []].
Proof. reflexivity. Qed.

(** C34: log equality *)
Theorem C34_log_equality :
  forall {A V I} `{Eq A} `{Eq V} (hash : I -> Z) (l m : log A V I),
    Forall proper_trace l -> Forall proper_trace m ->
    log_eqb hash l m = true <-> same_multiset (same_trace hash) l m.
Proof. exact @EventLogC.log_eqb_ok. Qed.
Print Assumptions C34_log_equality.
(** although Trace.__eq__ ignores ids, logs whose traces differ in the id only
    are different (as soon as the hashes differ) *)
Theorem C34_ids_ignored_refuted :
  exists (t u : trace nat nat nat), trace_eqb t u = true /\ log_eqb Z.of_nat [t] [u] = false.
Proof. exists (bare 0 [1]), (bare 1 [1]). split; reflexivity. Qed.
Print Assumptions C34_ids_ignored_refuted.
Example C34_example :
  log_eqb Z.of_nat [bare 0 [1;2]; bare 1 [3]; bare 0 [1;2]] [bare 1 [3]; bare 0 [1;2]; bare 0 [1;2]] = true /\
  log_eqb Z.of_nat [bare 0 [1;2]; bare 1 [3]; bare 0 [1;2]] [bare 1 [3]; bare 0 [1;2]; bare 1 [3]] = false /\
  Forall proper_trace [bare 0 [1;2]; bare 1 [3]; bare 0 [1;2]].
Proof.
  split; [reflexivity|]. split; [reflexivity|].
  repeat constructor.
Qed.

(** C35: noise, for every stream [rand] of random numbers *)
Theorem C35_probability_checked :
  forall p, check_probability p = if Qle_bool 0 p && Qlt_bool p 1 then Ok p else Err ValueError.
Proof. exact LogNoise.check_probability_ok. Qed.
Print Assumptions C35_probability_checked.
Theorem C35_constructors :
  forall {A} (a : A) p rand,
    (new_add a p rand = if Qle_bool 0 p && Qlt_bool p 1 then Ok (AddActivity a p rand) else Err ValueError) /\
    (new_remove p rand = if Qle_bool 0 p && Qlt_bool p 1 then Ok (RemoveEvents (A:=A) p rand) else Err ValueError) /\
    (new_swap p rand = if Qle_bool 0 p && Qlt_bool p 1 then Ok (SwapEvents (A:=A) p rand) else Err ValueError) /\
    new_combined [] = @Err (noise A) ValueError.
Proof.
  intros A a p rand. unfold new_add, new_remove, new_swap. rewrite LogNoise.check_probability_ok.
  destruct (Qle_bool 0 p && Qlt_bool p 1); repeat split.
Qed.
Print Assumptions C35_constructors.
Theorem C35_add_activity :
  forall {A V I} (a : A) p rand (l : log A V I), (0 < p)%Q ->
    length (apply (AddActivity a p rand) l) = length l /\
    forall i t, nth_error l i = Some t -> exists t' bs, nth_error (apply (AddActivity a p rand) l) i = Some t' /\
      tid t' = tid t /\ tr_attrs t' = tr_attrs t /\ concat bs = events t' /\ length bs = length (events t) /\
      forall j e, nth_error (events t) j = Some e ->
        let u := rand (list_sum (map (fun t => length (events t)) (firstn i l)) + j) in
        ((u < p)%Q /\ nth_error bs j = Some [e; new_event a]) \/ ((p <= u)%Q /\ nth_error bs j = Some [e]).
Proof. exact @LogNoise.apply_add. Qed.
Print Assumptions C35_add_activity.
Theorem C35_remove_events :
  forall {A V I} p rand (l : log A V I), (0 < p)%Q ->
    exists mid, length mid = length l /\
      selection mid (apply (RemoveEvents p rand) l) (fun _ t => events t <> []) /\
      forall i t, nth_error l i = Some t -> exists t', nth_error mid i = Some t' /\
        tid t' = tid t /\ tr_attrs t' = tr_attrs t /\
        selection (events t) (events t') (fun j _ =>
          (p <= rand (list_sum (map (fun t => length (events t)) (firstn i l)) + j)%nat)%Q).
Proof. exact @LogNoise.apply_remove. Qed.
Print Assumptions C35_remove_events.
(** a permutation in which no event moves more than one place to the front *)
Theorem C35_swap_events :
  forall {A V I} p rand (l : log A V I), (0 < p)%Q ->
    length (apply (SwapEvents p rand) l) = length l /\
    forall i t, nth_error l i = Some t -> exists t', nth_error (apply (SwapEvents p rand) l) i = Some t' /\
      tid t' = tid t /\ tr_attrs t' = tr_attrs t /\ Permutation (events t) (events t') /\
      exists pi : nat -> nat, (forall j, j < length (events t) -> pi j < length (events t)) /\
        (forall j j', j < length (events t) -> j' < length (events t) -> pi j = pi j' -> j = j') /\
        (forall j, j < length (events t) -> nth_error (events t') (pi j) = nth_error (events t) j) /\
        (forall j, j < length (events t) -> j <= pi j + 1).
Proof. exact @LogNoise.apply_swap. Qed.
Print Assumptions C35_swap_events.
(** the trace goes through states; step [j] exchanges the neighbours at [j] and
    [j+1] iff its random number is below [p] *)
Theorem C35_swap_steps :
  forall {A V I} p rand (l : log A V I) i t, (0 < p)%Q -> nth_error l i = Some t ->
    exists t' (st : nat -> list (event A V)), nth_error (apply (SwapEvents p rand) l) i = Some t' /\
      st 0 = events t /\ st (length (events t) - 1) = events t' /\
      forall j, S j < length (events t) ->
        let u := rand (list_sum (map (fun t => length (events t) - 1) (firstn i l)) + j) in
        ((u < p)%Q /\ forall k, nth_error (st (S j)) k =
            nth_error (st j) (if k =? j then S j else if k =? S j then j else k)) \/
        ((p <= u)%Q /\ st (S j) = st j).
Proof. exact @LogNoise.apply_swap_states. Qed.
Print Assumptions C35_swap_steps.
Theorem C35_probability_zero :
  forall {A V I} (a : A) rand (l : log A V I) p, (p == 0)%Q ->
    apply (AddActivity a p rand) l = l /\ apply (RemoveEvents p rand) l = l /\ apply (SwapEvents p rand) l = l.
Proof.
  intros A V I a rand l p Hp.
  exact (conj (LogNoise.apply_zero_add a rand l p Hp)
          (conj (LogNoise.apply_zero_remove rand l p Hp) (LogNoise.apply_zero_swap rand l p Hp))).
Qed.
Print Assumptions C35_probability_zero.
Theorem C35_combined :
  forall {A V I} (n : noise A) ns (l : log A V I), new_combined (n :: ns) = Ok (CombinedNoise (n :: ns)) /\
    apply (CombinedNoise []) l = l /\
    apply (CombinedNoise (n :: ns)) l = apply (CombinedNoise ns) (apply n l).
Proof. intros. repeat split; reflexivity. Qed.
Print Assumptions C35_combined.
Example C35_example :
  let rand := fun k => nth k [0 # 1; 9 # 10; 1 # 10; 1 # 2] 0%Q in
  apply (AddActivity 5 (1 # 2) rand) [bare 0 [1;2]; bare 1 [3]] = [bare 0 [1;5;2]; bare 1 [3;5]] /\
  apply (RemoveEvents (1 # 2) rand) [bare 0 [1;2]; bare 1 [3]] = [bare 0 [2]] /\
  apply (SwapEvents (1 # 2) rand) [bare 0 [1;2;3]; bare 1 [4;5;6]] = [bare 0 [2;1;3]; bare 1 [5;4;6]].
Proof. repeat split. Qed.

(** C36: queries *)
Theorem C36_execute :
  forall {A V I} `{Eq A} (q : query A V) (l : log A V I),
    exists r, execute q l = Ok r /\ selection l r (fun _ t => sat q t).
Proof. exact @LogQueries.execute_ok. Qed.
Print Assumptions C36_execute.
Theorem C36_matches :
  forall {A V I} `{Eq A} (q : query A V) (t : trace A V I),
    exists b, matches_trace q t = Ok b /\ (b = true <-> sat q t).
Proof. exact @LogQueries.matches_ok. Qed.
Print Assumptions C36_matches.
Example C36_example :
  execute (And (ContainsSubsequence [1;2]) (Invert (ContainsActivity 9)))
    [bare 0 [1;2]; bare 1 [1;3;2]; bare 2 [9;1;2]; bare 3 [1;1;2]] = Ok [bare 0 [1;2]; bare 3 [1;1;2]].
Proof. reflexivity. Qed.

(** C70: derive_event_duration_by_end_date *)
Theorem C70_derive_durations :
  forall {A V I} (minus : V -> V -> result V) (negative : V -> result bool) (s e d : string),
    NoDup [s; e; d] -> forall l l' : log A V I,
    derive_event_duration minus negative s e d l = Ok l' ->
    Forall2 (fun t t' => tid t' = tid t /\ tr_attrs t' = tr_attrs t /\ length (events t') = length (events t) /\
      forall i x x', nth_error (events t) i = Some x -> nth_error (events t') i = Some x' ->
        exists vs ve v, timing minus negative s e (default_start e (events t) i) x vs ve v /\
          timed s e d x x' vs ve v) l l'.
Proof. exact @EventLogD.derive_spec. Qed.
Print Assumptions C70_derive_durations.
Theorem C70_succeeds :
  forall {A V I} (minus : V -> V -> result V) (negative : V -> result bool) (s e d : string),
    NoDup [s; e; d] -> forall l : log A V I, Forall (fun t => events t <> []) l ->
    (forall t i x, In t l -> nth_error (events t) i = Some x -> exists vs ve v,
       timing minus negative s e (default_start e (events t) i) x vs ve v) ->
    exists l', derive_event_duration minus negative s e d l = Ok l'.
Proof. exact @EventLogD.derive_total_spec. Qed.
Print Assumptions C70_succeeds.
Example C70_example :
  derive_event_duration (fun a b => Ok (a - b)%Z) (fun a => Ok (a <? 0)%Z) Names.s Names.e Names.d
    [Trace 0 [Event 1 [(Names.e, 3)] None; Event 2 [(Names.e, 8)] None] []]%Z
  = Ok [Trace 0 [Event 1 [(Names.e, 3); (Names.s, 3); (Names.d, 0)] None;
                 Event 2 [(Names.e, 8); (Names.s, 3); (Names.d, 5)] None] []]%Z /\
  derive_event_duration (fun a b => Ok (a - b)%Z) (fun a => Ok (a <? 0)%Z) Names.s Names.e Names.d
    [Trace 0 [Event 1 [(Names.e, 8)] None; Event 2 [(Names.e, 3)] None] []]%Z = Err ValueError.
Proof. split; reflexivity. Qed.
