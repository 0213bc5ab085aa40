(** Properties C136 to C139: event logs whose objects are shared *)
From Coq Require Import String ZArith QArith Permutation.
From Verif.Model Require Import Base EventLog LogNoise LogObjects.
From Verif.Spec Require Import LogObjectSpec.
From Verif.Proofs Require LogObjD.
Open Scope string_scope.
Open Scope list_scope.
Open Scope nat_scope.
(** a log with two traces, with the activities 1, 2, 1 and 2, 2; the events 0
    to 4 have the dictionaries 5 to 9, the traces 14 and 15 the lists 10 and 11
    and the dictionaries 12 and 13 *)
Definition ex_s : store nat nat nat :=
  Store (fun e => Ev (nth e [1; 2; 1; 2; 2] 0) (e + 5) None)
        (fun t => if t =? 14 then Tr 100 10 12 else Tr 101 11 13)
        (fun a => if a =? 10 then [0; 1; 2] else [3; 4])
        (fun d => if d <? 10 then [("end", 10 * d)] else []) 16.
Definition ex_l := [14; 15].
Example ex_exists : exists_in ex_s ex_l.
Proof. intros t [<-|[<-|[]]]; cbn; (split; [lia|split; [lia|split; [lia|]]]); intros e He; cbn in He; intuition subst; cbn; lia. Qed.
Example ex_own_lists : own_lists ex_s ex_l.
Proof. split; cbn; repeat (constructor; [cbn; intuition discriminate|]); constructor. Qed.
Example ex_own_dicts : own_dicts ex_s ex_l.
Proof. unfold own_dicts; cbn; repeat (constructor; [cbn; intuition discriminate|]); constructor. Qed.
(** the activities of a log and the values of one attribute of its events *)
Definition acts (s : store nat nat nat) l := map to_activity_list (view_log s l).
Definition vals k (s : store nat nat nat) l := map (fun t => map (fun e => dict_get k (ev_attrs e)) (events t)) (view_log s l).
Definition minus (x y : nat) : result nat := Ok (x - y).
Definition plus (x y : nat) : result nat := Ok (x + y).
Definition copied := copy ex_s ex_l.
Definition ex_c := match snd copied with Ok c => c | Err _ => [] end.
Definition again := reread ex_s ex_l.
Definition ex_r := match snd again with Ok c => c | Err _ => [] end.

(** C136: Methods that change a log change its objects *)
(** the methods of a log that replace or change the lists of events of its
    traces, and the noise generators, do to the objects what they do to values *)
Theorem C136_edit : forall (A V I : Type) (EA : Eq A) (s s' : store A V I) l l' x,
  exists_in s l -> own_lists s l -> do_edit x s l = (s', l') ->
  view_log s' l' = edited x (view_log s l) /\ incl l' l /\ exists_in s' l' /\ own_lists s' l'.
Proof. exact @LogObjD.C136_edit. Qed.
Print Assumptions C136_edit.
(** derive_event_duration, with every event object and dictionary in one place only *)
Theorem C136_derive : forall (A V I : Type) (minus : V -> V -> result V) (negative : V -> result bool) start_attr end_attr dur_attr (s s' : store A V I) l r,
  own_dicts s l -> derive_obj minus negative start_attr end_attr dur_attr s l = (s', r) ->
  match derive_event_duration minus negative start_attr end_attr dur_attr (view_log s l) with
  | Ok v => r = Ok tt /\ view_log s' l = v
  | Err x => r = Err x
  end.
Proof. exact @LogObjD.C136_derive. Qed.
Print Assumptions C136_derive.
(** join_successive_equal_activities, likewise *)
Theorem C136_join : forall (A V I : Type) (EA : Eq A) (EV : Eq V) (minus plus : V -> V -> result V) ord start_attr end_attr dur_attr raise_error blacklist
    (s s' : store A V I) l r,
  exists_in s l -> NoDup l -> own_dicts s l -> join_obj minus plus ord start_attr end_attr dur_attr raise_error blacklist s l = (s', r) ->
  match join_successive minus plus ord start_attr end_attr dur_attr raise_error blacklist (view_log s l) with
  | Ok v => r = Ok tt /\ view_log s' l = v
  | Err x => r = Err x
  end.
Proof. exact @LogObjD.C136_join. Qed.
Print Assumptions C136_join.
(** without that condition the claim is false: a trace with the same event
    object three times, of duration 1, is joined to one of duration 4 *)
Theorem C136_same_event_witness : exists (s s' : store nat nat nat) l,
  exists_in s l /\ own_lists s l /\
  join_obj (fun x y => Ok (x - y)) (fun x y => Ok (x + y)) (fun x => x) None None (Some "d"%string) true [] s l = (s', Ok tt) /\
  map (fun t => map (@ev_attrs nat nat) (events t)) (view_log s' l) = [[[("d"%string, 4)]]] /\
  (do v <- join_successive (fun x y => Ok (x - y)) (fun x y => Ok (x + y)) (fun x => x) None None (Some "d"%string) true [] (view_log s l) ;
   Ok (map (fun t => map (@ev_attrs nat nat) (events t)) v)) = Ok [[[("d"%string, 3)]]].
Proof. exact @LogObjD.C136_same_event_witness. Qed.
Print Assumptions C136_same_event_witness.
Example C136_example_edit :
  let '(s1, l1) := do_edit (FilterActivities [1] true) ex_s ex_l in
  let '(s2, l2) := do_edit (AddStart 9) s1 l1 in
  acts ex_s ex_l = [[1; 2; 1]; [2; 2]] /\ l1 = [14] /\ acts s2 l2 = [[9; 1; 1]].
Proof. vm_compute. auto. Qed.
Example C136_example_derive : let '(s1, r) := derive_obj minus (fun _ => Ok false) "start" "end" "duration" ex_s ex_l in
  r = Ok tt /\ vals "duration" s1 ex_l = [[Some 0; Some 10; Some 10]; [Some 0; Some 10]].
Proof. vm_compute. auto. Qed.
Example C136_example_join : let '(s1, r) := join_obj minus plus (fun x => x) None (Some "end") None true [] ex_s ex_l in
  r = Ok tt /\ acts s1 ex_l = [[1; 2; 1]; [2]] /\ vals "end" s1 ex_l = [[Some 50; Some 60; Some 70]; [Some 90]].
Proof. vm_compute. auto. Qed.

(** C137: Copies of a log *)
(** a copy has the content of the log; it cannot be made of a log with an empty trace *)
Theorem C137_copy : forall (A V I : Type) (s s1 : store A V I) l r,
  exists_in s l -> copy s l = (s1, r) ->
  view_log s1 l = view_log s l /\
  ((exists t, In t l /\ contents s t = []) /\ r = Err ValueError \/
   (forall t, In t l -> contents s t <> []) /\ exists c, r = Ok c /\ view_log s1 c = view_log s l /\ forall t, In t c -> ~ In t l).
Proof. exact @LogObjD.C137_copy. Qed.
Print Assumptions C137_copy.
(** programs that edit two logs without common traces or lists, in any order
    of the calls: each log shows its own edits and nothing of the other's *)
Theorem C137_no_common : forall (A V I : Type) (EA : Eq A) h (s s' : store A V I) l m l' m',
  exists_in s l -> exists_in s m -> own_lists s l -> own_lists s m -> no_common s l m -> run h s l m = (s', l', m') ->
  view_log s' l' = edited_all (edits_of First h) (view_log s l) /\ view_log s' m' = edited_all (edits_of Second h) (view_log s m).
Proof. exact @LogObjD.C137_no_common. Qed.
Print Assumptions C137_no_common.
(** in particular a copy and the log it was made of *)
Theorem C137_independent : forall (A V I : Type) (EA : Eq A) h (s s1 s2 : store A V I) l c l' c',
  exists_in s l -> own_lists s l -> copy s l = (s1, Ok c) -> run h s1 c l = (s2, c', l') ->
  view_log s2 c' = edited_all (edits_of First h) (view_log s l) /\ view_log s2 l' = edited_all (edits_of Second h) (view_log s l).
Proof. exact @LogObjD.C137_independent. Qed.
Print Assumptions C137_independent.
(** but the events are shared: durations derived in the copy appear in the
    log as well *)
Theorem C137_derive : forall (A V I : Type) (minus : V -> V -> result V) (negative : V -> result bool) start_attr end_attr dur_attr (s s1 s2 : store A V I) l c r,
  exists_in s l -> own_dicts s l -> copy s l = (s1, Ok c) -> derive_obj minus negative start_attr end_attr dur_attr s1 c = (s2, r) ->
  match derive_event_duration minus negative start_attr end_attr dur_attr (view_log s l) with
  | Ok v => r = Ok tt /\ view_log s2 c = v /\ view_log s2 l = v
  | Err x => r = Err x
  end.
Proof. exact @LogObjD.C137_derive. Qed.
Print Assumptions C137_derive.
(** and so do joined events: every event of the joined copy is an event of
    the log, whose traces keep all their activities *)
Theorem C137_join : forall (A V I : Type) (EA : Eq A) (EV : Eq V) (minus plus : V -> V -> result V) ord start_attr end_attr dur_attr raise_error blacklist
    (s s1 s2 : store A V I) l c r,
  exists_in s l -> own_dicts s l -> copy s l = (s1, Ok c) ->
  join_obj minus plus ord start_attr end_attr dur_attr raise_error blacklist s1 c = (s2, r) ->
  match join_successive minus plus ord start_attr end_attr dur_attr raise_error blacklist (view_log s l) with
  | Ok v => r = Ok tt /\ view_log s2 c = v /\ Forall2 (fun w joined => incl (events joined) (events w)) (view_log s2 l) v
  | Err x => r = Err x
  end /\
  map to_activity_list (view_log s2 l) = map to_activity_list (view_log s l).
Proof. exact @LogObjD.C137_join. Qed.
Print Assumptions C137_join.
Example C137_example_copy : snd copied = Ok ex_c /\ ex_c = [18; 21].
Proof. vm_compute. auto. Qed.
Example C137_example : let '(s2, c, l) := run [(First, AddStart 9); (Second, KeepFirst); (First, FilterActivities [9; 1] true)] (fst copied) ex_c ex_l in
  acts s2 c = [[9; 1; 1]; [9]] /\ acts s2 l = [[1; 2]; [2]].
Proof. vm_compute. auto. Qed.
(** the durations that were derived in the copy are in the log *)
Example C137_example_derive : let '(s2, r) := derive_obj minus (fun _ => Ok false) "start" "end" "duration" (fst copied) ex_c in
  vals "duration" ex_s ex_l = [[None; None; None]; [None; None]] /\
  r = Ok tt /\ vals "duration" s2 ex_l = [[Some 0; Some 10; Some 10]; [Some 0; Some 10]].
Proof. vm_compute. auto. Qed.
(** after the events of the copy were joined, the first event of the second
    trace of the log has the end date of the second event *)
Example C137_example_join : let '(s2, r) := join_obj minus plus (fun x => x) None (Some "end") None true [] (fst copied) ex_c in
  r = Ok tt /\ vals "end" ex_s ex_l = [[Some 50; Some 60; Some 70]; [Some 80; Some 90]] /\
  vals "end" s2 ex_l = [[Some 50; Some 60; Some 70]; [Some 90; Some 90]] /\ acts s2 ex_c = [[1; 2; 1]; [2]].
Proof. vm_compute. auto. Qed.

(** C138: Splits of a log share its traces *)
(** the two logs of a split consist of the trace objects of the log *)
Theorem C138_split : forall (A V I : Type) rnd (shuffle : list nat -> list nat) (shuffled : list (trace A V I) -> list (trace A V I)) p (s : store A V I) l,
  Permutation (shuffle l) l -> shuffled (view_log s l) = view_log s (shuffle l) ->
  match train_test_split_obj rnd shuffle p l with
  | Ok (train, test) => train_test_split rnd shuffled p (view_log s l) = Ok (view_log s train, view_log s test) /\ Permutation (train ++ test) l
  | Err x => train_test_split rnd shuffled p (view_log s l) = Err x
  end.
Proof. exact @LogObjD.C138_split. Qed.
Print Assumptions C138_split.
(** so do those of every fold *)
Theorem C138_folds : forall (A V I : Type) k (s : store A V I) l,
  match k_folds_obj k l with
  | Ok folds => k_folds k (view_log s l) = Ok (map (fun f => (view_log s (fst f), view_log s (snd f))) folds) /\
      forall train test, In (train, test) folds -> Permutation (train ++ test) l
  | Err x => k_folds k (view_log s l) = Err x
  end.
Proof. exact @LogObjD.C138_folds. Qed.
Print Assumptions C138_folds.
(** edits of the two parts, in any order, do not disturb each other *)
Theorem C138_independent : forall (A V I : Type) (EA : Eq A) h (s s' : store A V I) l train test train' test',
  exists_in s l -> own_lists s l -> Permutation (train ++ test) l -> run h s train test = (s', train', test') ->
  view_log s' train' = edited_all (edits_of First h) (view_log s train) /\
  view_log s' test' = edited_all (edits_of Second h) (view_log s test).
Proof. exact @LogObjD.C138_independent. Qed.
Print Assumptions C138_independent.
(** but they change the log itself and every other log with the same traces *)
Theorem C138_original : forall (A V I : Type) (EA : Eq A) (s s' : store A V I) l train test train' x,
  exists_in s l -> own_lists s l -> Permutation (train ++ test) l -> do_edit x s train = (s', train') ->
  (forall t, In t test -> view_trace s' t = view_trace s t) /\
  (~ is_noise x -> forall t, In t train -> view_trace s' t = edited_trace x (view_trace s t)).
Proof. exact @LogObjD.C138_original. Qed.
Print Assumptions C138_original.
(** which can leave the log with traces without events, and its methods with
    an exception *)
Theorem C138_empty_traces_witness : exists (s s' : store nat nat nat) l train test train',
  exists_in s l /\ own_lists s l /\ train_test_split_obj (fun q => q) (fun x => x) (1 # 2) l = Ok (train, test) /\
  compute_start_activities (view_log s l) = Ok [1; 2] /\
  do_edit (FilterActivities [2] true) s train = (s', train') /\
  view_log s' train' = [] /\ map to_activity_list (view_log s' l) = [[]; [2]] /\
  compute_start_activities (view_log s' l) = Err IndexError.
Proof. exact @LogObjD.C138_empty_traces_witness. Qed.
Print Assumptions C138_empty_traces_witness.
Example C138_example_split : train_test_split_obj (fun q => q) (@rev nat) (1 # 2) ex_l = Ok ([15], [14]) /\ Permutation (rev ex_l) ex_l.
Proof. split; [reflexivity|]. apply Permutation_sym, Permutation_rev. Qed.
Example C138_example_folds : k_folds_obj 2 ex_l = Ok [([15], [14]); ([14], [15])].
Proof. reflexivity. Qed.
(** an edit of the train log of the first fold changes the test log of the second one *)
Example C138_example : let '(s1, train) := do_edit (AddEnd 9) ex_s [15] in
  acts s1 train = [[2; 2; 9]] /\ acts s1 ex_l = [[1; 2; 1]; [2; 2; 9]].
Proof. vm_compute. auto. Qed.

(** C139: Logs made from dictionaries share attributes *)
(** EventLog.create_from_dict(log.to_dict()) *)
Theorem C139_reread : forall (A V I : Type) (s s1 : store A V I) l r,
  exists_in s l -> reread s l = (s1, r) ->
  view_log s1 l = view_log s l /\
  ((exists t, In t l /\ contents s t = []) /\ r = Err ValueError \/
   (forall t, In t l -> contents s t <> []) /\
   exists c, r = Ok c /\ view_log s1 c = map without_transitions (view_log s l) /\ forall t, In t c -> ~ In t l).
Proof. exact @LogObjD.C139_reread. Qed.
Print Assumptions C139_reread.
(** edits of the new log and of the old one do not disturb each other *)
Theorem C139_independent : forall (A V I : Type) (EA : Eq A) h (s s1 s2 : store A V I) l c l' c',
  exists_in s l -> own_lists s l -> reread s l = (s1, Ok c) -> run h s1 c l = (s2, c', l') ->
  view_log s2 c' = edited_all (edits_of First h) (map without_transitions (view_log s l)) /\
  view_log s2 l' = edited_all (edits_of Second h) (view_log s l).
Proof. exact @LogObjD.C139_independent. Qed.
Print Assumptions C139_independent.
(** but durations derived in the new log appear in the old one *)
Theorem C139_derive : forall (A V I : Type) (minus : V -> V -> result V) (negative : V -> result bool) start_attr end_attr dur_attr (s s1 s2 : store A V I) l c r,
  exists_in s l -> own_dicts s l -> reread s l = (s1, Ok c) -> derive_obj minus negative start_attr end_attr dur_attr s1 c = (s2, r) ->
  match derive_event_duration minus negative start_attr end_attr dur_attr (view_log s l) with
  | Ok v => r = Ok tt /\ view_log s2 c = map without_transitions v /\ view_log s2 l = v
  | Err x => r = Err x
  end.
Proof. exact @LogObjD.C139_derive. Qed.
Print Assumptions C139_derive.
Example C139_example : snd again = Ok ex_r /\ let '(s2, r) := derive_obj minus (fun _ => Ok false) "start" "end" "duration" (fst again) ex_r in
  r = Ok tt /\ vals "duration" s2 ex_r = [[Some 0; Some 10; Some 10]; [Some 0; Some 10]] /\
  vals "duration" s2 ex_l = [[Some 0; Some 10; Some 10]; [Some 0; Some 10]].
Proof. vm_compute. auto. Qed.
