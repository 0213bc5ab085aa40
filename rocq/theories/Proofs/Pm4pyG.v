(** Event logs handed to pm4py and taken over from it *)
From Coq Require Import String ZArith.
From Verif.Model Require Import Base PetriNet Pm4py EventLog.
From Verif.Spec Require Import Pm4pySpec.
From Verif.Lib Require Import ListLib DictLib.
Open Scope string_scope.
Open Scope list_scope.
Open Scope nat_scope.

Section G.
  Context {V : Type}.
  Notation pyv := (pyvalue V).
  Notation ev := (@event string pyv).
  Notation tr := (@trace string pyv pyv).

  Definition put (d : dict string pyv) (kv : string * pyv) := dict_set (fst kv) (snd kv) d.
  Lemma put_eq l d : fold_left (fun d '(k, v) => dict_set k v d) l d = fold_left put l d.
  Proof. revert d. induction l as [|[k v] l IH]; intros d; cbn [fold_left]; [auto|]. rewrite IH. auto. Qed.
  Lemma put_get l : forall d k, NoDup (keys l) -> dict_get k (fold_left put l d) =
    match dict_get k l with Some v => Some v | None => dict_get k d end.
  Proof.
    induction l as [|[k1 v1] l IH]; intros d k N; [auto|]. inversion N; subst. cbn [fold_left]. rewrite IH by auto.
    unfold put. cbn [fst snd]. rewrite dict_get_set. cbn [dict_get]. destruct (eqb_ok k k1) as [->|D].
    - destruct (dict_get k1 l) eqn:G; [|auto]. exfalso. apply dict_get_Some_key in G. auto.
    - auto.
  Qed.
  Lemma put_keys l : forall d, NoDup (keys l) -> keys (fold_left put l d) = keys d ++ filter (fun k => negb (mem k (keys d))) (keys l).
  Proof.
    induction l as [|[k1 v1] l IH]; intros d N; [cbn; rewrite app_nil_r; auto|]. inversion N; subst. cbn [fold_left].
    rewrite IH by auto. unfold put at 1 2. cbn [fst snd]. rewrite keys_dict_set. change (keys ((k1, v1) :: l)) with (k1 :: keys l). cbn [filter].
    destruct (mem k1 (keys d)) eqn:M; cbn [negb].
    - reflexivity.
    - rewrite <- app_assoc. cbn [app]. do 2 f_equal. apply filter_ext_in. intros k Hk. f_equal.
      apply Bool.eq_iff_eq_true. rewrite !mem_In, in_app_iff. cbn [In]. split; [|auto]. intros [X|[X|[]]]; [auto|]. subst k1. contradiction.
  Qed.

  Lemma sent_ok (t : tr) : real_attrs t -> trace_sent t (pmt_attrs (convert_trace_to_pm4py t)).
  Proof.
    intros N. unfold convert_trace_to_pm4py, trace_sent. cbn [pmt_attrs]. rewrite put_eq. split.
    - rewrite put_keys by exact N. cbn [keys map fst app]. f_equal. apply filter_ext. intros k. f_equal.
      apply Bool.eq_iff_eq_true. rewrite mem_In. cbn [In]. rewrite String.eqb_eq. unfold concept_name. intuition congruence.
    - intros k. rewrite put_get by exact N. unfold sent_attr. destruct (dict_get k (tr_attrs t)); [auto|]. cbn [dict_get].
      change (eqb k concept_name) with (String.eqb k "concept:name"). auto.
  Qed.

  (** reading *)
  Variables a i : string.
  Definition read_trace (p : pm_trace V) : result tr :=
    do i' <- of_option KeyError (dict_get i (pmt_attrs p)) ;
    do es <- mapM (convert_event a) (pmt_events p) ;
    new_trace i' es (pmt_attrs p).
  Lemma read_mapM l : convert_pm4py_log a i l = mapM read_trace l.
  Proof.
    unfold convert_pm4py_log. match goal with |- foldM ?f _ _ = _ => set (F := f) end.
    assert (X : forall acc, foldM F l acc = do r <- mapM read_trace l ; Ok (acc ++ r)).
    { induction l as [|p l IH]; intros acc; cbn [foldM mapM bind]; [rewrite app_nil_r; auto|]. unfold F at 1, read_trace at 1.
      destruct (dict_get i (pmt_attrs p)) as [i'|]; cbn [of_option bind]; [|auto].
      destruct (mapM (convert_event a) (pmt_events p)) as [es|]; cbn [bind]; [|auto].
      destruct (new_trace i' es (pmt_attrs p)) as [t|]; cbn [bind]; [|auto]. rewrite IH.
      destruct (mapM read_trace l); cbn [bind]; [|auto]. rewrite <- app_assoc. auto. }
    rewrite X. destruct (mapM read_trace l); auto.
  Qed.
  Lemma mapM_ok {X Y} (f : X -> result Y) l : forall r, mapM f l = Ok r <-> Forall2 (fun x y => f x = Ok y) l r.
  Proof.
    induction l as [|x l IH]; intros r; cbn [mapM].
    - split; [intros E; injection E as <-; constructor|]. intros Q. inversion Q. auto.
    - split.
      + destruct (f x) as [y|] eqn:E; cbn [bind]; [|discriminate]. destruct (mapM f l) as [r'|] eqn:E'; cbn [bind]; [|discriminate].
        intros Q. injection Q as <-. constructor; [auto|]. apply IH. auto.
      + intros Q. inversion Q as [|? y ? r' E Q']; subst. rewrite E. cbn [bind]. apply IH in Q'. rewrite Q'. auto.
  Qed.
  Lemma mapM_err {X Y} (f : X -> result Y) l e : mapM f l = Err e <->
    exists before x after, l = before ++ x :: after /\ Forall (fun x' => exists y, f x' = Ok y) before /\ f x = Err e.
  Proof.
    induction l as [|x l IH]; cbn [mapM].
    - split; [discriminate|]. intros (b & x & c & E & _). destruct b; discriminate.
    - split.
      + destruct (f x) as [y|e'] eqn:E; cbn [bind].
        * destruct (mapM f l) as [r'|e'] eqn:E'; cbn [bind]; [discriminate|]. intros Q.
          assert (Q' : Err e' = @Err (list Y) e) by congruence. apply IH in Q'. destruct Q' as (b & x' & c & -> & Hb & Hx).
          exists (x :: b), x', c. split; [auto|]. split; [constructor; eauto|auto].
        * intros Q. exists [], x, l. split; [auto|]. split; [constructor|congruence].
      + intros (b & x' & c & El & Hb & Hx). destruct b as [|x1 b]; cbn in El; injection El as -> ->; [rewrite Hx; auto|].
        inversion Hb as [|? ? [y Hy] Hb']; subst. rewrite Hy. cbn [bind].
        assert (Q : mapM f (b ++ x' :: c) = Err e) by (apply IH; eauto 6). rewrite Q. auto.
  Qed.
  Lemma read_event (d : dict string pyv) e : convert_event a d = Ok e <-> event_read a d e.
  Proof.
    unfold convert_event, event_read. destruct (dict_get a d) as [[s|v]|]; cbn [of_option bind].
    - destruct e as [x y z]; cbn. split; [intros Q; injection Q as <- <- <-; auto|]. intros (Q & -> & ->). injection Q as ->. auto.
    - split; [discriminate|]. intros (Q & _). discriminate.
    - split; [discriminate|]. intros (Q & _). discriminate.
  Qed.
  Lemma read_event_err (d : dict string pyv) x : convert_event a d = Err x <-> event_fails a d x.
  Proof.
    unfold convert_event, event_fails. destruct (dict_get a d) as [[s|v]|]; cbn [of_option bind].
    - split; [discriminate|]. intros [[Q _]|(v & Q & _)]; discriminate.
    - split; [intros Q; right; exists v; split; [auto|congruence]|]. intros [[Q _]|(v' & _ & ->)]; [discriminate|auto].
    - split; [intros Q; left; split; [auto|congruence]|]. intros [[_ ->]|(v' & Q & _)]; [auto|discriminate].
  Qed.
  Lemma Forall2_iff {X Y} (P Q : X -> Y -> Prop) l m : (forall x y, P x y <-> Q x y) -> Forall2 P l m <-> Forall2 Q l m.
  Proof. intros H. split; induction 1; constructor; auto; apply H; auto. Qed.
  Lemma read_trace_ok p t : read_trace p = Ok t <-> trace_read a i p t.
  Proof.
    unfold read_trace, trace_read. rewrite <- (Forall2_iff (fun x y => convert_event a x = Ok y)) by (intros; apply read_event). rewrite <- mapM_ok.
    destruct (dict_get i (pmt_attrs p)) as [i'|]; cbn [of_option bind].
    - destruct (mapM (convert_event a) (pmt_events p)) as [es|] eqn:E; cbn [bind].
      + pose proof (proj1 (mapM_ok _ _ _) E) as F. destruct t as [x y z]; cbn. destruct es as [|e es]; cbn [new_trace].
        * inversion F as [Q|]. split; [discriminate|]. intros (Q' & _). congruence.
        * split.
          -- intros Q. injection Q as <- <- <-. inversion F. split; [congruence|auto].
          -- intros (_ & Q1 & -> & Q2). injection Q1 as ->. injection Q2 as <-. auto.
      + split; [discriminate|]. intros (_ & _ & _ & Q). discriminate.
    - split; [discriminate|]. intros (_ & Q & _). discriminate.
  Qed.
  Lemma read_trace_err p x : read_trace p = Err x <-> trace_fails a i p x.
  Proof.
    unfold read_trace, trace_fails. destruct (dict_get i (pmt_attrs p)) as [i'|]; cbn [of_option bind].
    - destruct (mapM (convert_event a) (pmt_events p)) as [es|y] eqn:E; cbn [bind].
      + pose proof (proj1 (mapM_ok _ _ _) E) as F. split.
        * destruct es; cbn [new_trace]; [|discriminate]. intros Q. inversion F. right. left. split; [discriminate|]. split; [auto|congruence].
        * intros [[Q _]|[(_ & Q & ->)|(_ & b & d & c & Q & Hb & Hd)]]; [discriminate| |].
          -- rewrite Q in F. inversion F. auto.
          -- exfalso. assert (X : mapM (convert_event a) (pmt_events p) = Err x); [|congruence]. apply mapM_err. exists b, d, c. split; [auto|].
             split; [|apply read_event_err; auto]. eapply Forall_impl; [|exact Hb]. intros d' [e He]. exists e. apply read_event. auto.
      + split.
        * intros Q. right. right. split; [discriminate|]. assert (y = x) by congruence. subst y. apply mapM_err in E.
          destruct E as (b & d & c & Q1 & Hb & Hd). exists b, d, c. split; [auto|]. split; [|apply read_event_err; auto].
          eapply Forall_impl; [|exact Hb]. intros d' [e He]. exists e. apply read_event. auto.
        * intros [[Q _]|[(_ & Q & ->)|(_ & b & d & c & Q & Hb & Hd)]]; [discriminate| |].
          -- rewrite Q in E. discriminate.
          -- assert (X : mapM (convert_event a) (pmt_events p) = Err x); [|congruence]. apply mapM_err. exists b, d, c. split; [auto|].
             split; [|apply read_event_err; auto]. eapply Forall_impl; [|exact Hb]. intros d' [e He]. exists e. apply read_event. auto.
    - split; [intros Q; left; split; [auto|congruence]|]. intros [[_ ->]|[(Q & _)|(Q & _)]]; [auto|congruence|congruence].
  Qed.
End G.

(*P C109 Event logs handed to pm4py and taken over from it *)
(** to pm4py: ids, trace attributes and activities arrive, everything else about the events is dropped *)
Lemma C109_export : forall V (l : py_log V), Forall real_attrs l ->
  Forall2 (fun t p => trace_sent t (pmt_attrs p) /\ pmt_events p = map (fun e => [("concept:name", PStr (activity e))]) (events t))
    l (convert_eventlog_to_pm4py l).
Proof. intros V l N. unfold convert_eventlog_to_pm4py. induction N as [|t l N1 N2 IH]; cbn [map]; constructor; [|exact IH]. split; [apply sent_ok; auto|auto]. Qed.
(** from pm4py: the traces that are read, for any choice of the two attributes *)
Lemma C109_import : forall V a i (l : list (pm_trace V)) (l' : py_log V),
  convert_pm4py_log a i l = Ok l' <-> Forall2 (trace_read a i) l l'.
Proof. intros V a i l l'. rewrite read_mapM. etransitivity; [apply mapM_ok|]. apply Forall2_iff. intros x y. apply read_trace_ok. Qed.
(** the first trace that cannot be read decides on the exception *)
Lemma C109_errors : forall V a i (l : list (pm_trace V)) x, convert_pm4py_log a i l = Err x <->
  exists before p after, l = before ++ p :: after /\ Forall (fun p' => exists t, trace_read a i p' t) before /\ trace_fails a i p x.
Proof.
  intros V a i l x. rewrite read_mapM. etransitivity; [apply mapM_err|].
  split; intros (b & p & c & E & Hb & Hp); exists b, p, c; (split; [auto|]); (split; [|apply read_trace_err; auto]);
  eapply Forall_impl; try exact Hb; intros p' [t Ht]; exists t; apply read_trace_ok; auto.
Qed.

Lemma sent_id {V} (t : @trace string (pyvalue V) (pyvalue V)) d : trace_sent t d -> exists v, dict_get "concept:name" d = Some v /\ sent_attr t "concept:name" = Some v.
Proof.
  intros [_ S]. rewrite S. unfold sent_attr. destruct (dict_get "concept:name" (tr_attrs t)) as [v|]; [eauto|]. exists (tid t). auto.
Qed.
Lemma sent_event {V} (e : @event string (pyvalue V)) :
  convert_event "concept:name" [("concept:name", PStr (activity e) : pyvalue V)] = Ok (Event (activity e) [("concept:name", PStr (activity e))] None).
Proof. reflexivity. Qed.
Lemma sent_events {V} (es : list (@event string (pyvalue V))) :
  mapM (convert_event "concept:name") (map (fun e => [("concept:name", PStr (activity e) : pyvalue V)]) es) =
  Ok (map (fun e => Event (activity e) [("concept:name", PStr (activity e))] None) es).
Proof. induction es as [|e es IH]; cbn [map mapM]; [auto|]. rewrite sent_event, IH. auto. Qed.

(** there and back: the activities stay, the trace gets the attribute concept:name and the events get nothing but that *)
Lemma C109_round_trip : forall V (l : py_log V), Forall real_attrs l -> Forall (fun t => events t <> []) l -> exists l',
  convert_pm4py_log "concept:name" "concept:name" (convert_eventlog_to_pm4py l) = Ok l' /\
  to_simple_activity_log l' = to_simple_activity_log l /\
  Forall2 (fun t t' => Some (tid t') = sent_attr t "concept:name" /\ trace_sent t (tr_attrs t') /\
    events t' = map (fun e => Event (activity e) [("concept:name", PStr (activity e))] None) (events t)) l l'.
Proof.
  intros V l N NE. rewrite read_mapM. unfold convert_eventlog_to_pm4py.
  induction N as [|t l N1 N2 IH]; [exists []; cbn; auto|]. inversion NE as [|? ? NE1 NE2]; subst. destruct (IH NE2) as (l' & E & S & F).
  pose proof (sent_ok t N1) as TS. destruct (sent_id _ _ TS) as (v & G1 & G2).
  set (t' := Trace v (map (fun e => Event (activity e) [("concept:name", PStr (activity e))] None) (events t)) (pmt_attrs (convert_trace_to_pm4py t)) : @trace string (pyvalue V) (pyvalue V)).
  assert (R : read_trace "concept:name" "concept:name" (convert_trace_to_pm4py t) = Ok t').
  { unfold read_trace. rewrite G1. cbn [of_option bind]. cbn [convert_trace_to_pm4py pmt_events]. unfold concept_name. rewrite sent_events. cbn [bind].
    unfold new_trace. destruct (events t) eqn:Ee; [congruence|]. unfold t'. auto. }
  exists (t' :: l'). cbn [map mapM]. rewrite R. cbn [bind]. rewrite E. cbn [bind]. split; [auto|]. split.
  - unfold to_simple_activity_log in *. cbn [map]. rewrite S. f_equal. unfold to_activity_list, t'. cbn [events]. rewrite map_map. auto.
  - constructor; [|auto]. unfold t'. cbn. split; [auto|]. split; [exact TS|auto].
Qed.
(** a trace without events, which [filter_activities] may leave, does not come back *)
Lemma C109_round_trip_empty : forall V (l : py_log V), Forall real_attrs l -> Exists (fun t => events t = []) l ->
  convert_pm4py_log "concept:name" "concept:name" (convert_eventlog_to_pm4py l) = Err ValueError.
Proof.
  intros V l N X. rewrite read_mapM. unfold convert_eventlog_to_pm4py. induction N as [|t l N1 N2 IH]; [inversion X|].
  pose proof (sent_ok t N1) as TS. destruct (sent_id _ _ TS) as (v & G1 & G2). cbn [map mapM].
  unfold read_trace at 1. rewrite G1. cbn [of_option bind]. cbn [convert_trace_to_pm4py pmt_events]. unfold concept_name. rewrite sent_events. cbn [bind].
  destruct (events t) as [|e es] eqn:Ee; [auto|]. cbn [new_trace map bind]. inversion X as [? ? Q|? ? Q]; subst; [congruence|]. rewrite (IH Q). auto.
Qed.
Lemma put_same {V} (d : dict string V) : NoDup (keys d) -> forall x, dict_get (fst x) d = Some (snd x) -> dict_set (fst x) (snd x) d = d.
Proof.
  induction d as [|[k v] d IH]; intros N [k1 v1] G; cbn [fst snd] in *; [discriminate|]. cbn [dict_get] in G. cbn [dict_set].
  destruct (eqb k1 k) eqn:Ek.
  - injection G as ->. destruct (eqb_ok k1 k); [subst; auto|discriminate].
  - inversion N; subst. f_equal. apply (IH H2 (k1, v1)). auto.
Qed.
Lemma put_all_same {V} (d : dict string (pyvalue V)) l : NoDup (keys d) -> (forall x, In x l -> dict_get (fst x) d = Some (snd x)) -> fold_left put l d = d.
Proof.
  intros N. induction l as [|x l IH]; intros S; [auto|]. cbn [fold_left]. unfold put at 2. rewrite put_same; auto with datatypes.
Qed.
(** a second trip changes nothing any more *)
Lemma C109_stable : forall V (l l' : py_log V), Forall real_attrs l ->
  convert_pm4py_log "concept:name" "concept:name" (convert_eventlog_to_pm4py l) = Ok l' ->
  convert_pm4py_log "concept:name" "concept:name" (convert_eventlog_to_pm4py l') = Ok l'.
Proof.
  intros V l l' N E. assert (NE : Forall (fun t => events t <> []) l).
  { rewrite Forall_forall. intros t Ht Q. rewrite C109_round_trip_empty in E; [discriminate|auto|]. apply Exists_exists. eauto. }
  destruct (C109_round_trip V l N NE) as (l1 & E1 & _ & F). rewrite E in E1. injection E1 as <-. clear E.
  rewrite read_mapM. unfold convert_eventlog_to_pm4py.
  induction F as [|t t' l l' (F1 & F2 & F3) F IH]; [auto|]. inversion N as [|? ? Na Nb]; inversion NE as [|? ? NEa NEb]; subst. cbn [map mapM].
  pose proof F2 as [K G].
  assert (ND : NoDup (keys (tr_attrs t'))).
  { rewrite K. constructor; [|apply NoDup_filter; auto]. rewrite filter_In. intros [_ Q]. rewrite String.eqb_refl in Q. discriminate. }
  assert (R : read_trace "concept:name" "concept:name" (convert_trace_to_pm4py t') = Ok t'); [|rewrite R; cbn [bind]; rewrite (IH Nb NEb); auto].
  assert (A : pmt_attrs (convert_trace_to_pm4py t') = tr_attrs t').
  { cbn [convert_trace_to_pm4py pmt_attrs]. rewrite put_eq. destruct (tr_attrs t') as [|[k v] d] eqn:Ed; [discriminate|].
    change (keys ((k, v) :: d)) with (k :: keys d) in K. injection K as Kk _. subst k. cbn [fold_left]. unfold put at 2. cbn [fst snd dict_set].
    assert (Q : v = tid t'). { specialize (G "concept:name"). rewrite <- F1 in G. cbn [dict_get] in G. cbn in G. congruence. }
    subst v. change (eqb "concept:name" concept_name) with true. cbn iota.
    enough (X : forall d0, NoDup (keys (d0 ++ d)) -> fold_left put d d0 = d0 ++ d) by (apply (X [(concept_name, tid t')]); exact ND).
    clear. induction d as [|[k v] d IH]; intros d0 N; [rewrite app_nil_r; auto|]. cbn [fold_left]. unfold put at 2. cbn [fst snd].
    assert (Z : dict_set k v d0 = d0 ++ [(k, v)]).
    { assert (Hk : ~ In k (keys d0)). { unfold keys in *. rewrite map_app in N. cbn in N. apply NoDup_remove_2 in N. intros Q. apply N. apply in_or_app. auto. }
      clear N. induction d0 as [|[k0 v0] d0 IH0]; [auto|]. cbn [dict_set]. destruct (eqb_ok k k0) as [->|D]; [exfalso; apply Hk; left; auto|].
      cbn [app]. f_equal. apply IH0. intros Q. apply Hk. right. auto. }
    rewrite Z, IH; rewrite <- app_assoc; auto. }
  unfold read_trace. rewrite A, G, <- F1. cbn [of_option bind]. cbn [convert_trace_to_pm4py pmt_events]. unfold concept_name. rewrite sent_events. cbn [bind].
  rewrite F3, map_map. cbn [activity]. unfold new_trace. destruct t' as [x y z]; cbn in *. subst y. destruct (events t); [congruence|auto].
Qed.
(** the log that comes back is not equal to the one that was sent, since traces compare their attributes *)
Lemma C109_equality_witness : exists l l' : py_log nat, Forall real_attrs l /\
  convert_pm4py_log "concept:name" "concept:name" (convert_eventlog_to_pm4py l) = Ok l' /\
  forall (EV : Eq (pyvalue nat)) hash, log_eqb hash l l' = false.
Proof.
  exists [Trace (PVal 1) [Event "a" [] None] []]. eexists. split; [repeat constructor|]. split; [vm_compute; reflexivity|].
  intros EV hash. unfold log_eqb, trace_counter. cbn [fold_left tc_inc forallb fst tc_get]. unfold same_key. cbn [tid]. rewrite Z.eqb_refl. cbn. reflexivity.
Qed.
