(** Statistics of activities *)
From Coq Require Import QArith Qfield String Permutation Sorted.
From Verif.Model Require Import Base Sort EventLog LogTables.
From Verif.Spec Require Import Lists Logs EventLogSpec LogTableSpec.
From Verif.Lib Require Import ListLib DictLib SortLib StrLib.
From Verif.Proofs Require Import Selection EventLogA EventLogB LogTablesA LogTablesB.
Open Scope string_scope.
Open Scope list_scope.
Open Scope nat_scope.

Lemma ratio_div a b : 0 < b -> ratio (div (of_nat a) (of_nat b)) a b.
Proof.
  intros Hb. split; [auto|]. unfold div, of_nat. destruct (Qeq_bool (inject_Z (Z.of_nat b)) 0) eqn:E.
  - apply Qeq_bool_iff in E. unfold Qeq in E. cbn in E. lia.
  - eexists. split; [reflexivity|]. reflexivity.
Qed.
Lemma inject_pos n : 0 < n -> ~ (inject_Z (Z.of_nat n) == 0)%Q.
Proof. intros Hn Q. unfold Qeq in Q. cbn in Q. lia. Qed.
Lemma ratio_bayes s n e u a b c : ratio a s n -> ratio b n e -> ratio c u e -> 0 < u -> ratio (div (times a b) c) s u.
Proof.
  intros (Hn & qa & -> & Ea) (He & qb & -> & Eb) (_ & qc & -> & Ec) Hu. split; [auto|]. unfold times, div. destruct (Qeq_bool qc 0) eqn:E.
  - exfalso. apply Qeq_bool_iff in E. rewrite E in Ec. apply (inject_pos u Hu). symmetry in Ec. rewrite <- (Qmult_div_r (inject_Z (Z.of_nat u)) (inject_Z (Z.of_nat e))) by (apply inject_pos; auto). rewrite Ec. ring.
  - eexists. split; [reflexivity|]. rewrite Ea, Eb, Ec. field. repeat split; apply inject_pos; auto.
Qed.
Lemma counted_occ {X C} `{EC : Eq C} (P : X -> Prop) (g : X -> C) a l : (forall x, In x l -> P x <-> g x = a) -> counted P l (count_occ eq_dec_of (map g l) a).
Proof.
  induction l as [|x l IH]; intros E; [constructor|]. cbn [map count_occ]. destruct (eq_dec_of (g x) a) as [Q|Q].
  - apply cn_yes; [apply E; cbn; auto|apply IH; intros; apply E; cbn; auto].
  - apply cn_no; [rewrite E by (cbn; auto); auto|apply IH; intros; apply E; cbn; auto].
Qed.
Lemma filter_occ {X C} `{EC : Eq C} (g : X -> C) a l : length (filter (fun x => eqb (g x) a) l) = count_occ eq_dec_of (map g l) a.
Proof. induction l as [|x l IH]; [auto|]. cbn [filter map count_occ]. destruct (eqb_ok (g x) a), (eq_dec_of (g x) a); cbn [length]; congruence. Qed.
Lemma occ_sum {C} `{EC : Eq C} (ks vs : list C) : NoDup ks -> (forall v, In v vs -> In v ks) ->
  fold_right Nat.add 0 (map (count_occ eq_dec_of vs) ks) = length vs.
Proof.
  intros N. induction vs as [|v vs IH]; intros I.
  - clear. induction ks; cbn; auto.
  - cbn [length]. rewrite <- IH by (intros; apply I; cbn; auto). assert (Hv : In v ks) by (apply I; cbn; auto). clear IH I.
    induction ks as [|k ks IH]; [destruct Hv|]. inversion N as [|? ? Nk N']; subst. cbn [map fold_right count_occ]. destruct (eq_dec_of v k) as [->|Hne].
    + assert (Q : map (count_occ eq_dec_of (k :: vs)) ks = map (count_occ eq_dec_of vs) ks).
      { apply map_ext_in. intros x Hx. cbn [count_occ]. destruct (eq_dec_of k x) as [->|]; [contradiction|auto]. }
      cbn [count_occ] in Q. rewrite Q. auto.
    + destruct Hv as [->|Hv]; [congruence|]. specialize (IH N' Hv). cbn [count_occ] in IH. lia.
Qed.
Lemma total_ratios {X} (l : list X) (g : X -> option Q) (c : X -> nat) n : (forall x, In x l -> ratio (g x) (c x) n) -> 0 < n ->
  fold_right Nat.add 0 (map c l) = n -> total (map g l) 1.
Proof.
  intros R Hn S. assert (G : exists qs, map g l = map Some qs /\ (fold_right Qplus 0 qs == inject_Z (Z.of_nat (fold_right Nat.add 0%nat (map c l))) / inject_Z (Z.of_nat n))%Q).
  { clear S. induction l as [|x l IH].
    - exists []. split; [auto|]. cbn. field. apply inject_pos. auto.
    - destruct IH as (qs & E & Q); [intros; apply R; cbn; auto|]. destruct (R x) as (_ & q & E1 & E2); [cbn; auto|]. exists (q :: qs). split; [cbn [map]; congruence|].
      cbn [fold_right map]. rewrite E2, Q. rewrite Nat2Z.inj_add, inject_Z_plus. field. apply inject_pos. auto. }
  destruct G as (qs & E & Q). exists qs. split; [auto|]. rewrite Q, S. field. apply inject_pos. auto.
Qed.

Section P.
  Context {C : Type} `{EC : Eq C}.
  Variables (none : C).
  Notation log := (log C C C).
  Notation trace := (trace C C C).
  Notation event := (event C C).
  Definition picked (pick : list event -> option event) (t : trace) : C := match pick (events t) with Some e => activity e | None => none end.
  Lemma end_counter_ok (pick : list event -> option event) (l : log) : (forall t, In t l -> pick (events t) <> None) ->
    exists c, end_counter pick l = Ok c /\ forall a, count_in a c = count_occ eq_dec_of (map (picked pick) l) a.
  Proof.
    intros Hp. exists (fold_left (fun c t => counter_inc (picked pick t) c) l []). split.
    - unfold end_counter. apply foldM_fold. intros t c Ht. unfold picked. specialize (Hp t Ht). destruct (pick (events t)); [auto|congruence].
    - intros a. change (count_in a ?c) with (val c a). rewrite val_incs. cbn. lia.
  Qed.
  Lemma end_counter_fails (pick : list event -> option event) (l : log) : (exists t, In t l /\ pick (events t) = None) -> end_counter pick l = Err IndexError.
  Proof.
    unfold end_counter. generalize (@nil (C * nat)). induction l as [|t l IH]; intros c (u & Hu & E); [destruct Hu|]. cbn [foldM].
    destruct Hu as [->|Hu]; [rewrite E; auto|]. destruct (pick (events t)); [|auto]. cbn [of_option bind]. apply IH. eauto.
  Qed.
  Lemma last_event_snoc (es : list event) e : last_event (es ++ [e]) = Some e.
  Proof. unfold last_event. rewrite rev_app_distr. reflexivity. Qed.
  Lemma last_event_None (es : list event) : last_event es = None <-> es = [].
  Proof.
    split; [|intros ->; auto]. destruct es as [|e es] using rev_ind; [auto|]. rewrite last_event_snoc. discriminate.
  Qed.
  Lemma first_event (t : trace) a : events t <> [] -> starts_with a t <-> picked (fun es => nth_error es 0) t = a.
  Proof.
    unfold picked, starts_with. destruct (events t) as [|e es]; [congruence|]. intros _. cbn. split; [intros (x & y & E & Q); injection E as <- _; auto|]. intros <-. eauto.
  Qed.
  Lemma final_event (t : trace) a : events t <> [] -> ends_with a t <-> picked last_event t = a.
  Proof.
    unfold picked, ends_with. destruct (events t) as [|e es] using rev_ind; [congruence|]. intros _. rewrite last_event_snoc. split; [intros (x & y & E & Q); apply app_inj_tail in E; destruct E as [_ <-]; auto|]. intros <-. eauto.
  Qed.


  Variables (attribute : option string) (tn en : list string) (trace_id : trace -> C) (l : log).
  Let append := match attribute with None => true | Some _ => false end.
  Let f := Frame (cols append tn en) (map (fun te => event_row append (fst te) (snd te)) (log_events l)).
  Hypothesis St : sorted_names tn.
  Hypothesis Se : sorted_names en.
  Hypothesis U : uniform tn en l.
  Hypothesis Id : identified attribute tn en l trace_id.
  Lemma columns_ok : exists ia it, column "Activity" f = Ok ia /\ column (match attribute with None => "trace" | Some s => s end) f = Ok it /\
    forall te, In te (log_events l) -> cell none ia (event_row append (fst te) (snd te)) = activity (snd te) /\ cell none it (event_row append (fst te) (snd te)) = trace_id (fst te).
  Proof.
    destruct Id as (Na & Ii).
    assert (Oa : count_occ string_dec (columns f) "Activity" = 1).
    { cbn [columns f]. unfold cols. rewrite !count_occ_app. rewrite in_app_iff in Na. rewrite (proj1 (count_occ_not_In string_dec tn "Activity")), (proj1 (count_occ_not_In string_dec en "Activity")) by tauto. destruct append; reflexivity. }
    assert (Ot : count_occ string_dec (columns f) (match attribute with None => "trace" | Some s => s end) = 1).
    { cbn [columns f]. unfold cols. rewrite !count_occ_app. destruct attribute as [s|]; cbn [append].
      - destruct Ii as (I1 & I2 & _). rewrite (proj1 (count_occ_not_In string_dec en s)) by auto. rewrite (proj1 (NoDup_count_occ' string_dec tn) (proj1 St) s I1).
        cbn [count_occ]. destruct (string_dec "Activity" s) as [<-|]; [exfalso; apply Na, in_app_iff; auto|auto].
      - destruct Ii as (I1 & _). rewrite in_app_iff in I1. rewrite (proj1 (count_occ_not_In string_dec en "trace")), (proj1 (count_occ_not_In string_dec tn "trace")) by tauto. reflexivity. }
    destruct (column_cases f "Activity") as (_ & _ & C1). destruct (C1 Oa) as (ia & Ea & Ca).
    destruct (column_cases f (match attribute with None => "trace" | Some s => s end)) as (_ & _ & C2). destruct (C2 Ot) as (it & Et & Ct).
    exists ia, it. split; [auto|]. split; [auto|]. intros [t e] Hi. apply in_log_events in Hi. destruct Hi as [Ht He]. destruct (U t Ht) as [P1 P2]. specialize (P2 e He). cbn [fst snd]. split.
    - apply (activity_cell none append tn en t e St Se P1 P2 ia); [|exact Ea]. rewrite in_app_iff in Na. tauto.
    - cbn [columns f] in Et. destruct attribute as [s|].
      + destruct Ii as (I1 & I2 & I3). pose proof (attribute_cell none append tn en t e St Se P1 P2 it s I1) as Q. rewrite (I3 t Ht) in Q. assert (Q' : Some (trace_id t) = Some (cell none it (event_row append t e))) by (apply Q; [discriminate|exact Et]). congruence.
      + destruct Ii as (I1 & I2). rewrite I2 by auto. apply (trace_cell none append tn en t e it eq_refl Et).
  Qed.
End P.

(*P C102 Statistics of activities *)
(** The table has one row for every activity that occurs, in ascending order.
    Support counts the events with the activity, "traces" the trace ids, and the
    relative numbers are the ones their names say. *)
Lemma C102_activities : forall (C : Type) (EC : Eq C) (none : C) isna leb attribute tn en trace_id (l : log C C C),
  total_order leb -> sorted_names tn -> sorted_names en -> uniform tn en l -> identified attribute tn en l trace_id ->
  l <> [] -> (forall t, In t l -> events t <> [] /\ isna (trace_id t) = false) ->
  (forall t e, In t l -> In e (events t) -> isna (activity e) = false) ->
  exists table, compute_activity_statistics_df none isna leb attribute l = Ok table /\
    increasing leb (map fst table) /\
    (forall a, In a (map fst table) <-> exists t, In t l /\ occurs_in a t) /\
    (forall a r, In (a, r) table ->
       counted (fun te => activity (snd te) = a) (log_events l) (r_support r) /\
       (exists ids, NoDup ids /\ length ids = r_traces r /\ forall k, In k ids <-> exists t, In t l /\ occurs_in a t /\ trace_id t = k) /\
       ratio (r_frequency r) (r_support r) (length (log_events l)) /\
       ratio (r_frequency_traces r) (r_traces r) (length l) /\
       (exists starts, counted (starts_with a) l starts /\ ratio (r_a_start r) starts (length l) /\ ratio (r_start_a r) starts (r_support r)) /\
       (exists ends, counted (ends_with a) l ends /\ ratio (r_a_end r) ends (length l) /\ ratio (r_end_a r) ends (r_support r))) /\
    total (map (fun x => r_frequency (snd x)) table) 1 /\
    total (map (fun x => r_a_start (snd x)) table) 1 /\
    total (map (fun x => r_a_end (snd x)) table) 1.
Proof.
  intros C EC none isna leb attribute tn en trace_id l T St Se U Id Nl Ht Ha.
  assert (F : exists t l', l = t :: l' /\ events t <> []) by (destruct l as [|t l']; [congruence|]; exists t, l'; split; [auto|]; apply Ht; cbn; auto).
  set (append := match attribute with None => true | Some _ => false end).
  set (f := Frame (cols append tn en) (map (fun te => event_row append (fst te) (snd te)) (log_events l))).
  assert (Ef : to_pandas_df none append l = Ok f) by (apply uniform_table; auto).
  destruct (columns_ok none attribute tn en trace_id l St Se U Id) as (ia & it & Ca & Ct & Cells). fold append in Ca, Ct, Cells. fold f in Ca, Ct.
  destruct (end_counter_ok none (fun es => nth_error es 0) l) as (cs & Es & Vs). { intros t H. destruct (Ht t H) as [Ne _]. destruct (events t); [congruence|discriminate]. }
  destruct (end_counter_ok none last_event l) as (ce & Ee & Ve). { intros t H. destruct (Ht t H) as [Ne _]. rewrite last_event_None. auto. }
  assert (Hne : 0 < length (log_events l)).
  { destruct F as (t & l' & -> & Ne). unfold log_events. cbn [flat_map]. rewrite app_length, map_length. destruct (events t); [congruence|cbn; lia]. }
  assert (Hl : 0 < length l) by (destruct l; [congruence|cbn; lia]).
  set (acts := map (fun te => activity (snd te)) (log_events l)).
  set (ks := group_keys none isna leb ia f).
  assert (Ks : forall a, In a ks <-> In a acts).
  { intros a. unfold ks. rewrite group_keys_In. split.
    - intros (_ & r & Hr & E). cbn [rows f] in Hr. apply in_map_iff in Hr. destruct Hr as (te & <- & Hi). rewrite (proj1 (Cells te Hi)) in E. subst a. unfold acts. apply (in_map (fun te => activity (snd te))). auto.
    - intros Hi. apply in_map_iff in Hi. destruct Hi as ([t e] & <- & Hi). split.
      + apply in_log_events in Hi. apply (Ha t e); tauto.
      + eexists. split; [|exact (proj1 (Cells _ Hi))]. cbn [rows f]. apply in_map_iff. eauto. }
  assert (Nk : NoDup ks). { unfold ks, group_keys. eapply Permutation_NoDup; [symmetry; apply sort_perm|]. apply NoDup_filter, set_of_NoDup. }
  set (mine a := filter (fun te : trace C C C * event C C => eqb (activity (snd te)) a) (log_events l)).
  assert (Ids : forall a, filter (fun c => negb (isna c)) (map (cell none it) (group none ia a f)) = map (fun te => trace_id (fst te)) (mine a)).
  { intros a. unfold group, mine. cbn [rows f]. assert (Sub : forall te, In te (log_events l) -> In (fst te) l) by (intros [t e] Hi; apply in_log_events in Hi; tauto). clear - Cells Ht Sub.
    induction (log_events l) as [|te m IH]; [auto|]. cbn [map filter]. destruct (Cells te) as [E1 E2]; [cbn; auto|]. rewrite E1.
    assert (IH' := IH (fun x Hx => Cells x (or_intror Hx)) (fun x Hx => Sub x (or_intror Hx))). destruct (eqb (activity (snd te)) a); [|auto]. cbn [map filter]. rewrite E2.
    destruct (Ht (fst te)) as [_ ->]; [apply Sub; cbn; auto|]. cbn [negb]. f_equal. auto. }
  assert (Sup : forall a, length (map (fun te => trace_id (fst te)) (mine a)) = count_occ eq_dec_of acts a).
  { intros a. rewrite map_length. apply filter_occ. }
  assert (Tot : fold_right Nat.add 0 (map (count_occ eq_dec_of acts) ks) = length (log_events l)).
  { rewrite occ_sum; [unfold acts; apply map_length|auto|intros v Hv; apply Ks; auto]. }
  set (row := fun a =>
      let support := count_occ eq_dec_of acts a in
      let traces := length (set_of (map (fun te => trace_id (fst te)) (mine a))) in
      let frequency := div (of_nat support) (of_nat (length (log_events l))) in
      let a_start := div (of_nat (count_in a cs)) (of_nat (length l)) in
      let a_end := div (of_nat (count_in a ce)) (of_nat (length l)) in
      (a, ActivityRow support traces frequency (div (of_nat traces) (of_nat (length l))) a_start a_end
            (div (times a_start (div (of_nat (length l)) (of_nat (length (log_events l))))) frequency)
            (div (times a_end (div (of_nat (length l)) (of_nat (length (log_events l))))) frequency))).
  assert (E : compute_activity_statistics_df none isna leb attribute l = Ok (map row ks)).
  { unfold compute_activity_statistics_df. fold append. rewrite Ef. cbn [bind]. rewrite Ca. cbn [bind]. rewrite Ct. cbn [bind]. cbv zeta. rewrite Es. cbn [bind]. rewrite Ee. cbn [bind].
    fold ks. rewrite !map_map. f_equal. assert (Q : fold_right Nat.add 0 (map (fun a => fst (snd (a, (length (filter (fun c => negb (isna c)) (map (cell none it) (group none ia a f))), length (set_of (filter (fun c => negb (isna c)) (map (cell none it) (group none ia a f)))))))) ks) = length (log_events l)).
    { rewrite <- Tot. f_equal. apply map_ext. intros a. cbn [fst snd]. rewrite Ids. apply Sup. }
    rewrite Q. apply map_ext. intros a. rewrite !Ids, Sup. reflexivity. }
  assert (Pos : forall a, In a ks -> 0 < count_occ eq_dec_of acts a) by (intros a Hk; apply count_occ_In, Ks; auto).
  exists (map row ks). split; [auto|]. assert (Mf : map fst (map row ks) = ks) by (rewrite map_map; apply map_id). rewrite Mf.
  split; [apply group_keys_increasing; auto|]. split; [|split; [|split; [|split]]].
  - intros a. rewrite Ks. unfold acts. rewrite in_map_iff. split.
    + intros ([t e] & <- & Hi). apply in_log_events in Hi. exists t. split; [tauto|]. unfold occurs_in. cbn [snd]. apply in_map. tauto.
    + intros (t & H1 & H2). unfold occurs_in in H2. apply in_map_iff in H2. destruct H2 as (e & <- & He). exists (t, e). split; [auto|]. apply in_log_events. auto.
  - intros a r Hr. apply in_map_iff in Hr. destruct Hr as (a' & Er & Hk). unfold row in Er. injection Er as -> <-. cbn [r_support r_traces r_frequency r_frequency_traces r_a_start r_a_end r_start_a r_end_a].
    pose proof (Pos a Hk) as Pa.
    split; [apply (counted_occ _ (fun te => activity (snd te))); tauto|]. split; [|split; [apply ratio_div; auto|split; [apply ratio_div; auto|split]]].
    + eexists. split; [apply set_of_NoDup|]. split; [reflexivity|]. intros k. rewrite set_of_In, in_map_iff. unfold mine. split.
      * intros ([t e] & <- & Hi). apply filter_In in Hi. destruct Hi as [Hi Q]. cbn [fst snd] in *. destruct (eqb_ok (activity e) a) as [<-|]; [|discriminate]. apply in_log_events in Hi. exists t. split; [tauto|]. split; [apply in_map; tauto|auto].
      * intros (t & H1 & H2 & <-). unfold occurs_in in H2. apply in_map_iff in H2. destruct H2 as (e & <- & He). exists (t, e). split; [auto|]. apply filter_In. cbn [snd]. rewrite eqb_refl. split; [apply in_log_events; auto|auto].
    + exists (count_in a cs). split; [rewrite Vs; apply counted_occ; intros t H; apply first_event, Ht; auto|]. split; [apply ratio_div; auto|].
      eapply ratio_bayes; [apply ratio_div; auto|apply ratio_div; auto|apply ratio_div; auto|auto].
    + exists (count_in a ce). split; [rewrite Ve; apply counted_occ; intros t H; apply final_event, Ht; auto|]. split; [apply ratio_div; auto|].
      eapply ratio_bayes; [apply ratio_div; auto|apply ratio_div; auto|apply ratio_div; auto|auto].
  - rewrite map_map. cbn [snd row r_frequency]. apply (total_ratios ks _ (count_occ eq_dec_of acts) (length (log_events l))); auto. intros a _. apply ratio_div. auto.
  - rewrite map_map. cbn [snd row r_a_start]. apply (total_ratios ks _ (fun a => count_in a cs) (length l)); auto. { intros a _. apply ratio_div. auto. }
    rewrite (map_ext _ _ Vs). rewrite occ_sum; [apply map_length|auto|]. intros v Hv. apply Ks. apply in_map_iff in Hv. destruct Hv as (t & <- & H). unfold picked. destruct (Ht t H) as [Ne _].
    destruct (events t) as [|e es] eqn:Q; [congruence|]. cbn. apply in_map_iff. exists (t, e). split; [auto|]. apply in_log_events. rewrite Q. cbn. auto.
  - rewrite map_map. cbn [snd row r_a_end]. apply (total_ratios ks _ (fun a => count_in a ce) (length l)); auto. { intros a _. apply ratio_div. auto. }
    rewrite (map_ext _ _ Ve). rewrite occ_sum; [apply map_length|auto|]. intros v Hv. apply Ks. apply in_map_iff in Hv. destruct Hv as (t & <- & H). unfold picked. destruct (Ht t H) as [Ne _].
    destruct (last_event (events t)) as [e|] eqn:Q; [|apply last_event_None in Q; congruence]. apply in_map_iff. exists (t, e). split; [auto|]. apply in_log_events. split; [auto|].
    apply in_rev. unfold last_event in Q. apply nth_error_In in Q. auto.
Qed.
(** A log without traces or with an empty trace has no such statistics. *)
Lemma C102_empty_trace : forall (C : Type) (EC : Eq C) (none : C) isna leb attribute tn en trace_id (l : log C C C),
  sorted_names tn -> sorted_names en -> uniform tn en l -> identified attribute tn en l trace_id ->
  (l = [] \/ exists t, In t l /\ events t = []) ->
  compute_activity_statistics_df none isna leb attribute l = Err IndexError.
Proof.
  intros C EC none isna leb attribute tn en trace_id l St Se U Id Hl.
  set (append := match attribute with None => true | Some _ => false end).
  unfold compute_activity_statistics_df. fold append. destruct l as [|t0 l']; [reflexivity|]. set (l := t0 :: l') in *.
  destruct Hl as [Q|(t & Ht & Et)]; [discriminate|].
  destruct (events t0) as [|e0 es0] eqn:E0.
  - unfold to_pandas_df, l. rewrite E0. reflexivity.
  - set (f := Frame (cols append tn en) (map (fun te => event_row append (fst te) (snd te)) (log_events l))).
    assert (Ef : to_pandas_df none append l = Ok f) by (apply uniform_table; auto; exists t0, l'; split; [auto|congruence]). rewrite Ef. cbn [bind].
    destruct (columns_ok none attribute tn en trace_id l St Se U Id) as (ia & it & Ca & Ct & Cells). fold append in Ca, Ct. fold f in Ca, Ct. rewrite Ca. cbn [bind]. rewrite Ct. cbn [bind]. cbv zeta.
    rewrite end_counter_fails; [reflexivity|]. exists t. rewrite Et. auto.
Qed.
(** With different attributes, cells are in wrong columns: an activity that no
    event has appears in the table. *)
Lemma C102_not_uniform_witness : exists (l : log string string string) table,
  compute_activity_statistics_df "" (fun c => eqb c "") String.leb None l = Ok table /\
  (forall t, In t l -> events t <> []) /\
  exists a r, In (a, r) table /\ forall t, In t l -> ~ occurs_in a t.
Proof.
  exists [Trace "1" [Event "a" [] None] [("k", "v"); ("m", "w")]; Trace "2" [Event "a" [("x", "y"); ("z", "u")] None] []]. eexists.
  split; [vm_compute; reflexivity|]. split; [intros t [<-|[<-|[]]]; discriminate|]. eexists _, _. split; [right; left; reflexivity|].
  intros t [<-|[<-|[]]]; cbn; intuition discriminate.
Qed.
