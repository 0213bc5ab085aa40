(** Statistics of continuous attributes *)
From Coq Require Import QArith Qfield String Permutation Sorted.
From Verif.Model Require Import Base Sort EventLog LogTables.
From Verif.Spec Require Moments.
From Verif.Spec Require Import Lists Logs EventLogSpec LogTableSpec.
From Verif.Lib Require Import ListLib DictLib SortLib StrLib.
From Verif.Proofs Require Import Selection EventLogA EventLogB LogTablesA LogTablesB LogTablesC.
Open Scope string_scope.
Open Scope list_scope.
Open Scope nat_scope.

Lemma fold_smallest xs : forall x, Moments.is_minimum (fold_left (fun m y => if Qle_bool m y then m else y) xs x) (x :: xs).
Proof.
  induction xs as [|y xs IH]; intros x; cbn [fold_left]. { split; [cbn; auto|]. intros z [<-|[]]. apply Qle_refl. }
  destruct (Qle_bool x y) eqn:E; [|assert (Hyx : (y <= x)%Q) by (destruct (Qlt_le_dec y x) as [H|H]; [apply Qlt_le_weak; auto|apply Qle_bool_iff in H; congruence])].
  - destruct (IH x) as [I1 I2]. split; [destruct I1; cbn; auto|]. intros z [<-|[<-|Hz]]; [apply I2; cbn; auto| |apply I2; cbn; auto].
    eapply Qle_trans; [apply I2; cbn; auto|]. apply Qle_bool_iff. auto.
  - destruct (IH y) as [I1 I2]. split; [destruct I1; cbn; auto|]. intros z [<-|[<-|Hz]]; [|apply I2; cbn; auto|apply I2; cbn; auto].
    eapply Qle_trans; [apply I2; cbn; auto|]. auto.
Qed.
Lemma fold_largest xs : forall x, Moments.is_maximum (fold_left (fun m y => if Qle_bool y m then m else y) xs x) (x :: xs).
Proof.
  induction xs as [|y xs IH]; intros x; cbn [fold_left]. { split; [cbn; auto|]. intros z [<-|[]]. apply Qle_refl. }
  destruct (Qle_bool y x) eqn:E; [|assert (Hyx : (x <= y)%Q) by (destruct (Qlt_le_dec x y) as [H|H]; [apply Qlt_le_weak; auto|apply Qle_bool_iff in H; congruence])].
  - destruct (IH x) as [I1 I2]. split; [destruct I1; cbn; auto|]. intros z [<-|[<-|Hz]]; [apply I2; cbn; auto| |apply I2; cbn; auto].
    eapply Qle_trans; [|apply I2; cbn; auto]. apply Qle_bool_iff. auto.
  - destruct (IH y) as [I1 I2]. split; [destruct I1; cbn; auto|]. intros z [<-|[<-|Hz]]; [|apply I2; cbn; auto|apply I2; cbn; auto].
    eapply Qle_trans; [|apply I2; cbn; auto]. auto.
Qed.
Lemma fold_total xs : forall a, (fold_left Qplus xs a == a + Moments.total xs)%Q.
Proof. induction xs as [|x xs IH]; intros a; cbn [fold_left]; unfold Moments.total; cbn [fold_right]; [ring|]. rewrite IH. unfold Moments.total. ring. Qed.

Section E.
  Context {C : Type} (isna : C -> bool) (num : C -> Q).
  Lemma aggregates_ok cs :
    (present isna num cs = [] -> series_min isna num cs = None /\ series_max isna num cs = None /\ series_mean isna num cs = None) /\
    (present isna num cs <> [] -> exists m1 m2 m3, series_min isna num cs = Some m1 /\ series_max isna num cs = Some m2 /\ series_mean isna num cs = Some m3 /\
       Moments.is_minimum m1 (present isna num cs) /\ Moments.is_maximum m2 (present isna num cs) /\ (m3 == Moments.average (present isna num cs))%Q).
  Proof.
    unfold series_min, series_max, series_mean. split; [intros ->; auto|]. intros Hn.
    assert (Hs : 0 < length (present isna num cs)) by (destruct (present isna num cs); [congruence|cbn; lia]).
    unfold div, of_nat. destruct (Qeq_bool (inject_Z (Z.of_nat (length (present isna num cs)))) 0) eqn:Q0.
    { apply Qeq_bool_iff in Q0. exfalso. eapply inject_pos; eauto. }
    assert (Av : (fold_left Qplus (present isna num cs) 0 / inject_Z (Z.of_nat (length (present isna num cs))) == Moments.average (present isna num cs))%Q).
    { unfold Moments.average, Moments.size. rewrite fold_total. assert (X := inject_pos _ Hs). field. auto. }
    destruct (present isna num cs) as [|x xs]; [congruence|]. do 3 eexists. split; [reflexivity|]. split; [reflexivity|]. split; [reflexivity|]. split; [apply fold_smallest|]. split; [apply fold_largest|auto].
  Qed.
End E.

Section P.
  Context {C : Type} {EC : Eq C} (none : C).
  Notation log := (log C C C).
  Notation trace := (trace C C C).
  Variables (attribute : option string) (tn en : list string) (trace_id : trace -> C) (l : log).
  Let append := match attribute with None => true | Some _ => false end.
  Let f := Frame (cols append tn en) (map (fun te => event_row append (fst te) (snd te)) (log_events l)).
  Hypothesis St : sorted_names tn.
  Hypothesis Se : sorted_names en.
  Hypothesis U : uniform tn en l.
  Hypothesis Id : identified attribute tn en l trace_id.
  Lemma not_trace x : In x (tn ++ en) -> append = true -> x <> "trace".
  Proof. intros Hx Ha ->. unfold append in Ha. destruct Id as (_ & Ii). destruct attribute; [discriminate|]. tauto. Qed.
  Lemma attribute_column x : In x (tn ++ en) -> ~ (In x tn /\ In x en) -> exists i, column x f = Ok i /\
    forall te, In te (log_events l) -> forall v, has_value x te v <-> v = cell none i (event_row append (fst te) (snd te)).
  Proof.
    intros Hx Hd. assert (Nt := not_trace x Hx). assert (Na : x <> "Activity") by (destruct Id as (N & _); intros ->; tauto).
    assert (O : count_occ string_dec (columns f) x = 1).
    { cbn [columns f]. unfold cols. rewrite !count_occ_app. assert (O1 : count_occ string_dec (if append then ["trace"] else []) x = 0).
      { apply count_occ_not_In. destruct append; [|cbn; tauto]. intros [E|[]]. apply (Nt eq_refl). auto. }
      assert (O2 : count_occ string_dec ["Activity"] x = 0) by (apply count_occ_not_In; intros [E|[]]; auto). rewrite O1, O2.
      apply in_app_iff in Hx. destruct Hx as [Hx|Hx].
      - rewrite (proj1 (NoDup_count_occ' string_dec tn) (proj1 St) x Hx), (proj1 (count_occ_not_In string_dec en x)) by tauto. auto.
      - rewrite (proj1 (NoDup_count_occ' string_dec en) (proj1 Se) x Hx), (proj1 (count_occ_not_In string_dec tn x)) by tauto. auto. }
    destruct (column_cases f x) as (_ & _ & C1). destruct (C1 O) as (i & Ei & Ci). exists i. split; [auto|].
    intros [t e] Hi v. apply in_log_events in Hi. destruct Hi as [Ht He]. destruct (U t Ht) as [P1 P2]. specialize (P2 e He). unfold has_value. cbn [fst snd].
    cbn [columns f] in Ei. apply in_app_iff in Hx. destruct Hx as [Hx|Hx].
    - rewrite (attribute_cell none append tn en t e St Se P1 P2 i x Hx Nt Ei).
      destruct (dict_get x (ev_attrs e)) eqn:G; [|split; [intros [?|?]; congruence|intros ->; auto]].
      exfalso. apply Hd. split; [auto|]. eapply Permutation_in; [exact P2|]. apply dict_get_In in G. apply (in_map fst) in G. exact G.
    - rewrite (event_cell none append tn en t e St Se P1 P2 i x Hx) by tauto.
      destruct (dict_get x (tr_attrs t)) eqn:G; [|split; [intros [?|?]; congruence|intros ->; auto]].
      exfalso. apply Hd. split; [|auto]. eapply Permutation_in; [exact P1|]. apply dict_get_In in G. apply (in_map fst) in G. exact G.
  Qed.
  Lemma no_column x : ~ In x (tn ++ en) -> x <> "Activity" -> (attribute = None -> x <> "trace") -> column x f = Err KeyError.
  Proof.
    clear St Se U Id. intros Hx Ha Ht. destruct (column_cases f x) as (C0 & _). apply C0. cbn [columns f]. unfold cols. rewrite in_app_iff in Hx.
    rewrite !count_occ_app, (proj1 (count_occ_not_In string_dec en x)), (proj1 (count_occ_not_In string_dec tn x)) by tauto.
    rewrite (proj1 (count_occ_not_In string_dec ["Activity"] x)) by (intros [?|[]]; auto).
    rewrite (proj1 (count_occ_not_In string_dec (if append then ["trace"] else []) x)); [auto|]. unfold append. destruct attribute; cbn; [tauto|]. intros [?|[]]. apply Ht; auto.
  Qed.
End P.

(*P C131 Statistics of continuous attributes *)
(** the table has the rows and columns it has without continuous attributes, and
    for each attribute the least, the greatest and the average number that the
    events with the activity have; missing values do not count *)
Lemma C131_attributes : forall (C : Type) (EC : Eq C) (none : C) isna leb num attribute tn en trace_id attributes (l : log C C C),
  total_order leb -> sorted_names tn -> sorted_names en -> uniform tn en l -> identified attribute tn en l trace_id ->
  l <> [] -> (forall t, In t l -> events t <> [] /\ isna (trace_id t) = false) ->
  (forall t e, In t l -> In e (events t) -> isna (activity e) = false) ->
  (forall x, In x attributes -> In x (tn ++ en) /\ ~ (In x tn /\ In x en)) ->
  exists table, compute_statistics_with_attributes none isna leb num attribute attributes l = Ok table /\
    compute_activity_statistics_df none isna leb attribute l = Ok (map (fun row => (fst row, fst (snd row))) table) /\
    forall a r cs, In (a, (r, cs)) table ->
      NoDup (map fst cs) /\ (forall x, In x (map fst cs) <-> In x attributes) /\
      forall x s, In (x, s) cs -> exists selected values,
        selection (log_events l) selected (fun _ te => activity (snd te) = a /\ exists v, has_value x te v /\ isna v = false) /\
        Forall2 (fun te q => exists v, has_value x te v /\ q = num v) selected values /\
        (values = [] -> s = AttributeStatistics None None None) /\
        (values <> [] -> exists least greatest mean, s = AttributeStatistics (Some least) (Some greatest) (Some mean) /\
           Moments.is_minimum least values /\ Moments.is_maximum greatest values /\ (mean == Moments.average values)%Q).
Proof.
  intros C EC none isna leb num attribute tn en trace_id attributes l T St Se U Id Nl Ht Ha Hx.
  destruct (C102_activities C EC none isna leb attribute tn en trace_id l T St Se U Id Nl Ht Ha) as (base & Eb & _).
  assert (F : exists t l', l = t :: l' /\ events t <> []) by (destruct l as [|t l']; [congruence|]; exists t, l'; split; [auto|]; apply Ht; cbn; auto).
  set (append := match attribute with None => true | Some _ => false end).
  set (f := Frame (cols append tn en) (map (fun te => event_row append (fst te) (snd te)) (log_events l))).
  assert (Ef : to_pandas_df none append l = Ok f) by (apply uniform_table; auto).
  destruct (columns_ok none attribute tn en trace_id l St Se U Id) as (ia & it & Ca & _ & Cells). fold append in Ca, Cells. fold f in Ca.
  set (pos := fun x => match column x f with Ok i => i | Err _ => 0 end).
  assert (Ei : mapM (fun x => do i <- column x f ; Ok (x, i)) (set_of attributes) = Ok (map (fun x => (x, pos x)) (set_of attributes))).
  { apply mapM_map. intros x Hi. apply (proj1 (set_of_In _ _)) in Hi. destruct (Hx x Hi) as [H1 H2]. destruct (attribute_column none attribute tn en trace_id l St Se U Id x H1 H2) as (i & Q & _).
    fold append in Q. fold f in Q. unfold pos. rewrite Q. reflexivity. }
  set (stat := fun a x => let cs := map (cell none (pos x)) (group none ia a f) in AttributeStatistics (series_min isna num cs) (series_max isna num cs) (series_mean isna num cs)).
  exists (map (fun '(a, r) => (a, (r, map (fun x => (x, stat a x)) (set_of attributes)))) base).
  split; [|split].
  - unfold compute_statistics_with_attributes. fold append. rewrite Ef. cbn [bind]. rewrite Ca. cbn [bind]. rewrite Ei. cbn [bind]. rewrite Eb. cbn [bind]. f_equal. apply map_ext. intros [a r]. rewrite map_map. reflexivity.
  - rewrite Eb. f_equal. rewrite map_map. symmetry. rewrite <- (map_id base) at 2. apply map_ext. intros [a r]. reflexivity.
  - intros a r cs Hr. apply in_map_iff in Hr. destruct Hr as ([a' r'] & Q & _). injection Q as -> <- <-. rewrite map_map. cbn [fst]. rewrite map_id.
    split; [apply set_of_NoDup|]. split; [intros x; apply set_of_In|]. intros x s Hs. apply in_map_iff in Hs. destruct Hs as (x' & Q & Hi). injection Q as -> <-. apply (proj1 (set_of_In _ _)) in Hi.
    destruct (Hx x Hi) as [H1 H2]. destruct (attribute_column none attribute tn en trace_id l St Se U Id x H1 H2) as (i & Ec & Cv). fold append in Ec, Cv. fold f in Ec.
    assert (Pi : pos x = i) by (unfold pos; rewrite Ec; auto).
    set (val te := cell none i (event_row append (fst te) (snd te))).
    set (sel := filter (fun te : trace C C C * event C C => eqb (activity (snd te)) a && negb (isna (val te))) (log_events l)).
    assert (Pr : present isna num (map (cell none i) (group none ia a f)) = map (fun te => num (val te)) sel).
    { unfold present, group, sel. cbn [rows f]. clear - Cells. induction (log_events l) as [|te m IH]; [auto|]. cbn [map filter]. destruct (Cells te) as [E1 _]; [cbn; auto|]. rewrite E1.
      assert (IH' := IH (fun y Hy => Cells y (or_intror Hy))). destruct (eqb (activity (snd te)) a); [|exact IH']. cbn [map filter andb]. fold (val te). destruct (isna (val te)); [exact IH'|]. cbn [negb map]. f_equal. exact IH'. }
    exists sel, (map (fun te => num (val te)) sel). split; [|split; [|split]].
    + eapply selection_iff; [|apply selection_filter]. intros j te Hj. apply nth_error_In in Hj. cbn beta. rewrite andb_true_iff, negb_true_iff. split.
      * intros [Q1 Q2]. split; [destruct (eqb_ok (activity (snd te)) a); [auto|discriminate]|]. exists (val te). split; [apply Cv; auto|auto].
      * intros (<- & v & V1 & V2). split; [apply eqb_refl|]. apply (Cv te Hj) in V1. subst v. auto.
    + assert (Sub : forall te, In te sel -> In te (log_events l)) by (intros te H; apply filter_In in H; tauto). clear Pr. clearbody sel. induction sel as [|te m IH]; [constructor|]. cbn [map]. constructor; [|apply IH; intros; apply Sub; cbn; auto].
      exists (val te). split; [apply Cv; [apply Sub; cbn; auto|auto]|auto].
    + intros Q. destruct (aggregates_ok isna num (map (cell none i) (group none ia a f))) as [A _]. unfold stat. cbv zeta. rewrite Pi. rewrite Pr in A. destruct (A Q) as (-> & -> & ->). auto.
    + intros Q. destruct (aggregates_ok isna num (map (cell none i) (group none ia a f))) as [_ A]. unfold stat. cbv zeta. rewrite Pi. rewrite Pr in A. destruct (A Q) as (m1 & m2 & m3 & -> & -> & -> & M). eauto.
Qed.
Lemma C131_unknown : forall (C : Type) (EC : Eq C) (none : C) isna leb num attribute tn en trace_id attributes x (l : log C C C),
  sorted_names tn -> sorted_names en -> uniform tn en l -> identified attribute tn en l trace_id -> (exists t l', l = t :: l' /\ events t <> []) ->
  (forall y, In y attributes -> ~ (In y tn /\ In y en)) ->
  In x attributes -> ~ In x (tn ++ en) -> x <> "Activity" -> (attribute = None -> x <> "trace") ->
  compute_statistics_with_attributes none isna leb num attribute attributes l = Err KeyError.
Proof.
  intros C EC none isna leb num attribute tn en trace_id attributes x l St Se U Id F Hd Hi Hx Na Nt.
  set (append := match attribute with None => true | Some _ => false end).
  set (f := Frame (cols append tn en) (map (fun te => event_row append (fst te) (snd te)) (log_events l))).
  assert (Ef : to_pandas_df none append l = Ok f) by (apply uniform_table; auto).
  destruct (columns_ok none attribute tn en trace_id l St Se U Id) as (ia & it & Ca & _ & _). fold append in Ca. fold f in Ca.
  unfold compute_statistics_with_attributes. fold append. rewrite Ef. cbn [bind]. rewrite Ca. cbn [bind].
  assert (E : mapM (fun x => do i <- column x f ; Ok (x, i)) (set_of attributes) = Err KeyError).
  { assert (K : forall y, In y (set_of attributes) -> (exists i, column y f = Ok i) \/ column y f = Err KeyError).
    { intros y Hy. apply (proj1 (set_of_In _ _)) in Hy. destruct (in_dec string_dec y (tn ++ en)) as [I|N].
      - destruct (attribute_column none attribute tn en trace_id l St Se U Id y I (Hd y Hy)) as (i & Q & _). left. eauto.
      - destruct (string_dec y "Activity") as [->|Ny]; [left; eauto|]. destruct attribute as [s|] eqn:At.
        + right. apply (no_column (Some s) tn en l); auto; discriminate.
        + destruct (string_dec y "trace") as [->|Nt']; [|right; eapply (no_column None tn en l); auto].
          destruct (columns_ok none None tn en trace_id l St Se U Id) as (? & it' & _ & Q & _). left. eauto. }
    assert (Kx : column x f = Err KeyError) by (apply (no_column attribute tn en l); auto).
    assert (Ix : In x (set_of attributes)) by (apply set_of_In; auto).
    clear - K Kx Ix. induction (set_of attributes) as [|y m IH]; [destruct Ix|]. cbn [mapM]. destruct (K y) as [[i Q]|Q]; [cbn; auto| |rewrite Q; auto].
    rewrite Q. cbn [bind]. destruct Ix as [->|Ix]; [congruence|]. rewrite IH; auto. intros z Hz. apply K. cbn. auto. }
  rewrite E. reflexivity.
Qed.
