(** Event logs and tables *)
From Coq Require Import String Permutation Sorted QArith.
From Verif.Model Require Import Base Sort EventLog LogTables.
From Verif.Spec Require Import Lists Logs EventLogSpec LogTableSpec.
From Verif.Lib Require Import ListLib DictLib SortLib StrLib.
From Verif.Proofs Require Import Selection.
Open Scope string_scope.
Open Scope list_scope.
Open Scope nat_scope.

Lemma insert_map {X Y} (g : X -> Y) (leb : X -> X -> bool) (leb' : Y -> Y -> bool) x l :
  (forall a b, leb a b = leb' (g a) (g b)) -> map g (sort_insert leb x l) = sort_insert leb' (g x) (map g l).
Proof. intros E. induction l as [|y l IH]; cbn; [auto|]. rewrite <- E. destruct (leb x y); cbn; [auto|]. rewrite IH. auto. Qed.
Lemma sort_map {X Y} (g : X -> Y) (leb : X -> X -> bool) (leb' : Y -> Y -> bool) l :
  (forall a b, leb a b = leb' (g a) (g b)) -> map g (stable_sort leb l) = stable_sort leb' (map g l).
Proof. intros E. unfold stable_sort. induction l as [|x l IH]; cbn [fold_right map]; [auto|]. rewrite (insert_map g leb leb'), IH; auto. Qed.
Lemma sorted_names_unique tn l : sorted_names tn -> Permutation l tn -> stable_sort String.leb l = tn.
Proof.
  intros [N S] P. rewrite <- (sort_id String.leb) with (l := tn) by auto. apply sort_str_ext. auto.
Qed.

Section P.
  Context {C : Type}.
  Notation log := (log C C C).
  Notation trace := (trace C C C).
  Notation event := (event C C).

  Lemma sorted_values (d : attrs C) tn : sorted_names tn -> Permutation (keys d) tn ->
    values_for d tn (map snd (stable_sort by_name d)).
  Proof.
    intros Sn P. assert (K : map fst (stable_sort by_name d) = tn).
    { rewrite (sort_map fst by_name String.leb); [apply sorted_names_unique; auto|]. intros a b. reflexivity. }
    assert (ND : NoDup (keys d)) by (eapply Permutation_NoDup; [symmetry; exact P|apply Sn]).
    assert (G : forall k v, In (k, v) (stable_sort by_name d) -> dict_get k d = Some v) by (intros k v Hi; apply dict_In_get; auto; apply sort_In in Hi; auto).
    unfold values_for. rewrite <- K. clear K P Sn ND. revert G. generalize (stable_sort by_name d). intros s G. induction s as [|[k v] s IH]; cbn [map]; constructor; [apply G; cbn; auto|apply IH; intros; apply G; cbn; auto].
  Qed.
  Lemma values_length (d : attrs C) ns vs : values_for d ns vs -> length vs = length ns.
  Proof. induction 1; cbn; auto. Qed.
  Lemma event_row_length append (t : trace) e : length (event_row append t e) = (if append then 1 else 0) + length (tr_attrs t) + 1 + length (ev_attrs e).
  Proof. unfold event_row. rewrite !app_length, !map_length, !sort_length. destruct append; cbn; lia. Qed.
  Lemma flat_rows append (l : log) : flat_map (fun t => map (event_row append t) (events t)) l = map (fun te => event_row append (fst te) (snd te)) (log_events l).
  Proof. unfold log_events. induction l as [|t l IH]; cbn; [auto|]. rewrite map_app, map_map, IH. auto. Qed.
  Lemma max_In n (l : list nat) : In n l -> n <= fold_right Nat.max 0 l.
  Proof. induction l as [|x l IH]; intros Hi; [destruct Hi|]. cbn. destruct Hi as [->|Hi]; [lia|]. apply IH in Hi. lia. Qed.
  Lemma max_bound n (l : list nat) : (forall x, In x l -> x <= n) -> fold_right Nat.max 0 l <= n.
  Proof. induction l as [|x l IH]; intros B; cbn; [lia|]. specialize (B x (or_introl eq_refl)) as B1. assert (fold_right Nat.max 0 l <= n) by (apply IH; intros; apply B; cbn; auto). lia. Qed.
  Lemma in_log_events (l : log) t e : In (t, e) (log_events l) <-> In t l /\ In e (events t).
  Proof.
    unfold log_events. rewrite in_flat_map. split.
    - intros (t' & Ht & Hi). apply in_map_iff in Hi. destruct Hi as (e' & E & He). injection E as -> ->. auto.
    - intros [Ht He]. exists t. split; [auto|]. apply in_map. auto.
  Qed.

  Lemma uniform_table none append tn en (l : log) : sorted_names tn -> sorted_names en -> uniform tn en l ->
    (exists t l', l = t :: l' /\ events t <> []) ->
    to_pandas_df none append l = Ok (Frame ((if append then ["trace"] else []) ++ tn ++ ["Activity"] ++ en) (map (fun te => event_row append (fst te) (snd te)) (log_events l))).
  Proof.
    intros St Se U (t & l' & El & Ne). unfold to_pandas_df. rewrite flat_rows.
    assert (W : forall r, In r (map (fun te => event_row append (fst te) (snd te)) (log_events l)) -> length r = (if append then 1 else 0) + length tn + 1 + length en).
    { intros r Hr. apply in_map_iff in Hr. destruct Hr as ([u e] & <- & Hi). apply in_log_events in Hi. destruct Hi as [Hu He].
      destruct (U u Hu) as [P1 P2]. specialize (P2 e He). apply Permutation_length in P1, P2. cbn [fst snd]. rewrite event_row_length. unfold keys in *. rewrite map_length in P1, P2. lia. }
    assert (Hl : In t l) by (rewrite El; cbn; auto). revert W. generalize (eq_refl (log_events l)). rewrite El at 1. intros _ W. subst l. destruct (events t) as [|e es] eqn:Ee; [congruence|].
    destruct (U t Hl) as [P1 P2]. specialize (P2 e). rewrite Ee in P2. specialize (P2 (or_introl eq_refl)).
    rewrite (sorted_names_unique tn), (sorted_names_unique en) by auto.
    assert (F : exists r rs, map (fun te => event_row append (fst te) (snd te)) (log_events (t :: l')) = r :: rs).
    { unfold log_events. cbn [flat_map]. rewrite Ee. cbn. eauto. }
    destruct F as (r & rs & F). rewrite F in W |- *. unfold data_frame.
    assert (M : fold_right Nat.max 0 (map (@length C) (r :: rs)) = (if append then 1 else 0) + length tn + 1 + length en).
    { apply Nat.le_antisymm; [apply max_bound; intros x Hx; apply in_map_iff in Hx; destruct Hx as (y & <- & Hy); rewrite W; auto|].
      rewrite <- (W r) by (cbn; auto). apply max_In. apply in_map. cbn. auto. }
    rewrite M. replace (length ((if append then ["trace"] else []) ++ tn ++ ["Activity"] ++ en)) with ((if append then 1 else 0) + length tn + 1 + length en)
      by (rewrite !app_length; destruct append; cbn; lia).
    rewrite Nat.eqb_refl. f_equal. f_equal. rewrite <- (map_id (r :: rs)) at 2. apply map_ext_in. intros x Hx. unfold fill. rewrite W by auto. rewrite Nat.sub_diag. apply app_nil_r.
  Qed.
End P.
(*P C100 Event logs as tables *)
(** If all traces have the same attributes and all events have the same
    attributes, every event becomes one row with each value below its name. *)
Lemma C100_table : forall (C : Type) (none : C) append tn en (l : log C C C), sorted_names tn -> sorted_names en -> uniform tn en l ->
  (exists t l', l = t :: l' /\ events t <> []) ->
  exists f, to_pandas_df none append l = Ok f /\ columns f = (if append then ["trace"] else []) ++ tn ++ ["Activity"] ++ en /\
    Forall2 (row_of append tn en) (log_events l) (rows f).
Proof.
  intros C none append tn en l St Se U F. rewrite (uniform_table none append tn en l St Se U F). eexists. split; [reflexivity|]. split; [reflexivity|]. cbn [rows].
  assert (I : forall te, In te (log_events l) -> row_of append tn en te (event_row append (fst te) (snd te))).
  { intros [t e] Hi. apply in_log_events in Hi. destruct Hi as [Ht He]. destruct (U t Ht) as [P1 P2]. specialize (P2 e He).
    exists (map snd (stable_sort by_name (tr_attrs t))), (map snd (stable_sort by_name (ev_attrs e))). cbn [fst snd].
    split; [apply sorted_values; auto|]. split; [apply sorted_values; auto|reflexivity]. }
  clear - I. induction (log_events l) as [|te m IH]; cbn; constructor; [apply I; cbn; auto|apply IH; intros; apply I; cbn; auto].
Qed.
(** Without an event in the first trace there is an IndexError; otherwise there
    is a ValueError exactly if some event has, with its trace, more attributes
    than the first event. *)
Lemma C100_errors : forall (C : Type) (none : C) append (l : log C C C),
  ((l = [] \/ exists t l', l = t :: l' /\ events t = []) -> to_pandas_df none append l = Err IndexError) /\
  (forall t e l' es, l = t :: l' -> events t = e :: es ->
    let width t e := length (tr_attrs t) + length (ev_attrs e) in
    ((exists t' e', In (t', e') (log_events l) /\ width t e < width t' e') -> to_pandas_df none append l = Err ValueError) /\
    ((forall t' e', In (t', e') (log_events l) -> width t' e' <= width t e) ->
       exists f, to_pandas_df none append l = Ok f /\ rectangular f /\ length (rows f) = length (log_events l))).
Proof.
  intros C none append l. split.
  - intros [->|(t & l' & -> & E)]; [reflexivity|]. unfold to_pandas_df. rewrite E. reflexivity.
  - intros t e l' es El Ee width.
    set (rs := map (fun te => event_row append (fst te) (snd te)) (log_events l)).
    assert (Hr : In (event_row append t e) rs).
    { unfold rs. apply in_map_iff. exists (t, e). split; [auto|]. apply in_log_events. rewrite El, Ee. cbn. auto. }
    assert (Len : forall r, In r rs -> exists t' e', In (t', e') (log_events l) /\ length r = (if append then 1 else 0) + 1 + width t' e').
    { intros r Hi. apply in_map_iff in Hi. destruct Hi as ([t' e'] & <- & Hi). exists t', e'. split; [auto|]. cbn [fst snd]. rewrite event_row_length. unfold width. lia. }
    assert (Lrs : length rs = length (log_events l)) by (apply map_length).
    set (cols := (if append then ["trace"] else []) ++ stable_sort String.leb (keys (tr_attrs t)) ++ ["Activity"] ++ stable_sort String.leb (keys (ev_attrs e))).
    assert (Lc : length cols = (if append then 1 else 0) + 1 + width t e).
    { unfold cols, width. rewrite !app_length, !sort_length. unfold keys. rewrite !map_length. destruct append; cbn; lia. }
    assert (M : to_pandas_df none append l = data_frame none rs cols).
    { unfold to_pandas_df, rs. rewrite flat_rows. generalize (map (fun te => event_row append (fst te) (snd te)) (log_events l)). intros rs0. cbv zeta. rewrite El, Ee. reflexivity. }
    rewrite M. clear M. unfold data_frame. destruct rs as [|r0 rs'] eqn:Ers; [destruct Hr|]. rewrite <- Ers in *. set (w := fold_right Nat.max 0 (map (@length C) rs)).
    split.
    + intros (t' & e' & Hi & L). assert (length (event_row append t' e') <= w).
      { apply max_In. apply in_map. unfold rs. apply in_map_iff. exists (t', e'). auto. }
      rewrite event_row_length in *. unfold width in L. destruct (Nat.eqb_spec w (length cols)) as [Q|Q]; [|auto]. exfalso. unfold width in Lc. lia.
    + intros B. assert (Ew : w = length cols).
      { apply Nat.le_antisymm.
        - apply max_bound. intros x Hx. apply in_map_iff in Hx. destruct Hx as (r & <- & Hi). destruct (Len r Hi) as (t' & e' & Ht & ->). specialize (B t' e' Ht). lia.
        - assert (length (event_row append t e) <= w) by (apply max_In, in_map; auto). rewrite event_row_length in *. unfold width in Lc. lia. }
      rewrite Ew, Nat.eqb_refl. eexists. split; [reflexivity|]. cbn [columns rows]. unfold rectangular. cbn [columns rows]. split; [|rewrite map_length; auto].
      apply Forall_forall. intros r Hi. apply in_map_iff in Hi. destruct Hi as (r' & <- & Hi). unfold fill. rewrite app_length, repeat_length.
      assert (length r' <= w) by (apply max_In, in_map; auto). lia.
Qed.
(** With different attributes the values silently come below wrong names: here
    the cost of the second trace below "age", and the activity of the third
    trace, which has no attribute, too. *)
Lemma C100_wrong_column_witness : exists (l : log string string string) f,
  to_pandas_df "None" true l = Ok f /\ columns f = ["trace"; "age"; "Activity"] /\
  exists t2 t3 r2 r3, nth_error l 1 = Some t2 /\ nth_error (rows f) 1 = Some r2 /\ tr_attrs t2 = [("cost", "high")] /\ under f "age" r2 "high" /\
    nth_error l 2 = Some t3 /\ nth_error (rows f) 2 = Some r3 /\ tr_attrs t3 = [] /\ map activity (events t3) = ["ship"] /\
    under f "age" r3 "ship" /\ under f "Activity" r3 "None".
Proof.
  exists [Trace "1" [new_event "order"] [("age", "42")]; Trace "2" [new_event "pay"] [("cost", "high")]; Trace "3" [new_event "ship"] []].
  eexists. split; [reflexivity|]. split; [reflexivity|]. do 4 eexists. split; [reflexivity|]. split; [reflexivity|]. split; [reflexivity|].
  split; [exists ["trace"], ["Activity"]; split; [reflexivity|]; split; [intros [Q|[]]; discriminate|reflexivity]|].
  split; [reflexivity|]. split; [reflexivity|]. split; [reflexivity|]. split; [reflexivity|].
  split; [exists ["trace"], ["Activity"]; split; [reflexivity|]; split; [intros [Q|[]]; discriminate|reflexivity]|].
  exists ["trace"; "age"], []. split; [reflexivity|]. split; [intros [Q|[Q|[]]]; discriminate|reflexivity].
Qed.
