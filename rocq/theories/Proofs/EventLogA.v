(** Proofs about filters, cuts, conversions and counts of event logs *)
From Coq Require Import Permutation.
From Verif.Model Require Import Base ListUtils EventLog.
From Verif.Spec Require Import Lists Logs EventLogSpec.
From Verif.Lib Require Import ListLib.
From Verif.Proofs Require Import Selection.
From Verif.Lib Require Import DictLib.

Lemma Forall2_map_r {X Y} (R : X -> Y -> Prop) (f : X -> Y) l :
  (forall x, R x (f x)) -> Forall2 R l (map f l).
Proof. intros HR; induction l; cbn; constructor; auto. Qed.

Section EL.
  Context {A V I : Type} `{Eq A}.
  Notation event := (event A V).
  Notation trace := (trace A V I).
  Notation log := (log A V I).

  Lemma non_empty_iff (t : trace) : non_empty t = true <-> events t <> [].
  Proof. unfold non_empty. destruct (events t); split; congruence. Qed.
  Lemma filter_non_empty (l : log) : selection l (filter non_empty l) (fun _ t => events t <> []).
  Proof.
    eapply selection_iff; [|apply selection_filter]. intros j x _. apply non_empty_iff.
  Qed.

  (** ** filter_activities *)
  Lemma filter_activities_ok (allowed : list A) (b : bool) (l : log) :
    exists mid,
      Forall2 (fun t t' => tid t' = tid t /\ tr_attrs t' = tr_attrs t /\
        selection (events t) (events t') (fun _ e => In (activity e) allowed)) l mid /\
      (if b then selection mid (filter_activities allowed true l) (fun _ t => events t <> [])
       else filter_activities allowed false l = mid).
  Proof.
    exists (map (fun t => with_events t (filter (fun e => mem (activity e) allowed) (events t))) l).
    split.
    - apply Forall2_map_r. intros t. split; [auto|]. split; [auto|]. cbn.
      eapply selection_iff; [|apply selection_filter]. intros j e _. apply mem_In.
    - destruct b; [|reflexivity]. apply filter_non_empty.
  Qed.

  (** ** keep_first_occurence *)
  Definition first_of (es : list event) (j : nat) (e : event) : Prop :=
    forall i e', i < j -> nth_error es i = Some e' -> activity e' <> activity e.
  Definition kf_step '(seen, out) (e : event) : list A * list event :=
    if mem (activity e) seen then (seen, out) else (set_add (activity e) seen, out ++ [e]).
  Lemma keep_first_inv (es : list event) :
    let so := fold_left kf_step es ([], []) in
    (forall a, In a (fst so) <-> In a (map activity es)) /\
    selection es (snd so) (first_of es).
  Proof.
    induction es as [|e es IH] using rev_ind; [split; [tauto|apply selection_nil]|].
    rewrite fold_left_app; cbn [fold_left]. destruct (fold_left kf_step es ([], [])) as [seen out].
    cbn in IH. destruct IH as [Hs Hsel].
    assert (Hsel' : selection es out (first_of (es ++ [e]))).
    { eapply selection_iff; [|exact Hsel]. intros j x E. pose proof (nth_error_Some_lt _ _ _ E) as Hl.
      split; intros Hf i e' Hi Ei; apply (Hf i e' Hi).
      - rewrite nth_error_app1 in Ei by lia. auto.
      - rewrite nth_error_app1 by lia. auto. }
    destruct (selection_snoc es out _ e Hsel') as [H1 H2].
    unfold kf_step. destruct (mem (activity e) seen) eqn:Em.
    - apply mem_In in Em. cbn [fst snd]. split.
      + intros a. rewrite map_app, in_app_iff, <- Hs. cbn. split; [tauto|]. intros [|[<-|[]]]; auto.
      + apply H2. intros Hf. apply Hs, in_map_iff in Em. destruct Em as (e' & E & Hin).
        apply In_nth_error in Hin. destruct Hin as [i Ei]. pose proof (nth_error_Some_lt _ _ _ Ei).
        apply (Hf i e'); auto. rewrite nth_error_app1 by auto. auto.
    - apply mem_not_In in Em. cbn [fst snd]. split.
      + intros a. rewrite map_app, in_app_iff, set_add_In, Hs. cbn. intuition congruence.
      + apply H1. intros i e' Hi Ei E. apply Em, Hs. rewrite nth_error_app1 in Ei by auto.
        apply nth_error_In in Ei. rewrite <- E. apply in_map. auto.
  Qed.
  Lemma keep_first_ok (l : log) :
    Forall2 (fun t t' => tid t' = tid t /\ tr_attrs t' = tr_attrs t /\
      selection (events t) (events t') (fun j e => forall i e', i < j ->
        nth_error (events t) i = Some e' -> activity e' <> activity e))
      l (keep_first_occurence l).
  Proof.
    apply Forall2_map_r. intros t. split; [auto|]. split; [auto|]. cbn.
    apply (proj2 (keep_first_inv (events t))).
  Qed.

  (** ** cut_traces *)
  Lemma first_match_spec (s : list A) (es : list event) k :
    (first_match k es s = (-1)%Z /\ none_of (fun e => In (activity e) s) es) \/
    (exists pre x post, es = pre ++ x :: post /\ In (activity x) s /\
       none_of (fun e => In (activity e) s) pre /\ first_match k es s = Z.of_nat (k + length pre)).
  Proof.
    revert k; induction es as [|e es IH]; intros k; cbn [first_match]; [left; split; [auto|constructor]|].
    destruct (mem (activity e) s) eqn:Em.
    - right. apply mem_In in Em. exists [], e, es. cbn. split; [auto|]. split; [auto|]. split; [constructor|]. f_equal; lia.
    - apply mem_not_In in Em. destruct (IH (S k)) as [[E Hn]|(pre & x & post & -> & Hx & Hp & E)].
      + left. split; auto. constructor; auto.
      + right. exists (e :: pre), x, post. cbn. split; [auto|]. split; [auto|]. split; [constructor; auto|].
        rewrite E. f_equal; lia.
  Qed.
  Lemma combine_seq_shift {X} (m : list X) n k :
    map (fun '(index, value) => (n - index, value)) (combine (seq (S k) (length m)) m) =
    map (fun '(index, value) => (n - 1 - index, value)) (combine (seq k (length m)) m).
  Proof.
    revert k; induction m as [|x m IH]; intros k; cbn; auto. rewrite IH. f_equal. f_equal. lia.
  Qed.
  Lemma enumerate_reversed_app {X} (l : list X) x :
    enumerate_reversed (l ++ [x]) = (length l, x) :: enumerate_reversed l.
  Proof.
    unfold enumerate_reversed. rewrite app_length, rev_app_distr. cbn [rev length app]. rewrite Nat.add_1_r.
    cbn [seq combine map]. f_equal; [f_equal; lia|].
    replace (S (length l) - 1) with (length l) by lia.
    pose proof (combine_seq_shift (rev l) (length l) 0) as E. rewrite rev_length in E. exact E.
  Qed.
  Lemma last_match_spec (s : list A) (es : list event) :
    (last_match (enumerate_reversed es) s = (-1)%Z /\ none_of (fun e => In (activity e) s) es) \/
    (exists pre x post, es = pre ++ x :: post /\ In (activity x) s /\
       none_of (fun e => In (activity e) s) post /\
       last_match (enumerate_reversed es) s = Z.of_nat (length pre)).
  Proof.
    induction es as [|e es IH] using rev_ind; [left; split; [auto|constructor]|].
    rewrite enumerate_reversed_app. cbn [last_match]. destruct (mem (activity e) s) eqn:Em.
    - apply mem_In in Em. right. exists es, e, []. split; [auto|]. split; [auto|]. split; [constructor|auto].
    - apply mem_not_In in Em. destruct IH as [[E Hn]|(pre & x & post & E1 & Hx & Hp & E)].
      + left. split; auto. apply Forall_app. split; auto.
      + right. exists pre, x, (post ++ [e]). split; [rewrite E1, <- app_assoc; reflexivity|]. split; [auto|].
        split; [|auto]. apply Forall_app. split; auto.
  Qed.

  Lemma cut_start_ok (s : list A) (t : trace) :
    cut_start (Some s) (events t) (slice_from (events t) (get_first_index t s)).
  Proof.
    unfold get_first_index, slice_from. cbn. destruct (first_match_spec s (events t) 0) as [[E Hn]|(pre & x & post & E1 & Hx & Hp & E)].
    - right. rewrite E. split; auto. cbn. destruct (events t); [reflexivity|]. f_equal. cbn [length]. lia.
    - left. exists pre, x, post. split; [auto|]. split; [auto|]. split; [auto|].
      rewrite E. cbn [Nat.add]. destruct (Z.ltb_spec (Z.of_nat (length pre)) 0); [lia|].
      rewrite Nat2Z.id, E1. rewrite skipn_app, skipn_all, Nat.sub_diag. reflexivity.
  Qed.
  Lemma cut_end_ok (s : list A) (t : trace) :
    cut_end (Some s) (events t) (slice_to (events t) (get_last_index t s + 1)).
  Proof.
    unfold get_last_index, slice_to. cbn. destruct (last_match_spec s (events t)) as [[E Hn]|(pre & x & post & E1 & Hx & Hp & E)].
    - right. rewrite E. split; auto.
    - left. exists pre, x, post. split; [auto|]. split; [auto|]. split; [auto|].
      rewrite E. destruct (Z.ltb_spec (Z.of_nat (length pre) + 1) 0); [lia|].
      replace (Z.to_nat (Z.of_nat (length pre) + 1)) with (length (pre ++ [x])) by (rewrite app_length; cbn; lia).
      rewrite E1. replace (pre ++ x :: post) with ((pre ++ [x]) ++ post) by (rewrite <- app_assoc; reflexivity).
      rewrite firstn_app, firstn_all, Nat.sub_diag. cbn. rewrite app_nil_r. auto.
  Qed.
  Lemma cut_traces_ok (s e : option (list A)) (l : log) :
    exists mid,
      Forall2 (fun t t' => tid t' = tid t /\ tr_attrs t' = tr_attrs t /\
        exists es, cut_start s (events t) es /\ cut_end e es (events t')) l mid /\
      selection mid (cut_traces s e l) (fun _ t => events t <> []).
  Proof.
    unfold cut_traces.
    set (f1 := fun t : trace => match s with None => t | Some s => with_events t (slice_from (events t) (get_first_index t s)) end).
    set (f2 := fun t : trace => match e with None => t | Some e => with_events t (slice_to (events t) (get_last_index t e + 1)) end).
    exists (map f2 (map f1 l)). split.
    - rewrite map_map. apply Forall2_map_r. intros t. unfold f2, f1.
      split; [destruct s, e; reflexivity|]. split; [destruct s, e; reflexivity|].
      exists (events (f1 t)). unfold f1. split.
      + destruct s; [apply cut_start_ok|reflexivity].
      + destruct e as [e|]; [|reflexivity]. cbn [events with_events]. apply cut_end_ok.
    - assert (E : map f2 (map f1 l) =
        match e with None => match s with None => l | Some s => map (fun t => with_events t (slice_from (events t) (get_first_index t s))) l end
        | Some e => map (fun t => with_events t (slice_to (events t) (get_last_index t e + 1)))
          match s with None => l | Some s => map (fun t => with_events t (slice_from (events t) (get_first_index t s))) l end end).
      { subst f1 f2. destruct e, s; rewrite ?map_id; reflexivity. }
      rewrite E. destruct e, s; apply filter_non_empty.
  Qed.

  (** ** conversions *)
  Lemma mapM_map {X Y} (f : X -> result Y) (g : X -> Y) l :
    (forall x, In x l -> f x = Ok (g x)) -> mapM f l = Ok (map g l).
  Proof.
    induction l as [|x l IH]; cbn; intros Hf; auto. rewrite Hf by auto. cbn [bind].
    rewrite IH by auto. reflexivity.
  Qed.
  Lemma create_from_simple_ok (l : list (list A)) :
    Forall (fun acts => acts <> []) l ->
    exists g : EventLog.log A V nat, create_from_simple l = Ok g /\ to_simple_activity_log g = l /\
      map tid g = seq 0 (length l) /\
      Forall (fun t => tr_attrs t = [] /\
        Forall (fun e => ev_attrs e = [] /\ transition e = None) (events t)) g.
  Proof.
    unfold create_from_simple. generalize 0. induction l as [|acts l IH]; intros k Hl; cbn [length seq combine mapM].
    - exists []. cbn. auto.
    - inversion Hl; subst. destruct (IH (S k)) as (g & Eg & Eg1 & Eg2 & Eg3); auto.
      rewrite Eg. unfold new_trace. destruct acts as [|a acts]; [congruence|]. cbn [map bind].
      eexists. split; [reflexivity|]. cbn [to_simple_activity_log map]. unfold to_activity_list at 1; cbn [events map].
      rewrite map_map. cbn. rewrite map_id. fold (@to_simple_activity_log A V nat g). rewrite Eg1, Eg2.
      split; [auto|]. split; [auto|]. constructor; [|auto]. cbn. split; auto. constructor; [auto|].
      apply Forall_forall. intros e He. apply in_map_iff in He. destruct He as (b & <- & _). auto.
  Qed.
  Lemma create_from_simple_empty (l : list (list A)) :
    In [] l -> (create_from_simple l : result (EventLog.log A V nat)) = Err ValueError.
  Proof.
    unfold create_from_simple. generalize 0. induction l as [|acts l IH]; intros k Hl; [destruct Hl|].
    cbn [length seq combine mapM]. destruct acts as [|a acts]; [reflexivity|].
    destruct Hl as [E|Hl]; [discriminate|]. cbn [new_trace map bind]. rewrite IH by auto. reflexivity.
  Qed.

  Lemma trace_dict_ok (t : trace) : events t <> [] ->
    trace_from_dict (trace_to_dict t) =
      Ok (with_events t (map (fun e => Event (activity e) (ev_attrs e) None) (events t))).
  Proof.
    intros Hne. unfold trace_from_dict, trace_to_dict. cbn [py_get dict_get].
    change (of_option KeyError (dict_get ?k ?d)) with (of_option KeyError (dict_get k d)).
    cbn [eqb Eq_string String.eqb Ascii.eqb Bool.eqb of_option bind dict_get py_list].
    assert (E : mapM (event_from_dict (I:=I)) (map event_to_dict (events t)) =
      Ok (map (fun e => Event (activity e) (ev_attrs e) None) (events t))).
    { clear Hne. induction (events t) as [|e es IH]; cbn [map mapM]; auto. rewrite IH. destruct e; reflexivity. }
    rewrite E. cbn [bind]. destruct (events t); [congruence|]. reflexivity.
  Qed.
  Lemma log_dict_ok (l : log) : Forall (fun t => events t <> []) l ->
    exists l', log_from_dict (log_to_dict l) = Ok l' /\
      Forall2 (fun t t' => tid t' = tid t /\ tr_attrs t' = tr_attrs t /\
        Forall2 (fun e e' => activity e' = activity e /\ ev_attrs e' = ev_attrs e /\
                             transition e' = None) (events t) (events t')) l l'.
  Proof.
    intros Hl. exists (map (fun t => with_events t (map (fun e => Event (activity e) (ev_attrs e) None) (events t))) l).
    split.
    - unfold log_from_dict, log_to_dict. cbn [py_get dict_get].
      cbn [eqb Eq_string String.eqb Ascii.eqb Bool.eqb of_option bind dict_get py_list].
      induction l as [|t l IH]; cbn [map mapM]; auto. inversion Hl; subst.
      rewrite trace_dict_ok by auto. cbn [bind]. rewrite IH by auto. reflexivity.
    - apply Forall2_map_r. intros t. split; [auto|]. split; [auto|]. cbn. apply Forall2_map_r. auto.
  Qed.
  Lemma log_dict_exact (l : log) : Forall (fun t => events t <> []) l ->
    Forall (fun t => Forall (fun e => transition e = None) (events t)) l ->
    log_from_dict (log_to_dict l) = Ok l.
  Proof.
    intros Hl Ht. destruct (log_dict_ok l Hl) as (l' & E & HF). rewrite E. f_equal. clear E Hl.
    induction HF as [|t t' l l' (E1 & E2 & HF1) HF IH]; auto. inversion Ht as [|? ? Hte Htl]; subst. f_equal; [|apply IH; auto].
    destruct t, t'; cbn in *; subst. f_equal. clear - HF1 Hte.
    induction HF1 as [|e e' es es' (E1 & E2 & E3) HF IH]; auto. inversion Hte; subst. f_equal; auto.
    destruct e, e'; cbn in *; congruence.
  Qed.
  Lemma log_dict_empty (l : log) : Exists (fun t => events t = []) l ->
    log_from_dict (log_to_dict l) = Err ValueError.
  Proof.
    unfold log_from_dict, log_to_dict. cbn [py_get dict_get].
    cbn [eqb Eq_string String.eqb Ascii.eqb Bool.eqb of_option bind dict_get py_list].
    induction l as [|t l IH]; intros He; [inversion He|]. cbn [map mapM].
    destruct (events t) as [|e es] eqn:E.
    - destruct t as [i es d]; cbn in E; subst. reflexivity.
    - rewrite trace_dict_ok by congruence. inversion He; subst; [congruence|]. cbn [bind]. rewrite IH by auto. reflexivity.
  Qed.

  (** ** counts *)
  Lemma fold_left_flat {X Y Z} (f : Z -> Y -> Z) (g : X -> list Y) (l : list X) z :
    fold_left (fun z x => fold_left f (g x) z) l z = fold_left f (flat_map g l) z.
  Proof. revert z; induction l as [|x l IH]; intros z; cbn; auto. rewrite IH, fold_left_app. auto. Qed.
  Lemma count_nr_of_events_ok (l : log) : count_nr_of_events l = length (flat_map events l).
  Proof.
    unfold count_nr_of_events.
    assert (Hg : forall n, fold_left (fun n t => n + length (events t)) l n = n + length (flat_map events l)).
    { induction l as [|t l IH]; intros n; cbn; [lia|]. rewrite IH, app_length. lia. }
    rewrite Hg. auto.
  Qed.
  Lemma activity_set_ok (l : log) :
    NoDup (compute_activity_set l) /\
    forall a, In a (compute_activity_set l) <-> exists t e, In t l /\ In e (events t) /\ activity e = a.
  Proof.
    unfold compute_activity_set. rewrite fold_left_flat. split; [apply set_adds_NoDup; constructor|].
    intros a. rewrite set_adds_In, in_map_iff. cbn. split.
    - intros [[]|(e & Ea & Hin)]. apply in_flat_map in Hin. destruct Hin as (t & Ht & He). eauto.
    - intros (t & e & Ht & He & Ea). right. exists e. split; auto. apply in_flat_map. eauto.
  Qed.
  Lemma counter_incs {X Y} `{Eq X} (f : Y -> X) (xs : list Y) c x :
    dict_get x (fold_left (fun c y => counter_inc (f y) c) xs c) =
    match count_occ eq_dec_of (map f xs) x, dict_get x c with
    | 0, o => o
    | n, None => Some n
    | n, Some m => Some (n + m)
    end.
  Proof.
    revert c; induction xs as [|y xs IH]; intros c; cbn [fold_left map]; [reflexivity|].
    rewrite IH. unfold counter_inc. rewrite dict_get_set. cbn [count_occ].
    destruct (eq_dec_of (f y) x) as [->|Hne].
    - rewrite eqb_refl. destruct (count_occ eq_dec_of (map f xs) x); destruct (dict_get x c); cbn; f_equal; lia.
    - rewrite (proj2 (eqb_neq x (f y))) by congruence. auto.
  Qed.
  Lemma counter_incs_NoDup {X Y} `{Eq X} (f : Y -> X) (xs : list Y) c :
    NoDup (keys c) -> NoDup (keys (fold_left (fun c y => counter_inc (f y) c) xs c)).
  Proof.
    revert c; induction xs as [|y xs IH]; intros c Hc; cbn [fold_left]; auto.
    apply IH. apply keys_dict_set_NoDup; auto.
  Qed.
  Lemma activity_supports_ok (l : log) :
    NoDup (keys (compute_activity_supports l)) /\
    forall a n, dict_get a (compute_activity_supports l) = Some n <->
      0 < n /\ has_size (fun '(i, j) => exists t e, nth_error l i = Some t /\
                            nth_error (events t) j = Some e /\ activity e = a) n.
  Proof.
    unfold compute_activity_supports. rewrite fold_left_flat. split; [apply counter_incs_NoDup; constructor|].
    intros a n. rewrite counter_incs. cbn [dict_get].
    assert (Hs : has_size (fun '(i, j) => exists t e, nth_error l i = Some t /\
                            nth_error (events t) j = Some e /\ activity e = a)
                   (count_occ eq_dec_of (map activity (flat_map events l)) a)).
    { clear n. induction l as [|t l IH] using rev_ind.
      - apply has_size_empty. intros [i j] (t & e & E & _). destruct i; discriminate.
      - rewrite flat_map_app, map_app, count_occ_app. cbn [flat_map]. rewrite app_nil_r.
        eapply has_size_ext; [|apply has_size_or; [exact IH| |]].
        + intros [i j]. split.
          * intros [(t' & e & E1 & E2 & E3)|Hx].
            -- exists t', e. rewrite nth_error_app1 by (eapply nth_error_Some_lt; eauto). auto.
            -- revert Hx. instantiate (1 := fun '(i, j) => i = length l /\ exists e, nth_error (events t) j = Some e /\ activity e = a).
               cbn. intros (-> & e & E2 & E3). exists t, e. rewrite nth_error_app2, Nat.sub_diag by lia. auto.
          * intros (t' & e & E1 & E2 & E3). pose proof (nth_error_Some_lt _ _ _ E1) as Hl. rewrite app_length in Hl; cbn in Hl.
            destruct (Nat.eq_dec i (length l)) as [->|Hne].
            -- right. rewrite nth_error_app2, Nat.sub_diag in E1 by lia. injection E1 as <-. eauto.
            -- left. rewrite nth_error_app1 in E1 by lia. eauto.
        + clear IH. eapply (has_size_image (fun j => exists e, nth_error (events t) j = Some e /\ activity e = a) _ (fun j => (length l, j))).
          * induction (events t) as [|e es IHe] using rev_ind.
            -- apply has_size_empty. intros j (e & E & _). destruct j; discriminate.
            -- rewrite map_app, count_occ_app. cbn [map count_occ].
               eapply has_size_ext; [|apply has_size_or; [exact IHe| |]].
               ++ intros j. split.
                  ** intros [(e' & E1 & E2)|Hx].
                     --- exists e'. rewrite nth_error_app1 by (eapply nth_error_Some_lt; eauto). auto.
                     --- revert Hx. instantiate (1 := fun j => j = length es /\ activity e = a).
                         intros (-> & E2). exists e. rewrite nth_error_app2, Nat.sub_diag by lia. auto.
                  ** intros (e' & E1 & E2). pose proof (nth_error_Some_lt _ _ _ E1) as Hl. rewrite app_length in Hl; cbn in Hl.
                     destruct (Nat.eq_dec j (length es)) as [->|Hne].
                     --- right. rewrite nth_error_app2, Nat.sub_diag in E1 by lia. injection E1 as <-. auto.
                     --- left. rewrite nth_error_app1 in E1 by lia. eauto.
               ++ destruct (eq_dec_of (activity e) a) as [Ea|Hne].
                  ** exists [length es]. split; [repeat constructor; auto|]. split; [|auto]. intros j. cbn. intuition.
                  ** apply has_size_empty. tauto.
               ++ cbn. intros j (e' & E1 & _) (-> & _). apply nth_error_Some_lt in E1. lia.
          * intros j j' _ _ E. congruence.
          * intros [i j]. split.
            -- intros (-> & Hx). eauto.
            -- intros (j' & Hx & E). injection E as <- <-. auto.
        + intros [i j] (t' & e & E1 & _) (-> & _). apply nth_error_Some_lt in E1. lia. }
    destruct (count_occ eq_dec_of (map activity (flat_map events l)) a) as [|m] eqn:Ec.
    - split; [discriminate|]. intros [Hn Hs']. pose proof (has_size_unique _ _ _ Hs Hs'). lia.
    - split; [intros E; injection E as <-; split; [lia|auto]|].
      intros [Hn Hs']. f_equal. exact (has_size_unique _ _ _ Hs Hs').
  Qed.
  Lemma foldM_set_ok {X} (g : X -> option event) (l : list X) acc :
    (forall x, In x l -> g x <> None) ->
    exists s, foldM (fun s x => do e <- of_option IndexError (g x) ; Ok (set_add (activity e) s)) l acc = Ok s /\
      (NoDup acc -> NoDup s) /\
      forall a, In a s <-> In a acc \/ exists x e, In x l /\ g x = Some e /\ activity e = a.
  Proof.
    revert acc; induction l as [|x l IH]; intros acc Hl; cbn [foldM].
    - exists acc. split; [auto|]. split; [auto|]. intros a. split; [auto|]. intros [|(x & e & [] & _)]; auto.
    - destruct (g x) as [e|] eqn:Eg; [|exfalso; apply (Hl x); cbn; auto]. cbn [of_option bind].
      destruct (IH (set_add (activity e) acc)) as (s & E & Hn & Hs); [intros; apply Hl; cbn; auto|].
      exists s. split; [auto|]. split; [intros; apply Hn, set_add_NoDup; auto|].
      intros a. rewrite Hs, set_add_In. split.
      + intros [[->|]|(y & e' & Hy & E1 & E2)]; auto; right; [exists x, e|exists y, e']; cbn; auto.
      + intros [|(y & e' & [<-|Hy] & E1 & E2)]; auto.
        * left. left. congruence.
        * right. eauto.
  Qed.
  Lemma start_activities_ok (l : log) : Forall (fun t => events t <> []) l ->
    exists s, compute_start_activities l = Ok s /\ NoDup s /\
      forall a, In a s <-> exists t e es, In t l /\ events t = e :: es /\ activity e = a.
  Proof.
    intros Hl. rewrite Forall_forall in Hl.
    destruct (foldM_set_ok (fun t : trace => nth_error (events t) 0) l []) as (s & E & Hn & Hs).
    { intros t Ht. specialize (Hl t Ht). cbn. destruct (events t); congruence. }
    exists s. split; [exact E|]. split; [apply Hn; constructor|]. intros a. rewrite Hs. split.
    - intros [[]|(t & e & Ht & E1 & E2)]. destruct (events t) as [|e' es] eqn:Ee; [discriminate|].
      injection E1 as ->. exists t, e, es. auto.
    - intros (t & e & es & Ht & E1 & E2). right. exists t, e. rewrite E1. auto.
  Qed.
  Lemma end_activities_ok (l : log) : Forall (fun t => events t <> []) l ->
    exists s, compute_end_activities l = Ok s /\ NoDup s /\
      forall a, In a s <-> exists t e es, In t l /\ events t = es ++ [e] /\ activity e = a.
  Proof.
    intros Hl. rewrite Forall_forall in Hl.
    destruct (foldM_set_ok (fun t : trace => nth_error (rev (events t)) 0) l []) as (s & E & Hn & Hs).
    { intros t Ht. specialize (Hl t Ht). cbn. destruct (events t) as [|e es] using rev_ind; [congruence|].
      rewrite rev_app_distr. discriminate. }
    exists s. split; [exact E|]. split; [apply Hn; constructor|]. intros a. rewrite Hs. split.
    - intros [[]|(t & e & Ht & E1 & E2)]. destruct (events t) as [|e' es _] eqn:Ee using rev_ind; [discriminate|].
      rewrite rev_app_distr in E1. injection E1 as ->. exists t, e, es. auto.
    - intros (t & e & es & Ht & E1 & E2). right. exists t, e. rewrite E1, rev_app_distr. auto.
  Qed.
  Lemma start_end_empty (l : log) : Exists (fun t => events t = []) l ->
    compute_start_activities l = Err IndexError /\ compute_end_activities l = Err IndexError.
  Proof.
    unfold compute_start_activities, compute_end_activities. generalize (@nil A) as acc.
    induction l as [|t l IH]; intros acc He; [inversion He|]. cbn [foldM].
    destruct (events t) as [|e es] eqn:E; [split; reflexivity|].
    inversion He; subst; [congruence|]. split.
    - cbn. apply IH; auto.
    - destruct (rev (e :: es)) as [|e' r] eqn:Er.
      + apply (f_equal (@length _)) in Er. rewrite rev_length in Er. discriminate.
      + cbn. apply IH; auto.
  Qed.
End EL.
