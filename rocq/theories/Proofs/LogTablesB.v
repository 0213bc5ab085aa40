(** Event logs from tables *)
From Coq Require Import String Permutation Sorted QArith.
From Verif.Model Require Import Base Sort EventLog LogTables.
From Verif.Spec Require Import Lists Logs EventLogSpec LogTableSpec.
From Verif.Lib Require Import ListLib DictLib SortLib StrLib.
From Verif.Proofs Require Import Selection LogTablesA.
Open Scope string_scope.
Open Scope list_scope.
Open Scope nat_scope.

Lemma mapM_map {X Y} (g : X -> result Y) (h : X -> Y) l : (forall x, In x l -> g x = Ok (h x)) -> mapM g l = Ok (map h l).
Proof. induction l as [|x l IH]; intros E; cbn [mapM map]; [auto|]. rewrite E by (cbn; auto). cbn [bind]. rewrite IH by (intros; apply E; cbn; auto). auto. Qed.
Lemma foldM_fold {X Y} (g : Y -> X -> result Y) (h : Y -> X -> Y) l : (forall x y, In x l -> g y x = Ok (h y x)) -> forall y, foldM g l y = Ok (fold_left h l y).
Proof. induction l as [|x l IH]; intros E y; cbn [foldM fold_left]; [auto|]. rewrite E by (cbn; auto). cbn [bind]. apply IH. intros; apply E; cbn; auto. Qed.

Lemma Forall2_weaken {X Y} (P Q : X -> Y -> Prop) l m : (forall x y, P x y -> Q x y) -> Forall2 P l m -> Forall2 Q l m.
Proof. intros I. induction 1; constructor; auto. Qed.

Lemma index_of_Some name cols i : index_of name cols = Some i <-> exists pre post, cols = pre ++ name :: post /\ ~ In name pre /\ i = length pre.
Proof.
  revert i. induction cols as [|c cols IH]; intros i; cbn [index_of].
  - split; [discriminate|]. intros ([|? ?] & post & E & _); discriminate.
  - destruct (eqb_ok name c) as [<-|Hne].
    + split.
      * intros E. injection E as <-. exists [], cols. cbn. auto.
      * intros ([|x pre] & post & E & N & ->); [auto|]. injection E as -> _. exfalso. apply N. cbn. auto.
    + destruct (index_of name cols) as [j|] eqn:Ej; cbn [option_map].
      * destruct (proj1 (IH j) eq_refl) as (pre & post & Q & N & Ln). split.
        -- intros E. injection E as <-. exists (c :: pre), post. cbn. rewrite Q. split; [auto|]. split; [|congruence]. intros [Q1|Q1]; [congruence|auto].
        -- intros ([|x pre'] & post' & E & N' & ->); [injection E as Q1 _; congruence|]. injection E as <- E. cbn.
           f_equal. assert (E2 : Some j = Some (length pre')) by (apply IH; exists pre', post'; split; [auto|]; split; [|auto]; intros Q1; apply N'; cbn; auto). congruence.
      * split; [discriminate|]. intros ([|x pre'] & post' & E & N' & ->); [injection E as Q1 _; congruence|]. injection E as <- E.
        assert (E2 : None = Some (length pre')) by (apply IH; exists pre', post'; split; [auto|]; split; [|auto]; intros Q1; apply N'; cbn; auto). discriminate.
Qed.
Lemma index_of_In name cols : In name cols -> exists i, index_of name cols = Some i.
Proof.
  induction cols as [|c cols IH]; intros Hi; [destruct Hi|]. cbn [index_of]. destruct (eqb_ok name c) as [E|Hne]; [eauto|].
  destruct Hi as [->|Hi]; [congruence|]. destruct (IH Hi) as [i ->]. cbn. eauto.
Qed.
Lemma index_of_None name cols : ~ In name cols -> index_of name cols = None.
Proof.
  intros N. destruct (index_of name cols) eqn:E; [|auto]. exfalso. apply N. apply index_of_Some in E. destruct E as (pre & post & -> & _). apply in_app_iff. cbn. auto.
Qed.
Lemma index_of_lt name cols i : index_of name cols = Some i -> i < length cols.
Proof. clear. intros E. apply index_of_Some in E. destruct E as (pre & post & -> & _ & ->). rewrite app_length. cbn. lia. Qed.
Lemma index_of_app_l name a b i : index_of name a = Some i -> index_of name (a ++ b) = Some i.
Proof. intros E. apply index_of_Some in E. destruct E as (pre & post & -> & N & ->). apply index_of_Some. exists pre, (post ++ b). rewrite <- app_assoc. auto. Qed.
Lemma index_of_app_r name a b i : ~ In name a -> index_of name b = Some i -> index_of name (a ++ b) = Some (length a + i).
Proof.
  intros Na E. apply index_of_Some in E. destruct E as (pre & post & -> & N & ->). apply index_of_Some. exists (a ++ pre), post. rewrite <- app_assoc, app_length. split; [auto|]. split; [|auto].
  intros Q. apply in_app_iff in Q. tauto.
Qed.

Lemma app_nth_mid {C} (a b : list C) n i d : length a = n -> nth (n + i) (a ++ b) d = nth i b d.
Proof. intros <-. rewrite app_nth2 by lia. f_equal. lia. Qed.

Section P.
  Context {C : Type} `{Eq C}.
  Variables (none : C) (isna : C -> bool) (leb : C -> C -> bool) (identifier : string -> bool).
  Notation log := (log C C C).
  Notation trace := (trace C C C).
  Notation event := (event C C).

  Lemma under_iff (f : frame C) name i r v : rectangular f -> In r (rows f) -> index_of name (columns f) = Some i -> under f name r v <-> cell none i r = v.
  Proof.
    clear isna leb identifier. intros R Hr E. unfold rectangular in R. rewrite Forall_forall in R. pose proof (R r Hr) as Lr. pose proof (index_of_lt _ _ _ E) as Li.
    assert (Nr : nth_error r i = Some (cell none i r)) by (unfold cell; apply nth_error_nth'; lia).
    split.
    - intros (pre & post & Q & N & Q'). assert (i = length pre) by (assert (Some i = Some (length pre)) by (rewrite <- E; apply index_of_Some; eauto); congruence).
      subst i. congruence.
    - intros <-. apply index_of_Some in E. destruct E as (pre & post & Q & N & ->). exists pre, post. auto.
  Qed.

  Lemma increasing_keys ks : total_order leb -> NoDup ks -> increasing leb (stable_sort leb ks).
  Proof.
    intros (T1 & T2 & T3) N. assert (S : StronglySorted (fun a b => leb a b = true) (stable_sort leb ks)) by (apply sort_sorted; auto).
    assert (N' : NoDup (stable_sort leb ks)) by (eapply Permutation_NoDup; [symmetry; apply sort_perm|auto]). unfold increasing. clear N.
    induction S as [|x l S IH F]; constructor; inversion N' as [|? ? Nx Nl]; subst; [auto|]. apply Forall_forall. intros y Hy. rewrite Forall_forall in F. split; [auto|]. intros ->. auto.
  Qed.
  Lemma group_keys_In i (f : frame C) k : In k (group_keys none isna leb i f) <-> isna k = false /\ exists r, In r (rows f) /\ cell none i r = k.
  Proof.
    unfold group_keys. rewrite sort_In, filter_In, set_of_In, in_map_iff, negb_true_iff. split; intros [H1 H2]; (split; [auto|]); destruct H1 as (r & ? & ?) || destruct H2 as (r & ? & ?); eauto.
  Qed.
  Lemma group_keys_increasing i (f : frame C) : total_order leb -> increasing leb (group_keys none isna leb i f).
  Proof. intros T. apply increasing_keys; [auto|]. apply NoDup_filter, set_of_NoDup. Qed.

  Definition idx (f : frame C) (name : string) : nat := match index_of name (columns f) with Some i => i | None => 0 end.
  Lemma get_field_ok f case name g : readable identifier f case name -> get_field none identifier case name f g = Ok (map (cell none (idx f name)) g).
  Proof.
    intros (I & N & Hi). unfold get_field, idx. rewrite I. cbn [andb]. destruct (eqb_ok name case) as [->|_]; [congruence|]. cbn [negb]. destruct (index_of_In _ _ Hi) as [i ->]. auto.
  Qed.
  Lemma get_field_fails f case name g : ~ readable identifier f case name -> get_field none identifier case name f g = Err AttributeError.
  Proof.
    intros N. unfold get_field. destruct (identifier name) eqn:I; [|auto]. cbn [andb]. destruct (eqb_ok name case) as [->|Hne]; cbn [negb]; [auto|].
    rewrite (index_of_None name (columns f)); [auto|]. intros Hi. apply N. split; auto.
  Qed.

  Variable add_none : bool.
  Definition event_so_far (f : frame C) (ia : nat) (done : list string) (r : list C) (e : event) : Prop :=
    activity e = cell none ia r /\ transition e = None /\
    (forall name, In name done -> kept none add_none (cell none (idx f name) r) (dict_get name (ev_attrs e))) /\
    (forall name, ~ In name done -> dict_get name (ev_attrs e) = None).
  Lemma with_attribute_step f ia done name g es : Forall2 (event_so_far f ia done) g es ->
    Forall2 (event_so_far f ia (name :: done)) g (with_attribute none add_none name es (map (cell none (idx f name)) g)).
  Proof.
    unfold with_attribute. induction 1 as [|r e g es (E1 & E2 & E3 & E4) F IH]; cbn [map combine]; constructor; [|exact IH].
    set (v := cell none (idx f name) r). unfold is_none. destruct (add_none || negb (eqb v none)) eqn:B.
    - split; [auto|]. split; [auto|]. cbn [ev_attrs]. split.
      + intros n [<-|Hn]; rewrite dict_get_set; [rewrite eqb_refl|destruct (eqb_ok n name) as [->|Hne]; [|auto]].
        * split; [auto|]. intros A Q. fold v in Q. rewrite A, Q, eqb_refl in B. discriminate.
        * split; [auto|]. intros A Q. fold v in Q. rewrite A, Q, eqb_refl in B. discriminate.
      + intros n Hn. rewrite dict_get_set. destruct (eqb_ok n name) as [->|Hne]; [exfalso; apply Hn; cbn; auto|]. apply E4. intros Q. apply Hn. cbn. auto.
    - apply orb_false_iff in B. destruct B as [A B]. apply negb_false_iff in B. destruct (eqb_ok v none) as [Q|]; [|discriminate].
      split; [auto|]. split; [auto|]. split.
      + intros n [<-|Hn]; [|auto]. split; [intros [X|X]; [congruence|fold v in X; congruence]|]. intros _ _.
        destruct (in_dec string_dec name done) as [Hd|Hd]; [apply (E3 _ Hd); auto|auto].
      + intros n Hn. apply E4. intros X. apply Hn. cbn. auto.
  Qed.
  Lemma attributes_ok f ia g : forall ecols done es, Forall2 (event_so_far f ia done) g es ->
    exists done', (forall n, In n done' <-> In n done \/ In n ecols) /\
    Forall2 (event_so_far f ia done') g (fold_left (fun es name => with_attribute none add_none name es (map (cell none (idx f name)) g)) ecols es).
  Proof.
    induction ecols as [|n ecols IH]; intros done es F; cbn [fold_left].
    - exists done. split; [intros; cbn; tauto|auto].
    - destruct (IH (n :: done) _ (with_attribute_step f ia done n g es F)) as (d & D & F'). exists d. split; [|auto]. intros m. rewrite D. cbn. tauto.
  Qed.
  Lemma trace_attributes f k case g : forall tcols, (forall n, In n tcols -> n <> case) -> 
    let d := fold_left (fun d name => dict_set name (nth 0 (map (cell none (idx f name)) g) none) d) tcols [(case, k)] in
    dict_get case d = Some k /\ (forall n, In n tcols -> dict_get n d = Some (nth 0 (map (cell none (idx f n)) g) none)) /\
    (forall n, n <> case -> ~ In n tcols -> dict_get n d = None).
  Proof.
    intros tcols. cbv zeta. induction tcols as [|n l IH] using rev_ind; intros Hl.
    - cbn [fold_left]. split; [cbn [dict_get]; rewrite eqb_refl; auto|]. split; [intros n []|]. intros n Hn _. cbn [dict_get]. destruct (eqb_ok n case); [congruence|auto].
    - rewrite fold_left_app. cbn [fold_left]. destruct IH as (I1 & I2 & I3); [intros m Hm; apply Hl, in_app_iff; auto|].
      assert (n <> case) by (apply Hl, in_app_iff; cbn; auto). split; [|split].
      + rewrite dict_get_set. destruct (eqb_ok case n) as [->|]; [congruence|auto].
      + intros m Hm. rewrite dict_get_set. destruct (eqb_ok m n) as [->|Hne]; [auto|]. apply I2. apply in_app_iff in Hm. destruct Hm as [Hm|[->|[]]]; [auto|congruence].
      + intros m Hm Hn. rewrite dict_get_set. destruct (eqb_ok m n) as [->|Hne]; [exfalso; apply Hn, in_app_iff; cbn; auto|]. apply I3; auto. intros X. apply Hn, in_app_iff. auto.
  Qed.

  (** what a group becomes *)
  Definition from_group (f : frame C) (case act : string) (ecols tcols : list string) (g : list (list C)) (t : trace) : Prop :=
    Forall2 (event_so_far f (idx f act) ecols) g (events t) /\
    dict_get case (tr_attrs t) = Some (tid t) /\
    (forall n, In n tcols -> dict_get n (tr_attrs t) = Some (nth 0 (map (cell none (idx f n)) g) none)) /\
    (forall n, n <> case -> ~ In n tcols -> dict_get n (tr_attrs t) = None).
  Lemma so_far_ext f ia d d' r e : (forall n, In n d <-> In n d') -> event_so_far f ia d r e -> event_so_far f ia d' r e.
  Proof. intros D (E1 & E2 & E3 & E4). split; [auto|]. split; [auto|]. split; intros n Hn; [apply E3, D, Hn|apply E4; rewrite D; auto]. Qed.
  Lemma create_ok f case act ecols tcols i : column case f = Ok i ->
    (forall n, In n (act :: ecols ++ tcols) -> readable identifier f case n) ->
    exists l, create_from_pandas_df none isna leb identifier case act ecols tcols add_none f = Ok l /\
      map tid l = group_keys none isna leb i f /\ forall t, In t l -> from_group f case act ecols tcols (group none i (tid t) f) t.
  Proof.
    intros Ei R. unfold create_from_pandas_df. rewrite Ei. cbn [bind].
    assert (K : forall k, In k (group_keys none isna leb i f) -> group none i k f <> []).
    { intros k Hk. apply group_keys_In in Hk. destruct Hk as (_ & r & Hr & E). intros Q. assert (In r (group none i k f)) by (apply filter_In; rewrite E, eqb_refl; auto). rewrite Q in *. auto. }
    match goal with |- context [mapM ?F0 _] => set (F := F0) end.
    assert (EF : forall k, In k (group_keys none isna leb i f) -> exists t, F k = Ok t /\ tid t = k /\ from_group f case act ecols tcols (group none i (tid t) f) t).
    { intros k Hk. unfold F. cbv zeta. set (g := group none i k f). assert (Hg : g <> []) by (apply K; auto).
      rewrite get_field_ok by (apply R; cbn; auto). cbn [bind].
      rewrite (foldM_fold _ (fun es name => with_attribute none add_none name es (map (cell none (idx f name)) g)) ecols).
      2:{ intros n es Hn. rewrite get_field_ok; [auto|]. apply R. cbn. right. apply in_app_iff. auto. }
      cbn [bind]. rewrite (foldM_fold _ (fun d name => dict_set name (nth 0 (map (cell none (idx f name)) g) none) d) tcols).
      2:{ intros n d Hn. rewrite get_field_ok; [auto|]. apply R. cbn. right. apply in_app_iff. auto. }
      cbn [bind]. destruct (attributes_ok f (idx f act) g ecols [] (map new_event (map (cell none (idx f act)) g))) as (d & D & F2).
      { clear. induction g as [|r g IH]; cbn [map]; constructor; [|auto]. split; [auto|]. split; [auto|]. split; [intros n []|auto]. }
      set (es := fold_left _ ecols _) in *. assert (Ne : es <> []) by (intros Q; rewrite Q in F2; inversion F2; subst; congruence).
      unfold new_trace. destruct es as [|e0 es0]; [congruence|]. eexists. split; [reflexivity|]. split; [reflexivity|].
      unfold from_group. cbn [tid events tr_attrs].
      destruct (trace_attributes f k case g tcols) as (A1 & A2 & A3). { intros n Hn. apply (R n). cbn. right. apply in_app_iff. auto. }
      split; [|auto]. fold g. eapply Forall2_weaken; [|exact F2]. intros r e. apply so_far_ext. intros n. rewrite D. cbn. tauto. }
    clearbody F. clear K. revert EF. induction (group_keys none isna leb i f) as [|k ks IH]; intros EF; cbn [mapM].
    - exists []. split; [auto|]. split; [auto|]. intros t [].
    - destruct IH as (l & E & T & G); [intros; apply EF; cbn; auto|]. destruct (EF k) as (t & E1 & E2 & E3); [cbn; auto|].
      exists (t :: l). rewrite E1. cbn [bind]. rewrite E. split; [auto|]. split; [cbn [map]; congruence|]. intros u [<-|Hu]; auto.
  Qed.

  (** cells of the rows of events *)
  Lemma values_nth (d : attrs C) ns vs name i : values_for d ns vs -> index_of name ns = Some i -> dict_get name d = Some (nth i vs none).
  Proof.
    intros V. revert i. induction V as [|n v ns vs E V IH]; intros i; cbn [index_of]; [discriminate|]. destruct (eqb_ok name n) as [->|Hne].
    - intros Q. injection Q as <-. exact E.
    - destruct (index_of name ns) as [j|] eqn:Ej; [|discriminate]. cbn. intros Q. injection Q as <-. auto.
  Qed.
  Definition cols (append : bool) (tn en : list string) : list string := (if append then ["trace"] else []) ++ tn ++ ["Activity"] ++ en.
  Section Rows.
    Variables (append : bool) (tn en : list string) (t : trace) (e : event).
    Hypothesis St : sorted_names tn.
    Hypothesis Se : sorted_names en.
    Hypothesis Pt : Permutation (keys (tr_attrs t)) tn.
    Hypothesis Pe : Permutation (keys (ev_attrs e)) en.
    Lemma row_form : exists tv ev, values_for (tr_attrs t) tn tv /\ values_for (ev_attrs e) en ev /\ length tv = length tn /\
      event_row append t e = (if append then [tid t] else []) ++ tv ++ [activity e] ++ ev.
    Proof.
      exists (map snd (stable_sort by_name (tr_attrs t))), (map snd (stable_sort by_name (ev_attrs e))).
      assert (V : values_for (tr_attrs t) tn (map snd (stable_sort by_name (tr_attrs t)))) by (apply sorted_values; auto).
      split; [auto|]. split; [apply sorted_values; auto|]. split; [apply (values_length _ _ _ V)|reflexivity].
    Qed.
    Lemma trace_cell i : append = true -> index_of "trace" (cols append tn en) = Some i -> cell none i (event_row append t e) = tid t.
    Proof. intros ->. cbn. intros E. injection E as <-. reflexivity. Qed.
    Lemma first_length : length (if append then ["trace"] else []) = length (if append then [tid t] else []).
    Proof. destruct append; auto. Qed.
    Lemma activity_cell i : ~ In "Activity" tn -> index_of "Activity" (cols append tn en) = Some i -> cell none i (event_row append t e) = activity e.
    Proof.
      clear isna leb identifier add_none. intros N. destruct row_form as (tv & ev & V1 & V2 & L & ->). unfold cols.
      rewrite (index_of_app_r _ _ _ (length tn + 0)); [|destruct append; cbn; intuition discriminate|].
      - intros E. injection E as <-. unfold cell. rewrite app_nth_mid by (symmetry; apply first_length). rewrite app_nth_mid by auto. reflexivity.
      - apply index_of_app_r; [auto|]. reflexivity.
    Qed.
    Lemma attribute_cell i name : In name tn -> (append = true -> name <> "trace") -> index_of name (cols append tn en) = Some i -> dict_get name (tr_attrs t) = Some (cell none i (event_row append t e)).
    Proof.
      clear isna leb identifier add_none. intros Hn Na. destruct row_form as (tv & ev & V1 & V2 & L & ->). unfold cols. destruct (index_of_In _ _ Hn) as [j Ej].
      rewrite (index_of_app_r _ _ _ j); [|destruct append; cbn; [intros [Q|[]]; symmetry in Q; revert Q; apply Na; auto|auto]|apply index_of_app_l; auto].
      intros E. injection E as <-. unfold cell. rewrite app_nth_mid by (symmetry; apply first_length). rewrite app_nth1 by (rewrite L; eapply index_of_lt; eauto).
      eapply values_nth; eauto.
    Qed.
    Lemma event_cell i name : In name en -> ~ In name tn -> name <> "Activity" -> (append = true -> name <> "trace") -> index_of name (cols append tn en) = Some i -> dict_get name (ev_attrs e) = Some (cell none i (event_row append t e)).
    Proof.
      clear isna leb identifier add_none. intros Hn Nt Nx Na. destruct row_form as (tv & ev & V1 & V2 & L & ->). unfold cols. destruct (index_of_In _ _ Hn) as [j Ej].
      rewrite (index_of_app_r _ _ _ (length tn + (1 + j))); [|destruct append; cbn; [intros [Q|[]]; symmetry in Q; revert Q; apply Na; auto|auto]|].
      2:{ apply index_of_app_r; [auto|]. apply (index_of_app_r name ["Activity"]); [cbn; intros [Q|[]]; auto|auto]. }
      intros E. injection E as <-. unfold cell. rewrite app_nth_mid by (symmetry; apply first_length). rewrite app_nth_mid by auto. cbn [app Nat.add nth].
      eapply values_nth; eauto.
    Qed.
  End Rows.
End P.

(*P C101 Event logs from tables *)
(** The traces of the log are the cases of the table, in ascending order of
    their ids. A trace has one event for every row of its case, in order. *)
Lemma C101_cases : forall (C : Type) (EC : Eq C) (none : C) isna leb identifier case act ecols tcols add_none (f : frame C),
  total_order leb -> rectangular f -> count_occ string_dec (columns f) case = 1 ->
  (forall name, In name (act :: ecols ++ tcols) -> readable identifier f case name) ->
  exists l, create_from_pandas_df none isna leb identifier case act ecols tcols add_none f = Ok l /\
    increasing leb (map tid l) /\
    (forall k, In k (map tid l) <-> isna k = false /\ exists r, In r (rows f) /\ under f case r k) /\
    forall t, In t l -> exists first rest,
      case_rows f case (tid t) (first :: rest) /\
      Forall2 (fun r e => under f act r (activity e) /\ transition e = None /\
        (forall name, In name ecols -> exists v, under f name r v /\ kept none add_none v (dict_get name (ev_attrs e))) /\
        (forall name, ~ In name ecols -> dict_get name (ev_attrs e) = None)) (first :: rest) (events t) /\
      dict_get case (tr_attrs t) = Some (tid t) /\
      (forall name, In name tcols -> exists v, under f name first v /\ dict_get name (tr_attrs t) = Some v) /\
      (forall name, name <> case -> ~ In name tcols -> dict_get name (tr_attrs t) = None).
Proof.
  intros C EC none isna leb identifier case act ecols tcols add_none f T Rf O R.
  assert (Hc : In case (columns f)) by (apply (count_occ_In string_dec); lia). destruct (index_of_In case (columns f) Hc) as [i Ei].
  assert (Ec : column case f = Ok i).
  { unfold column. rewrite Ei. replace (length (filter (eqb case) (columns f))) with 1; [auto|]. rewrite <- O. clear. induction (columns f) as [|c cs IH]; [auto|].
    cbn [filter count_occ]. destruct (string_dec c case) as [->|Hne]; [rewrite eqb_refl; cbn [length]; auto|]. destruct (eqb_ok case c); [congruence|auto]. }
  destruct (create_ok none isna leb identifier add_none f case act ecols tcols i Ec R) as (l & E & K & G). exists l. split; [auto|].
  assert (U : forall r v, In r (rows f) -> under f case r v <-> cell none i r = v) by (intros; apply under_iff; auto).
  assert (U' : forall name r, In name (act :: ecols ++ tcols) -> In r (rows f) -> under f name r (cell none (idx f name) r)).
  { intros name r Hn Hr. destruct (R name Hn) as (_ & _ & Hi). destruct (index_of_In _ _ Hi) as [j Ej]. unfold idx. rewrite Ej. apply (under_iff none f name j); auto. }
  split; [rewrite K; apply group_keys_increasing; auto|]. split.
  { intros k. rewrite K, group_keys_In. split; intros (N & r & Hr & E1); (split; [auto|]); exists r; split; auto; apply U; auto. }
  intros t Ht. pose proof (G t Ht) as (G1 & G2 & G3 & G4).
  assert (Ne : group none i (tid t) f <> []).
  { assert (Hk : In (tid t) (group_keys none isna leb i f)) by (rewrite <- K; apply in_map; auto). apply group_keys_In in Hk. destruct Hk as (_ & r & Hr & E1). intros Q.
    assert (X : In r (group none i (tid t) f)) by (apply filter_In; rewrite E1, eqb_refl; auto). rewrite Q in X. auto. }
  assert (Sub : forall r, In r (group none i (tid t) f) -> In r (rows f)) by (intros r Hr; apply filter_In in Hr; tauto).
  assert (Cr : case_rows f case (tid t) (group none i (tid t) f)).
  { unfold case_rows. eapply selection_iff; [|apply selection_filter]. intros j r Hj. cbv beta. rewrite U by (eapply nth_error_In; eauto). destruct (eqb_ok (cell none i r) (tid t)); split; congruence. }
  clear - G1 G2 G3 G4 Ne Sub Cr U' R.
  destruct (group none i (tid t) f) as [|r0 rs]; [congruence|]. exists r0, rs. split; [auto|]. split; [|split; [auto|split; [|auto]]].
  - revert Sub G1. generalize (r0 :: rs). generalize (events t). clear - U' R. intros es l Sub F. induction F as [|r e l es (E1 & E2 & E3 & E4) F IH]; constructor.
    + split; [rewrite E1; apply U'; [cbn; auto|apply Sub; cbn; auto]|]. split; [auto|]. split; [|auto]. intros name Hn. exists (cell none (idx f name) r). split; [|auto]. apply U'; [|apply Sub; cbn; auto]. cbn. right. apply in_app_iff. auto.
    + apply IH. intros; apply Sub; cbn; auto.
  - intros name Hn. exists (cell none (idx f name) r0). split; [|apply G3; auto]. apply U'; [|apply Sub; cbn; auto]. cbn. right. apply in_app_iff. auto.
Qed.

Lemma foldM_attribute {X Y} (g : Y -> X -> result Y) (bad : X -> Prop) l : (forall x, bad x \/ ~ bad x) -> (forall x y, bad x -> g y x = Err AttributeError) -> (forall x y, ~ bad x -> exists z, g y x = Ok z) ->
  forall y, ((exists x, In x l /\ bad x) /\ foldM g l y = Err AttributeError) \/ ((forall x, In x l -> ~ bad x) /\ exists z, foldM g l y = Ok z).
Proof.
  intros D B G. induction l as [|x l IH]; intros y; cbn [foldM].
  - right. split; [intros x []|eauto].
  - destruct (D x) as [Hx|Hx]; [left; split; [exists x; cbn; auto|rewrite B; auto]|]. destruct (G x y Hx) as [z E]. rewrite E. cbn [bind].
    destruct (IH z) as [[(w & W1 & W2) E2]|[N E2]]; [left; split; [exists w; cbn; auto|auto]|right; split; [intros w [<-|Hw]; auto|auto]].
Qed.
Lemma column_cases {C} (f : frame C) case : (count_occ string_dec (columns f) case = 0 -> column case f = Err KeyError) /\
  (1 < count_occ string_dec (columns f) case -> column case f = Err ValueError) /\
  (count_occ string_dec (columns f) case = 1 -> exists i, index_of case (columns f) = Some i /\ column case f = Ok i).
Proof.
  assert (L : length (filter (eqb case) (columns f)) = count_occ string_dec (columns f) case).
  { induction (columns f) as [|c cs IH]; [auto|].
    cbn [filter count_occ]. destruct (string_dec c case) as [->|Hne]; [rewrite eqb_refl; cbn [length]; auto|]. destruct (eqb_ok case c); [congruence|auto]. }
  unfold column. rewrite L. split; [|split].
  - intros Q. rewrite index_of_None; [auto|]. apply (count_occ_not_In string_dec). auto.
  - intros Q. destruct (index_of_In case (columns f)) as [i Ei]; [apply (count_occ_In string_dec); lia|]. rewrite Ei. destruct (Nat.eqb_spec (count_occ string_dec (columns f) case) 1); [lia|auto].
  - intros Q. destruct (index_of_In case (columns f)) as [i Ei]; [apply (count_occ_In string_dec); lia|]. exists i. rewrite Ei, Q. auto.
Qed.
(** A missing case column is a KeyError and a repeated one a ValueError. Unless
    there is no case at all, a column that cannot be read is an AttributeError. *)
Lemma C101_errors : forall (C : Type) (EC : Eq C) (none : C) isna leb identifier case act ecols tcols add_none (f : frame C),
  rectangular f ->
  let outcome := create_from_pandas_df none isna leb identifier case act ecols tcols add_none f in
  let a_case := exists k r, isna k = false /\ In r (rows f) /\ under f case r k in
  (~ In case (columns f) -> outcome = Err KeyError) /\
  (1 < count_occ string_dec (columns f) case -> outcome = Err ValueError) /\
  (count_occ string_dec (columns f) case = 1 -> ~ a_case -> outcome = Ok []) /\
  (count_occ string_dec (columns f) case = 1 -> a_case -> (exists name, In name (act :: ecols ++ tcols) /\ ~ readable identifier f case name) ->
     outcome = Err AttributeError).
Proof.
  intros C EC none isna leb identifier case act ecols tcols add_none f Rf outcome a_case. unfold outcome, create_from_pandas_df. clear outcome.
  destruct (column_cases f case) as (C1 & C2 & C3). split; [|split; [|split]].
  - intros N. rewrite C1; [auto|]. apply count_occ_not_In. auto.
  - intros N. rewrite C2; auto.
  - intros N Nc. destruct (C3 N) as (i & Ei & ->). cbn [bind]. destruct (group_keys none isna leb i f) as [|k ks] eqn:G; [auto|]. exfalso. apply Nc.
    assert (Hk : In k (group_keys none isna leb i f)) by (rewrite G; cbn; auto). apply group_keys_In in Hk. destruct Hk as (N1 & r & Hr & E). exists k, r. split; [auto|]. split; [auto|]. apply (under_iff none f case i r k); auto.
  - intros N (k0 & r & N1 & Hr & Hk) Bad. destruct (C3 N) as (i & Ei & ->). cbn [bind].
    assert (Hk' : In k0 (group_keys none isna leb i f)) by (apply group_keys_In; split; [auto|]; exists r; split; [auto|]; apply (under_iff none f case i r k0) in Hk; auto).
    destruct (group_keys none isna leb i f) as [|k ks]; [destruct Hk'|]. cbn [mapM]. cbv zeta.
    assert (D : forall name, ~ readable identifier f case name \/ ~ ~ readable identifier f case name).
    { intros name. unfold readable. destruct (identifier name); [|left; intuition congruence]. destruct (string_dec name case) as [->|Hne]; [left; tauto|]. destruct (in_dec string_dec name (columns f)); [right; tauto|left; tauto]. }
    assert (DD : forall name, ~ ~ readable identifier f case name -> readable identifier f case name).
    { intros name. unfold readable. destruct (identifier name); [|intuition congruence]. destruct (string_dec name case) as [->|Hne]; [tauto|]. destruct (in_dec string_dec name (columns f)); tauto. }
    destruct (D act) as [Ba|Ga]; [rewrite get_field_fails by auto; auto|]. apply DD in Ga. rewrite get_field_ok by auto. cbn [bind].
    match goal with |- context [foldM ?g ecols ?y0] => destruct (foldM_attribute g (fun n => ~ readable identifier f case n) ecols D) with (y := y0) as [[_ E]|[Ne (z & E)]] end.
    + intros n y B. rewrite get_field_fails by auto. auto.
    + intros n y B. rewrite get_field_ok by auto. cbn. eauto.
    + rewrite E. auto.
    + rewrite E. cbn [bind].
      match goal with |- context [foldM ?g tcols ?y0] => destruct (foldM_attribute g (fun n => ~ readable identifier f case n) tcols D) with (y := y0) as [[_ E']|[Nt _]] end.
      * intros n y B. rewrite get_field_fails by auto. auto.
      * intros n y B. rewrite get_field_ok by auto. cbn. eauto.
      * rewrite E'. auto.
      * exfalso. destruct Bad as (n & [<-|Hn] & B); [auto|]. apply in_app_iff in Hn. destruct Hn as [Hn|Hn]; [apply (Ne n Hn B)|apply (Nt n Hn B)].
Qed.

Lemma group_trace {C} {EC : Eq C} (none : C) cs (l : log C C C) t : NoDup (map tid l) -> In t l ->
  group none 0 (tid t) (Frame cs (map (fun te => event_row true (fst te) (snd te)) (log_events l))) = map (event_row true t) (events t).
Proof.
  unfold group, log_events. cbn [rows].
  assert (Z : forall k (u : trace C C C), tid u <> k -> filter (fun r => eqb (cell none 0 r) k) (map (fun te => event_row true (fst te) (snd te)) (map (pair u) (events u))) = []).
  { intros k u Hne. induction (events u) as [|e es IH]; [auto|]. cbn [map filter]. change (cell none 0 (event_row true (fst (u, e)) (snd (u, e)))) with (tid u). destruct (eqb_ok (tid u) k); [congruence|auto]. }
  assert (Z' : forall k (m : log C C C), ~ In k (map tid m) -> filter (fun r => eqb (cell none 0 r) k) (map (fun te => event_row true (fst te) (snd te)) (flat_map (fun t => map (pair t) (events t)) m)) = []).
  { intros k m. induction m as [|u m IH]; intros N; [auto|]. cbn [flat_map]. rewrite map_app, filter_app, Z, IH; [auto|intros Q; apply N; cbn; auto|intros Q; apply N; cbn; auto]. }
  induction l as [|u l IH]; intros N Ht; [destruct Ht|]. cbn [map] in N. inversion N as [|? ? Nu Nl]; subst. cbn [flat_map]. rewrite map_app, filter_app.
  destruct Ht as [->|Ht].
  - rewrite Z' by auto. rewrite app_nil_r. clear. induction (events t) as [|e es IH]; [auto|]. cbn [map filter].
    change (cell none 0 (event_row true (fst (t, e)) (snd (t, e)))) with (tid t). rewrite eqb_refl. cbn [fst snd]. f_equal. exact IH.
  - rewrite Z; [|intros Q; apply Nu; rewrite Q; apply in_map; auto]. rewrite IH by auto. auto.
Qed.
Lemma choose_list {X Y} (P : X -> Y -> Prop) (l : list Y) : (forall y, In y l -> exists x, P x y) -> exists m, Forall2 P m l.
Proof.
  induction l as [|y l IH]; intros E; [exists []; constructor|]. destruct IH as [m M]; [intros; apply E; cbn; auto|]. destruct (E y) as [x Hx]; [cbn; auto|]. exists (x :: m). constructor; auto.
Qed.
(** A log that became a table and is read back from it is the same log in
    ascending order of the ids, if the ids are different. *)
Lemma C101_round_trip : forall (C : Type) (EC : Eq C) (none : C) isna leb identifier tn en add_none (l : log C C C),
  total_order leb -> sorted_names tn -> sorted_names en -> uniform tn en l ->
  (forall name, In name tn -> ~ In name en) -> ~ In "trace" (tn ++ en) -> ~ In "Activity" (tn ++ en) ->
  (forall name, In name ("Activity" :: en ++ tn) -> identifier name = true) ->
  l <> [] -> NoDup (map tid l) -> (forall t, In t l -> isna (tid t) = false /\ events t <> []) ->
  exists f l' m, to_pandas_df none true l = Ok f /\ create_from_pandas_df none isna leb identifier "trace" "Activity" en tn add_none f = Ok l' /\
    increasing leb (map tid l') /\ Permutation l m /\
    Forall2 (fun t t' => tid t' = tid t /\
      Forall2 (fun e e' => activity e' = activity e /\ transition e' = None /\
        forall name, match dict_get name (ev_attrs e) with
                     | Some v => kept none add_none v (dict_get name (ev_attrs e'))
                     | None => dict_get name (ev_attrs e') = None
                     end) (events t) (events t') /\
      dict_get "trace" (tr_attrs t') = Some (tid t) /\
      forall name, name <> "trace" -> dict_get name (tr_attrs t') = dict_get name (tr_attrs t)) m l'.
Proof.
  intros C EC none isna leb identifier tn en add_none l T St Se U Dj Ntr Nac Id Nl ND Ev.
  assert (F : exists t l', l = t :: l' /\ events t <> []) by (destruct l as [|t l']; [congruence|]; exists t, l'; split; [auto|]; apply Ev; cbn; auto).
  set (f := Frame (cols true tn en) (map (fun te => event_row true (fst te) (snd te)) (log_events l))).
  assert (Ef : to_pandas_df none true l = Ok f) by (apply uniform_table; auto).
  assert (R : forall name, In name ("Activity" :: en ++ tn) -> readable identifier f "trace" name).
  { intros name Hn. split; [auto|]. split.
    - intros ->. destruct Hn as [Q|Hn]; [discriminate|]. apply Ntr. apply in_app_iff. apply in_app_iff in Hn. tauto.
    - cbn [columns f]. unfold cols. rewrite !in_app_iff. destruct Hn as [<-|Hn]; [cbn; tauto|]. apply in_app_iff in Hn. cbn. tauto. }
  assert (Ec : column "trace" f = Ok 0).
  { destruct (column_cases f "trace") as (_ & _ & C3). destruct C3 as (i & Ei & E).
    - cbn [columns f]. unfold cols. cbn [app count_occ]. destruct (string_dec "trace" "trace"); [|congruence]. f_equal. apply count_occ_not_In. rewrite !in_app_iff in *. cbn. intuition discriminate.
    - rewrite E. cbn in Ei. injection Ei as <-. auto. }
  destruct (create_ok none isna leb identifier add_none f "trace" "Activity" en tn 0 Ec R) as (l' & E & K & G).
  assert (Fd : forall t' : trace C C C, In t' l' -> exists t, In t l /\ tid t' = tid t).
  { intros t' Ht'. assert (Hk : In (tid t') (group_keys none isna leb 0 f)) by (rewrite <- K; apply in_map; auto). apply group_keys_In in Hk.
    destruct Hk as (_ & r & Hr & Q). cbn [rows f] in Hr. apply in_map_iff in Hr. destruct Hr as ([t e] & <- & Hi). apply in_log_events in Hi. exists t. split; [tauto|]. rewrite <- Q. reflexivity. }
  assert (Ch : forall t', In t' l' -> exists t, In t l /\ tid t' = tid t /\
      Forall2 (fun e e' => activity e' = activity e /\ transition e' = None /\
        forall name, match dict_get name (ev_attrs e) with
                     | Some v => kept none add_none v (dict_get name (ev_attrs e'))
                     | None => dict_get name (ev_attrs e') = None
                     end) (events t) (events t') /\
      dict_get "trace" (tr_attrs t') = Some (tid t) /\
      forall name, name <> "trace" -> dict_get name (tr_attrs t') = dict_get name (tr_attrs t)).
  { intros t' Ht'. destruct (Fd t' Ht') as (t & Ht & Et). exists t. split; [auto|]. split; [auto|]. destruct (U t Ht) as [P1 P2].
    pose proof (G t' Ht') as (G1 & G2 & G3 & G4). rewrite Et in G1, G3. unfold f in G1, G3. rewrite group_trace in G1, G3 by auto. fold f in G1, G3. split; [|split; [congruence|]].
    - assert (Sub : forall e, In e (events t) -> Permutation (keys (ev_attrs e)) en) by auto. clear G2 G3 G4 P2. revert Sub G1. generalize (events t'). induction (events t) as [|e es IH]; intros es' Sub G1; inversion G1 as [|? e' ? ? (E1 & E2 & E3 & E4) G1']; subst; constructor.
      + pose proof (Sub e (or_introl eq_refl)) as Pe. split; [|split; [auto|]].
        * rewrite E1. unfold idx. destruct (index_of_In "Activity" (columns f)) as [j Ej]; [apply (R "Activity"); cbn; auto|]. rewrite Ej. apply (activity_cell none true tn en t e St Se P1 Pe j); [|exact Ej]. rewrite in_app_iff in Nac. tauto.
        * intros name. destruct (in_dec string_dec name en) as [Hn|Hn].
          -- specialize (E3 name Hn). unfold idx in E3. destruct (index_of_In name (columns f)) as [j Ej]; [apply (R name); cbn; rewrite in_app_iff; auto|]. rewrite Ej in E3.
             rewrite (event_cell none true tn en t e St Se P1 Pe j name Hn); [auto| | | |exact Ej].
             ++ intros Q. apply (Dj _ Q Hn).
             ++ intros ->. apply Nac, in_app_iff. auto.
             ++ intros _ ->. apply Ntr, in_app_iff. auto.
          -- rewrite E4 by auto. replace (dict_get name (ev_attrs e)) with (@None C); [auto|]. symmetry. apply dict_get_None. intros Q. apply Hn. eapply Permutation_in; eauto.
      + apply IH; [|auto]. intros; apply Sub; cbn; auto.
    - intros name Hne. destruct (in_dec string_dec name tn) as [Hn|Hn].
      + rewrite G3 by auto. destruct (Ev t Ht) as [_ Ne]. destruct (events t) as [|e es] eqn:Ee; [congruence|]. cbn [map nth]. unfold idx.
        destruct (index_of_In name (columns f)) as [j Ej]; [apply (R name); cbn; rewrite in_app_iff; auto|]. rewrite Ej. symmetry. apply (attribute_cell none true tn en t e St Se P1); auto.
        apply P2. cbn; auto.
      + rewrite G4 by auto. symmetry. apply dict_get_None. intros Q. apply Hn. eapply Permutation_in; eauto. }
  destruct (choose_list _ _ Ch) as [m M]. exists f, l', m. split; [auto|]. split; [auto|]. split; [rewrite K; apply group_keys_increasing; auto|].
  assert (Mt : map tid m = map tid l').
  { clear - M. induction M as [|t t' m l' (_ & E & _) M IH]; [auto|]. cbn [map]. congruence. }
  assert (Mi : forall t, In t m -> In t l).
  { clear - M. induction M as [|t t' m l' (E & _) M IH]; intros u Hu; [destruct Hu|]. destruct Hu as [<-|Hu]; auto. }
  split.
  - assert (Nk : NoDup (map tid l')).
    { rewrite K. unfold group_keys. eapply Permutation_NoDup; [symmetry; apply sort_perm|]. apply NoDup_filter, set_of_NoDup. }
    apply NoDup_Permutation; [eapply NoDup_map_inv; eauto|rewrite <- Mt in Nk; eapply NoDup_map_inv; eauto|].
    intros t. split; [|auto]. intros Ht. destruct (Ev t Ht) as [Na Ne].
    assert (Hk : In (tid t) (map tid m)).
    { rewrite Mt, K. apply group_keys_In. split; [auto|]. destruct (events t) as [|e es] eqn:Ee; [congruence|]. exists (event_row true t e). split; [|reflexivity].
      cbn [rows f]. apply in_map_iff. exists (t, e). split; [auto|]. apply in_log_events. split; [auto|]. rewrite Ee. cbn. auto. }
    apply in_map_iff in Hk. destruct Hk as (u & Eu & Hu). replace t with u; [auto|]. specialize (Mi u Hu). clear - ND Eu Mi Ht.
    induction l as [|x l IH]; [destruct Ht|]. cbn [map] in ND. inversion ND as [|? ? N1 N2]; subst. destruct Mi as [->|Mi], Ht as [->|Ht]; auto.
    + exfalso. apply N1. rewrite Eu. apply in_map. auto.
    + exfalso. apply N1. rewrite <- Eu. apply in_map. auto.
  - eapply Forall2_weaken; [|exact M]. intros t t' (_ & X). exact X.
Qed.
(** Two traces with the same id become one trace. *)
Lemma C101_merged_witness : exists (l : log string string string) f l',
  to_pandas_df "" true l = Ok f /\ create_from_pandas_df "" (fun c => eqb c "") String.leb (fun _ => true) "trace" "Activity" [] [] true f = Ok l' /\
  length l = 2 /\ length l' = 1.
Proof.
  exists [Trace "1" [Event "a" [] None] []; Trace "1" [Event "b" [] None] []]. eexists. eexists.
  split; [vm_compute; reflexivity|]. split; [vm_compute; reflexivity|]. split; reflexivity.
Qed.
