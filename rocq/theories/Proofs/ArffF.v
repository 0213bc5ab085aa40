(** Datasets with a target: writing and reading *)
From Coq Require Import String Ascii ZArith Lia Permutation Sorted.
From Verif.Model Require Import Base Sort Dataset TargetDatasets Arff.
From Verif.Lib Require Import ListLib DictLib SortLib StrLib.
From Verif.Spec Require Import DatasetSpec TargetSpec ArffSpec.
From Verif.Proofs Require Import DatasetA TargetDatasetsA TargetDatasetsB TargetDatasetsC LogTablesB LogTablesD ArffA ArffB ArffC ArffD ArffE.
Open Scope string_scope.
Open Scope list_scope.
Open Scope nat_scope.

(** ** what is read from a file with extra attributes *)
Section R.
  Context {I V T : Type} {EI : Eq I} {EV : Eq V}.
  Variable show : V -> string.
  Variable leb : V -> V -> bool.
  Notation heap := (heap I V T).
  Lemma document_values (h : heap) d it extra extra_fields relation h' d' : history true h d -> Permutation it (insts d) ->
    reads_as (document_of show leb extra extra_fields relation h d it) h' d' ->
    (forall n, In n (map fst extra) -> ~ In n (cats d ++ nums d)) ->
    cats d' = cats d ++ map fst (filter is_nominal extra) /\ nums d' = nums d ++ map fst (filter (fun a => negb (is_nominal a)) extra) /\
    insts d' = seq 0 (length it) /\
    forall i a, nth_error it i = Some a -> exists x, nth_error h' i = Some x /\ iid x = i /\
      (forall n, ~ In n (map fst extra) -> dict_get n (feats x) = option_map (fun v => Text (show v)) (value h a n)) /\
      (forall k n, nth_error (map fst extra) k = Some n -> dict_get n (feats x) = option_map (fun f => Text (field_value f)) (nth_error (extra_fields a) k)).
  Proof.
    intros Hh Hit R Hx. destruct (nominal_document show leb d) as [E1 E2]. set (doc := document_of show leb extra extra_fields relation h d it) in *.
    assert (Ea : attributes doc = own_attributes show leb d ++ extra) by reflexivity.
    split; [rewrite (r_cats _ _ _ R), Ea, filter_app, map_app; congruence|]. split; [rewrite (r_nums _ _ _ R), Ea, filter_app, map_app; congruence|].
    split; [rewrite (r_insts _ _ _ R); unfold doc; cbn [document_of rows]; rewrite map_length; auto|].
    intros i a Ei. destruct (r_rows _ _ _ R i (Dense (row_fields show h d a ++ extra_fields a))) as (x & Ex & Hid & F1 & F2).
    { unfold doc. cbn [document_of rows]. rewrite nth_error_map, Ei. reflexivity. }
    exists x. split; auto. split; auto.
    assert (Hn : names_of doc = (cats d ++ nums d) ++ map fst extra) by (unfold doc; rewrite names_document, app_assoc; reflexivity).
    assert (Ha : In a (insts d)) by (eapply Permutation_in; eauto; eapply nth_error_In; eauto).
    assert (El : length (row_fields show h d a) = length (cats d ++ nums d)) by (unfold row_fields; rewrite !app_length, !map_length; auto).
    split.
    - intros n Hne. destruct (in_dec string_dec n (cats d ++ nums d)) as [Hin|Hin].
      + destruct (own_value h d a n Hh Ha Hin) as [v Ev]. rewrite Ev. cbn [option_map]. apply In_nth_error in Hin as [k Ek].
        pose proof (nth_error_Some_lt _ _ _ Ek) as Hk. rewrite (F1 k n) by (rewrite Hn, nth_error_app1; auto). cbn [ArffSpec.cell]. rewrite nth_error_app1 by lia. unfold row_fields.
        assert (Ef : nth_error (map (fun n => Quoted (value_text show h a n)) (cats d) ++ map (fun n => Bare (value_text show h a n)) (nums d)) k =
          Some (if k <? length (cats d) then Quoted (value_text show h a n) else Bare (value_text show h a n))).
        { clear Hk. destruct (Nat.ltb_spec k (length (cats d))).
          - rewrite nth_error_app1 in Ek |- * by (rewrite ?map_length; auto). rewrite nth_error_map, Ek. reflexivity.
          - rewrite nth_error_app2 in Ek |- * by (rewrite ?map_length; auto). rewrite map_length, nth_error_map, Ek. reflexivity. }
        rewrite Ef. cbn [option_map]. unfold value_text. rewrite Ev. destruct (k <? length (cats d)); reflexivity.
      + rewrite F2 by (rewrite Hn, in_app_iff; tauto). symmetry. apply history_inv in Hh. destruct (v_valid _ _ _ Hh a Ha) as [y Ey]. unfold value. rewrite Ey.
        rewrite (proj2 (dict_get_None (feats y) n)); [reflexivity|]. intros X. apply (v_feats _ _ _ Hh a y) in X; [|split; auto].
        apply dict_get_key in X as [w Ew]. apply (v_lists _ _ _ Hh) in Ew. apply Hin. apply in_app_iff. destruct (akind w); auto.
    - intros k n Ek. rewrite (F1 (length (cats d ++ nums d) + k) n).
      + cbn [ArffSpec.cell]. rewrite <- El, nth_error_app2 by lia. f_equal. f_equal. lia.
      + rewrite Hn, nth_error_app2 by lia. rewrite <- Ek. f_equal. lia.
  Qed.
End R.

(** ** the loop that makes the new instances *)
Section V.
  Context {T X : Type}.
  Variables (x0 : X) (upd : T -> X -> X) (make : dict string read_value -> result (dict string read_value * T)).
  Lemma convert_ok (raw : heap nat read_value unit) st it : sub_history (I := nat) x0 upd [] (st, x0) -> insts st = [] -> NoDup it ->
    (forall a, In a it -> exists x fs t, nth_error raw a = Some x /\ iid x = a /\ make (feats x) = Ok (fs, t) /\ NoDup (keys fs) /\
       forall n, In n (keys fs) <-> In n (keys (attrs st))) ->
    exists h2 D2, convert x0 upd make raw st it = Ok (h2, D2) /\ sub_history x0 upd h2 D2 /\ cats (fst D2) = cats st /\ nums (fst D2) = nums st /\
      insts (fst D2) = seq 0 (length it) /\ length h2 = length it /\
      forall j a, nth_error it j = Some a -> exists x fs t, nth_error raw a = Some x /\ make (feats x) = Ok (fs, t) /\
        nth_error h2 j = Some {| iid := a; feats := fs; target := t |}.
  Proof.
    intros Hs Hi Hnd Hm. unfold convert.
    match goal with |- context [foldM ?f it _] => set (F := f) end.
    assert (G : forall l1 l2, l1 ++ l2 = it -> exists h2 D2, foldM F l1 ([], (st, x0)) = Ok (h2, D2) /\ sub_history x0 upd h2 D2 /\ cats (fst D2) = cats st /\ nums (fst D2) = nums st /\
      keys (attrs (fst D2)) = keys (attrs st) /\
      insts (fst D2) = seq 0 (length l1) /\ length h2 = length l1 /\
      forall j a, nth_error l1 j = Some a -> exists x fs t, nth_error raw a = Some x /\ make (feats x) = Ok (fs, t) /\
        nth_error h2 j = Some {| iid := a; feats := fs; target := t |}).
    { induction l1 as [|a l1 IH] using rev_ind; intros l2 El.
      - exists [], (st, x0). cbn [foldM fst length seq]. split; [reflexivity|]. split; [exact Hs|]. do 3 (split; [reflexivity|]). split; [exact Hi|]. split; [reflexivity|]. intros [|j] a; discriminate.
      - rewrite <- app_assoc in El. cbn [app] in El. destruct (IH (a :: l2) El) as (h2 & D2 & E & H1 & H2 & H3 & H4 & H5 & H6 & H7).
        rewrite foldM_app, E. cbn [bind foldM]. unfold F at 1.
        destruct (Hm a) as (x & fs & t & Ex & Eid & Em & Hk & Hkn); [rewrite <- El; apply in_app_iff; cbn; auto|]. rewrite Ex. cbn [of_option bind]. rewrite Em. cbn [bind fst snd].
        set (new_inst := {| iid := iid x; feats := fs; target := t |}). set (h3 := h2 ++ [new_inst]).
        assert (Hh : history true h2 (fst D2)) by (apply (sub_history_ok _ _ _ _ H1)). pose proof (history_inv _ _ _ Hh) as Hinv.
        assert (Enew : nth_error h3 (length h2) = Some new_inst) by (unfold h3; rewrite nth_error_app2, Nat.sub_diag by lia; reflexivity).
        assert (Hold : forall b, b < length h2 -> nth_error h3 b = nth_error h2 b) by (intros b Hb; unfold h3; apply nth_error_app1; auto).
        assert (H1' : sub_history x0 upd h3 D2).
        { eapply sub_other; [exact H1| |].
          - intros b y. destruct (Nat.lt_ge_cases b (length h2)) as [Hb|Hb]; [rewrite Hold by auto; apply (v_proper _ _ _ Hinv)|].
            unfold h3. rewrite nth_error_app2 by auto. destruct (b - length h2) as [|[|?]]; cbn; try discriminate. intros Y. injection Y as <-. exact Hk.
          - intros b Hb. apply Hold. rewrite H5, in_seq in Hb. lia. }
        destruct (add_instance_ok h3 (fst D2) (length h2) new_inst) as (d3 & Ed3 & F1 & F2 & F3 & F4 & F5); auto.
        { cbn. intros k. rewrite H4. apply Hkn. }
        { intros b y [Hb Ey] Eq. rewrite H5, in_seq in Hb. destruct (nth_error_lt l1 b) as [a' Ea']; [lia|]. destruct (H7 b a' Ea') as (x' & fs' & t' & _ & _ & Ey').
          rewrite Hold in Ey by lia. rewrite Ey' in Ey. injection Ey as <-. cbn in Eq. rewrite Eid in Eq. subst a'.
          rewrite <- El in Hnd. apply NoDup_remove_2 in Hnd. apply Hnd. apply in_app_iff. left. eapply nth_error_In; eauto. }
        assert (Ea : sub_add upd h3 D2 (length h2) = Ok (d3, upd t (snd D2))) by (unfold sub_add; rewrite Ed3; cbn [bind]; rewrite Enew; reflexivity).
        rewrite Ea. cbn [bind]. exists h3, (d3, upd t (snd D2)). split; [reflexivity|]. split; [eapply sub_added; eauto|]. cbn [fst].
        split; [congruence|]. split; [congruence|]. split; [congruence|]. rewrite app_length. cbn [length]. rewrite Nat.add_1_r, seq_S.
        split; [rewrite F1, H5, H6; reflexivity|]. split; [unfold h3; rewrite app_length; cbn; lia|].
        intros j b Ej. destruct (Nat.lt_ge_cases j (length l1)) as [Hj|Hj].
        + rewrite nth_error_app1 in Ej by auto. rewrite Hold by lia. auto.
        + rewrite nth_error_app2 in Ej by auto. destruct (j - length l1) as [|[|?]] eqn:Ejj; cbn in Ej; try discriminate. injection Ej as <-.
          exists x, fs, t. split; auto. split; auto. replace j with (length h2) by lia. rewrite Enew. unfold new_inst. rewrite Eid. reflexivity. }
    destruct (G it [] (app_nil_r it)) as (h2 & D2 & E & H1 & H2 & H3 & H4 & H5 & H6 & H7). exists h2, D2. repeat (split; [assumption|]). exact H7.
  Qed.
End V.

(** ** dictionaries *)
Lemma dict_get_without names (d : dict string read_value) n : dict_get n (without names d) = if mem n names then None else dict_get n d.
Proof.
  unfold without. induction d as [|[m v] d IH]; [destruct (mem n names); reflexivity|]. cbn [filter]. destruct (mem m names) eqn:Em; cbn [negb].
  - rewrite IH. cbn [dict_get]. destruct (eqb_ok n m) as [->|Hnm]; [rewrite Em; auto|auto].
  - cbn [dict_get]. rewrite IH. destruct (eqb_ok n m) as [->|Hnm]; [rewrite Em; auto|auto].
Qed.
Lemma keys_without_NoDup names (d : dict string read_value) : NoDup (keys d) -> NoDup (keys (without names d)).
Proof.
  unfold without. induction d as [|[m v] d IH]; intros Hd; [constructor|]. cbn [keys map fst] in Hd. apply names_NoDup_cons in Hd as [Hm Hd]. cbn [filter].
  destruct (negb (mem m names)); auto. cbn [keys map fst]. constructor; auto. intros X. apply Hm. clear - X. unfold keys in *. rewrite in_map_iff in *.
  destruct X as (p & E & Hp). apply filter_In in Hp as [Hp _]. eauto.
Qed.
Lemma keys_get {X} (d : dict string X) n : In n (keys d) <-> dict_get n d <> None.
Proof. rewrite (dict_get_None d n). destruct (in_dec string_dec n (keys d)); tauto. Qed.
Lemma difference_perm ord names removed own : (forall l, Permutation (ord l) l) -> NoDup names -> NoDup own ->
  (forall n, In n own <-> In n names /\ ~ In n removed) -> Permutation (difference ord names removed) own.
Proof.
  intros Ho Hn Hown E. unfold difference. eapply perm_trans; [apply Ho|]. apply NoDup_Permutation; auto.
  - apply NoDup_filter. apply set_of_NoDup.
  - intros n. rewrite filter_In, set_of_In, E, negb_true_iff. rewrite (mem_not_In n removed). tauto.
Qed.
Lemma comma_line fs : fs <> [] -> ("," ++ String.concat "," (map field_text fs))%string = comma_fields fs.
Proof. intros Hn. destruct fs as [|f fs]; [congruence|]. cbn [map]. rewrite concat_comma_fields. unfold comma_fields. cbn [map]. rewrite concat_cons, map_map. cbn [append]. reflexivity. Qed.
