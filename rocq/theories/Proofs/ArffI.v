(** Documents read as datasets with a target *)
From Coq Require Import String Ascii ZArith Lia Permutation Sorted.
From Verif.Model Require Import Base Sort Dataset TargetDatasets Arff.
From Verif.Lib Require Import ListLib DictLib SortLib StrLib.
From Verif.Spec Require Import DatasetSpec TargetSpec ArffSpec.
From Verif.Proofs Require Import DatasetA TargetDatasetsA TargetDatasetsB TargetDatasetsC LogTablesB LogTablesD ArffA ArffB ArffC ArffD ArffE ArffF ArffG.
Open Scope string_scope.
Open Scope list_scope.
Open Scope nat_scope.

Lemma difference_names ord (p : string * domain -> bool) atts chosen : (forall l, Permutation (ord l) l) -> NoDup (map fst atts) ->
  Permutation (difference ord (map fst (filter p atts)) chosen) (map fst (filter (fun a => p a && negb (mem (fst a) chosen)) atts)).
Proof.
  intros Ho Hn.
  assert (Hsub : forall q : string * domain -> bool, NoDup (map fst (filter q atts))).
  { intros q. clear - Hn. induction atts as [|a atts IH]; [constructor|]. cbn [map] in Hn. apply names_NoDup_cons in Hn as [H1 H2]. cbn [filter].
    destruct (q a); auto. cbn [map]. constructor; auto. intros X. apply H1. apply in_map_iff in X as (b & E & Hb). apply filter_In in Hb as [Hb _].
    apply in_map_iff. eauto. }
  apply difference_perm; auto. intros n. rewrite !in_map_iff. split.
  - intros (a & <- & Ha). apply filter_In in Ha as [Ha Hp]. apply andb_true_iff in Hp as [Hp Hc]. split; [exists a; split; auto; apply filter_In; auto|].
    apply negb_true_iff in Hc. apply mem_not_In in Hc. auto.
  - intros [(a & <- & Ha) Hc]. apply filter_In in Ha as [Ha Hp]. exists a. split; auto. apply filter_In. split; auto. rewrite Hp. cbn [andb].
    apply negb_true_iff, mem_not_In. auto.
Qed.

Section D.
  Context {T X : Type}.
  Variables (x0 : X) (upd : T -> X -> X) (make : dict string read_value -> result (dict string read_value * T)) (fits : row -> T -> Prop).
  Lemma from_document ord order doc chosen : (forall l, Permutation (ord l) l) -> (forall l, Permutation (order l) l) -> plain doc ->
    (forall r fs, In r (rows doc) -> (forall k n, nth_error (names_of doc) k = Some n -> dict_get n fs = ArffSpec.cell r k) ->
       exists t, make fs = Ok (without chosen fs, t) /\ fits r t) ->
    exists h2 D2, (do raw <- create_from_arff (text_of doc) ;
      convert x0 upd make (fst raw) (new (difference ord (cats (snd raw)) chosen) (difference ord (nums (snd raw)) chosen)) (order (insts (snd raw)))) = Ok (h2, D2) /\
      sub_history x0 upd h2 D2 /\ read_with_target doc chosen fits h2 (fst D2).
  Proof.
    intros Ho Hor Hp Hm. destruct (C105_documents doc Hp) as (h & d & E & R). rewrite E. cbn [bind fst snd].
    pose proof (r_history _ _ _ R) as Hh. pose proof (history_inv _ _ _ Hh) as Hinv.
    pose proof (plain_distinct _ Hp) as Hnd. unfold names_of in Hnd.
    pose proof (difference_names ord is_nominal (attributes doc) chosen Ho Hnd) as P1.
    pose proof (difference_names ord (fun a => negb (is_nominal a)) (attributes doc) chosen Ho Hnd) as P2.
    rewrite <- (r_cats _ _ _ R) in P1. rewrite <- (r_nums _ _ _ R) in P2.
    assert (Hraw : NoDup (cats d ++ nums d)) by (eapply raw_names_NoDup; eauto).
    assert (Hin : forall names n, In n (difference ord names chosen) <-> In n names /\ ~ In n chosen).
    { intros names n. unfold difference. split.
      - intros Y. apply (Permutation_in _ (Ho _)) in Y. apply filter_In in Y as [Y1 Y2]. apply (proj1 (set_of_In _ _)) in Y1. apply negb_true_iff, mem_not_In in Y2. auto.
      - intros [Y1 Y2]. apply (Permutation_in _ (Permutation_sym (Ho _))). apply filter_In. split; [apply set_of_In; auto|apply negb_true_iff, mem_not_In; auto]. }
    destruct (NoDup_parts _ _ Hraw) as (N1 & N2 & N3).
    destruct (new_start (T := T) x0 upd (difference ord (cats d) chosen) (difference ord (nums d) chosen)) as (S1 & S2 & S3 & S4).
    { apply disjoint_NoDup.
      - unfold difference. eapply Permutation_NoDup; [apply Permutation_sym; apply Ho|]. apply NoDup_filter, set_of_NoDup.
      - unfold difference. eapply Permutation_NoDup; [apply Permutation_sym; apply Ho|]. apply NoDup_filter, set_of_NoDup.
      - intros n Y1 Y2. apply Hin in Y1. apply Hin in Y2. apply (N3 n); tauto. }
    set (st := new (difference ord (cats d) chosen) (difference ord (nums d) chosen)) in *.
    destruct (sub_history_ok _ _ _ _ S1) as [Hs0 _]. apply history_inv in Hs0. cbn [fst] in Hs0.
    pose proof (names_keys _ _ Hs0) as Hkeys. pose proof (names_keys _ _ Hinv) as Hkeys'.
    assert (Hord : Permutation (order (insts d)) (seq 0 (length (rows doc)))) by (rewrite <- (r_insts _ _ _ R); apply Hor).
    assert (Hrow : forall i, i < length (rows doc) -> exists r x t, nth_error (rows doc) i = Some r /\ nth_error h i = Some x /\ iid x = i /\
      make (feats x) = Ok (without chosen (feats x), t) /\ fits r t /\
      (forall k n, nth_error (names_of doc) k = Some n -> dict_get n (feats x) = ArffSpec.cell r k) /\
      (forall n, ~ In n (names_of doc) -> dict_get n (feats x) = None)).
    { intros i Hi. destruct (nth_error_lt _ _ Hi) as [r Er]. destruct (r_rows _ _ _ R i r Er) as (x & Ex & Eid & H1 & H2).
      destruct (Hm r (feats x)) as (t & Et & Hf); [eapply nth_error_In; eauto|auto|]. exists r, x, t. auto 10. }
    destruct (convert_ok x0 upd make h st (order (insts d))) as (h2 & D2 & C1 & C2 & C3 & C4 & C5 & C6 & C7); auto.
    { eapply Permutation_NoDup; [apply Permutation_sym; exact Hord|apply seq_NoDup]. }
    { intros i Hi. apply (Permutation_in _ Hord) in Hi. apply in_seq in Hi. destruct (Hrow i) as (r & x & t & Er & Ex & Eid & Em & _ & _); [lia|].
      exists x, (without chosen (feats x)), t. split; [auto|]. split; [auto|]. split; [auto|].
      split; [apply keys_without_NoDup; apply (v_proper _ _ _ Hinv i x Ex)|].
      intros n. rewrite (Hkeys n), S2, S3, in_app_iff, !Hin, keys_get, dict_get_without. destruct (mem n chosen) eqn:Ec.
      - apply mem_In in Ec. tauto.
      - apply mem_not_In in Ec. rewrite <- keys_get. rewrite (v_feats _ _ _ Hinv i x); [|split; auto; rewrite (r_insts _ _ _ R); apply in_seq; lia].
        rewrite (Hkeys' n), in_app_iff. tauto. }
    exists h2, D2. split; [exact C1|]. split; [exact C2|]. constructor.
    - rewrite C3, S2. exact P1.
    - rewrite C4, S3. exact P2.
    - rewrite C5, seq_length, (Permutation_length Hord), seq_length. auto.
    - intros i r Er. pose proof (nth_error_Some_lt _ _ _ Er) as Hi.
      assert (Hio : In i (order (insts d))) by (eapply Permutation_in; [apply Permutation_sym; exact Hord|]; apply in_seq; lia). apply In_nth_error in Hio as [j Ej].
      destruct (C7 j i Ej) as (y & fs & t & Ey & Emk & E2). destruct (Hrow i Hi) as (r' & x & t' & Er' & Ex & _ & Em & Hf & G1 & G2).
      assert (Z : Some r = Some r') by congruence. injection Z as <-. assert (Z : Some y = Some x) by congruence. injection Z as ->.
      rewrite Em in Emk. injection Emk as <- <-.
      exists j. eexists. split; [split; [rewrite C5; apply in_seq; apply nth_error_Some_lt in Ej; lia|exact E2]|]. cbn [iid feats target].
      split; [auto|]. split; [|split; [|auto]].
      + intros k n En Hc. rewrite dict_get_without. rewrite (proj2 (mem_not_In n chosen) Hc). auto.
      + intros n Hn. rewrite dict_get_without. destruct (mem n chosen) eqn:Ec; [auto|]. apply mem_not_In in Ec. destruct Hn as [Hn|Hn]; [tauto|auto].
  Qed.
End D.

(*P C106 Files of datasets with a target *)
(** Any well-formed file, with full or sparse rows, read as a MultiLabelDataset:
    an instance has exactly those of the chosen attributes as labels whose
    value is 1, and the other attributes as features. *)
Lemma C106_label_files : forall (ord : list string -> list string) (order : list nat -> list nat) doc chosen,
  (forall l, Permutation (ord l) l) -> (forall l, Permutation (order l) l) -> plain doc -> (forall l, In l chosen -> In l (names_of doc)) ->
  exists h2 D2, label_create ord order chosen (text_of doc) = Ok (h2, D2) /\ sub_history [] collect h2 D2 /\
    read_with_target doc chosen (fun r t => NoDup t /\ forall l, In l t <-> In l chosen /\ exists k, nth_error (names_of doc) k = Some l /\ set_cell (ArffSpec.cell r k)) h2 (fst D2).
Proof.
  intros ord order doc chosen Ho Hor Hp Hc. unfold label_create. apply from_document; auto. intros r fs Hr Hfs.
  set (bit := fun n => match dict_get n fs with Some v => eqb v (Number 1) || eqb v (Text "1") | None => false end).
  exists (set_of (map fst (filter snd (map (fun n => (n, bit n)) chosen)))).
  assert (Hget : forall l, In l chosen -> exists k v, nth_error (names_of doc) k = Some l /\ ArffSpec.cell r k = Some v /\ dict_get l fs = Some v).
  { intros l Hl. apply Hc in Hl. apply In_nth_error in Hl as [k Ek]. destruct (ArffSpec.cell r k) as [v|] eqn:Ev.
    - exists k, v. rewrite (Hfs k l Ek). auto.
    - exfalso. refine (cell_some r k (length (attributes doc)) (plain_rows _ Hp r Hr) _ Ev). apply nth_error_Some_lt in Ek. unfold names_of in Ek. rewrite map_length in Ek. auto. }
  rewrite (mapM_map _ (fun n => (n, bit n))).
  2:{ intros n Hn. destruct (Hget n Hn) as (k & v & _ & _ & Ev). unfold bit. rewrite Ev. reflexivity. }
  cbn [bind]. split; [reflexivity|]. split; [apply set_of_NoDup|]. intros l. rewrite set_of_In, in_map_iff.
  assert (Hone : forall v, eqb v (Number 1) || eqb v (Text "1") = true <-> v = Number 1 \/ v = Text "1").
  { intros v. rewrite orb_true_iff. destruct (eqb_ok v (Number 1)), (eqb_ok v (Text "1")); intuition congruence. }
  split.
  - intros ([n b] & <- & Hn). cbn [fst]. apply filter_In in Hn as [Hn Hb]. cbn [snd] in Hb. subst b. apply in_map_iff in Hn as (n' & Y & Hn). injection Y as -> Hb.
    split; [auto|]. destruct (Hget n Hn) as (k & v & Ek & Ev & Eg). exists k. split; [auto|]. unfold set_cell. rewrite Ev. unfold bit in Hb. rewrite Eg in Hb.
    apply Hone in Hb. destruct Hb as [->| ->]; auto.
  - intros [Hl (k & Ek & Hs)]. exists (l, true). split; [auto|]. apply filter_In. split; [|auto]. apply in_map_iff. exists l. split; [|auto]. f_equal.
    unfold bit. rewrite (Hfs k l Ek). destruct Hs as [-> | ->]; reflexivity.
Qed.
(*P C106 Files of datasets with a target *)
(** Any well-formed file read as a MultisetDataset: an instance has the counts
    in its row. *)
Lemma C106_multiset_files : forall (ord : list string -> list string) (order : list nat -> list nat) doc chosen,
  (forall l, Permutation (ord l) l) -> (forall l, Permutation (order l) l) -> plain doc -> (forall l, In l chosen -> In l (names_of doc)) ->
  (forall r k l, In r (rows doc) -> nth_error (names_of doc) k = Some l -> In l chosen -> exists n, count_cell (ArffSpec.cell r k) n) ->
  exists h2 D2, multiset_create ord order chosen (text_of doc) = Ok (h2, D2) /\ sub_history no_multisets count_multiset h2 D2 /\
    read_with_target doc chosen (fun r t =>
      (forall k l n, nth_error (names_of doc) k = Some l -> In l chosen -> count_cell (ArffSpec.cell r k) n -> dict_get l t = Some n) /\
      forall l, In l (keys t) -> In l chosen) h2 (fst D2).
Proof.
  intros ord order doc chosen Ho Hor Hp Hc Hcount. unfold multiset_create. apply from_document; auto. intros r fs Hr Hfs.
  set (f := fun n => do v <- of_option KeyError (dict_get n fs) ; do z <- int_of_value v ; Ok (Z.to_nat z)).
  set (g := fun n => match f n with Ok z => z | Err _ => 0 end).
  assert (Hf : forall k l n, nth_error (names_of doc) k = Some l -> count_cell (ArffSpec.cell r k) n -> f l = Ok n).
  { intros k l n Ek Hn. unfold f. rewrite (Hfs k l Ek). destruct Hn as [-> | ->]; cbn [of_option bind int_of_value]; [|rewrite int_of_nat_text; cbn [of_option bind]];
      rewrite Nat2Z.id; reflexivity. }
  destruct (foldM_set f g chosen) with (m := [] : dict string nat) as (m & Em & Hm).
  { intros l Hl. pose proof (Hc l Hl) as Hl'. apply In_nth_error in Hl' as [k Ek]. destruct (Hcount r k l Hr Ek Hl) as [n Hn]. unfold g. rewrite (Hf k l n Ek Hn). reflexivity. }
  exists m. split.
  - match goal with |- (do m <- foldM ?F _ _ ; _) = _ => assert (EF : foldM F chosen [] = Ok m) end; [|rewrite EF; reflexivity].
    rewrite <- Em. clear. generalize ([] : dict string nat). induction chosen as [|l ls IH]; intros m0; [reflexivity|]. cbn [foldM]. unfold f at 1.
    destruct (dict_get l fs) as [v|]; cbn [of_option bind]; [|reflexivity]. destruct (int_of_value v); cbn [bind]; [|reflexivity]. apply IH.
  - split.
    + intros k l n Ek Hl Hn. rewrite Hm. rewrite (proj2 (mem_In l chosen) Hl). f_equal. unfold g. rewrite (Hf k l n Ek Hn). reflexivity.
    + intros l Hl. apply dict_get_key in Hl as [v Ev]. rewrite Hm in Ev. destruct (mem l chosen) eqn:El; [apply mem_In; auto|discriminate].
Qed.
(*P C106 Files of datasets with a target *)
(** A chosen attribute which the file does not have. *)
Lemma C106_unknown_label : forall (ord : list string -> list string) (order : list nat -> list nat) doc chosen,
  (forall l, Permutation (order l) l) -> plain doc -> rows doc <> [] -> (exists l, In l chosen /\ ~ In l (names_of doc)) ->
  label_create ord order chosen (text_of doc) = Err KeyError.
Proof.
  intros ord order doc chosen Hor Hp Hr (l & Hl & Hn). unfold label_create. destruct (C105_documents doc Hp) as (h & d & E & R). rewrite E. cbn [bind fst snd].
  unfold convert. assert (Hperm := Hor (insts d)). rewrite (r_insts _ _ _ R) in *. destruct (order (seq 0 (length (rows doc)))) as [|a it].
  { apply Permutation_nil in Hperm. destruct (rows doc); [congruence|discriminate]. }
  cbn [foldM]. assert (Ha : In a (seq 0 (length (rows doc)))) by (eapply Permutation_in; [exact Hperm|left; auto]). apply in_seq in Ha.
  destruct (nth_error_lt (rows doc) a) as [r Er]; [lia|]. destruct (r_rows _ _ _ R a r Er) as (x & Ex & _ & _ & Hnone). rewrite Ex. cbn [of_option bind].
  match goal with |- context [mapM ?f chosen] => assert (EM : mapM f chosen = Err KeyError) end; [|rewrite EM; reflexivity].
  specialize (Hnone l Hn). clear - Hl Hnone. induction chosen as [|m ms IH]; [destruct Hl|]. cbn [mapM]. destruct Hl as [->|Hl].
  - rewrite Hnone. reflexivity.
  - destruct (dict_get m (feats x)); cbn [of_option bind]; [|reflexivity]. rewrite (IH Hl). reflexivity.
Qed.
