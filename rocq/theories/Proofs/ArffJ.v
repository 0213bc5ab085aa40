(** Files of datasets with a target but without other attributes *)
From Coq Require Import String Ascii ZArith Lia Permutation Sorted.
From Verif.Model Require Import Base Sort Dataset TargetDatasets Arff.
From Verif.Lib Require Import ListLib DictLib SortLib StrLib.
From Verif.Spec Require Import DatasetSpec TargetSpec ArffSpec.
From Verif.Proofs Require Import DatasetA TargetDatasetsA TargetDatasetsB TargetDatasetsC LogTablesB LogTablesD ArffA ArffB ArffC ArffD ArffE ArffF ArffG ArffH.
Open Scope string_scope.
Open Scope list_scope.
Open Scope nat_scope.

(** The file of a MultiLabelDataset without attributes cannot be read either. *)
Lemma C106_only_labels : forall (I V : Type) (EI : Eq I) (EV : Eq V) (show : V -> string) (leb : V -> V -> bool) (h : heap I V (list string)) d labels it prefix relation,
  sub_history [] collect h (d, labels) -> Permutation it (insts d) -> it <> [] -> one_line relation -> cats d ++ nums d = [] ->
  (forall l, In l labels -> plain_name (prefix ++ l)) ->
  exists text, label_export show leb prefix relation h (d, labels) it = Ok text /\ create_from_arff text = Err IndexError /\
    forall ord order chosen, label_create ord order chosen text = Err IndexError.
Proof.
  intros I V EI EV show leb h d labels it prefix relation Hs Hit Hne Hr He Hpl.
  assert (L : labels = [] \/ labels <> []) by (destruct labels; [auto|right; discriminate]). destruct L as [->|L].
  { apply C106_no_labels; auto. apply no_names. auto. }
  destruct (sub_history_ok _ _ _ _ Hs) as [Hh _]. cbn [fst] in Hh. clear Hs. pose proof (history_inv _ _ _ Hh) as Hinv.
  unfold label_export. cbn [fst snd]. set (S := stable_sort String.leb labels).
  assert (HSp : Permutation S labels) by (apply sort_perm).
  assert (HSl : S <> []) by (intros Y; rewrite Y in HSp; apply Permutation_nil in HSp; congruence).
  set (ef := fun a => map (fun l => Bare (if mem l (match nth_error h a with Some x => target x | None => [] end) then "1" else "0")) S).
  set (extra := map (fun l => ((prefix ++ l)%string, Nominal [Bare "0"; Bare "1"])) S).
  destruct (unreadable show leb h d it (String.concat "" (map (fun l => attribute_line (prefix ++ l) "{0,1}") S))
    (fun x => "," ++ String.concat "," (map (fun l => if mem l (target x) then "1" else "0") S))%string
    extra ef relation) as (text & E1 & E2); auto.
  - apply no_names. auto.
  - apply lines_prefixed. reflexivity.
  - intros a x _ Ex. unfold ef. rewrite Ex, <- comma_line.
    + f_equal. f_equal. rewrite map_map. reflexivity.
    + intros Y. apply map_eq_nil in Y. auto.
  - unfold extra. rewrite map_map. cbn [fst]. intros n Hn. apply in_map_iff in Hn as (l & <- & Hl). apply Hpl. eapply Permutation_in; eauto.
  - unfold extra. intros n vs v Hv1 Hv2. apply in_map_iff in Hv1 as (l & Y & _). injection Y as _ <-. destruct Hv2 as [<-|[<-|[]]]; split; short_line.
  - intros a Ha. unfold ef, extra. rewrite !map_length. split; [intros Y; apply map_eq_nil in Y; auto|]. split; [auto|]. split; [congruence|].
    intros f Hf. apply in_map_iff in Hf as (l & <- & _). destruct (mem l _); (split; [|split]); short_line.
  - exists text. split; [exact E1|]. split; [exact E2|]. intros ord order chosen. unfold label_create. rewrite E2. reflexivity.
Qed.
(** Nor can that of a MultisetDataset, *)
Lemma C106_only_multisets : forall (I V : Type) (EI : Eq I) (EV : Eq V) (show : V -> string) (leb : V -> V -> bool) (h : heap I V (dict string nat)) d counts it prefix relation,
  sub_history no_multisets count_multiset h (d, counts) -> Permutation it (insts d) -> it <> [] -> one_line relation -> cats d ++ nums d = [] ->
  (forall l, In l (multiset_classes counts) -> plain_name (prefix ++ l)) ->
  exists text, multiset_export show leb prefix relation h (d, counts) it = Ok text /\
    forall ord order chosen, multiset_create ord order chosen text = Err IndexError.
Proof.
  intros I V EI EV show leb h d counts it prefix relation Hs Hit Hne Hr He Hpl.
  assert (L : multiset_classes counts = [] \/ multiset_classes counts <> []) by (destruct (multiset_classes counts); [auto|right; discriminate]). destruct L as [L|L].
  { apply C106_no_multiset_classes; auto. apply no_names. auto. }
  destruct (sub_history_ok _ _ _ _ Hs) as [Hh _]. cbn [fst] in Hh. clear Hs. pose proof (history_inv _ _ _ Hh) as Hinv.
  unfold multiset_export. cbn [fst snd]. set (S := stable_sort String.leb (multiset_classes counts)).
  assert (HSp : Permutation S (multiset_classes counts)) by (apply sort_perm).
  assert (HSl : S <> []) by (intros Y; rewrite Y in HSp; apply Permutation_nil in HSp; congruence).
  set (ef := fun a => map (fun l => Bare (str_nat (count_of l (match nth_error h a with Some x => target x | None => [] end)))) S).
  set (extra := map (fun l => ((prefix ++ l)%string, Numeric)) S).
  destruct (unreadable show leb h d it (String.concat "" (map (fun l => attribute_line (prefix ++ l) "NUMERIC") S))
    (fun x => "," ++ String.concat "," (map (fun l => str_nat (count_of l (target x))) S))%string
    extra ef relation) as (text & E1 & E2); auto.
  - apply no_names. auto.
  - apply lines_prefixed. reflexivity.
  - intros a x _ Ex. unfold ef. rewrite Ex, <- comma_line.
    + f_equal. f_equal. rewrite map_map. reflexivity.
    + intros Y. apply map_eq_nil in Y. auto.
  - unfold extra. rewrite map_map. cbn [fst]. intros n Hn. apply in_map_iff in Hn as (l & <- & Hl). apply Hpl. eapply Permutation_in; eauto.
  - unfold extra. intros n vs v Hv1 Hv2. apply in_map_iff in Hv1 as (l & Y & _). discriminate.
  - intros a Ha. unfold ef, extra. rewrite !map_length. split; [intros Y; apply map_eq_nil in Y; auto|]. split; [auto|]. split; [congruence|].
    intros f Hf. apply in_map_iff in Hf as (l & <- & _). cbn [plain_field]. change (str_nat ?n) with (nat_text n).
    match goal with |- one_line (nat_text ?n) /\ _ => set (k := n) end.
    assert (Hdig : forall c, In c (chars (nat_text k)) -> digit c) by apply nat_text_digits.
    split; [|split].
    + intros c Hc. apply Hdig in Hc. apply digit_facts in Hc. tauto.
    + intros Hc. apply Hdig in Hc. apply digit_facts in Hc. tauto.
    + intros Hc. apply Hdig in Hc. apply digit_facts in Hc. tauto.
  - exists text. split; [exact E1|]. intros ord order chosen. unfold multiset_create. rewrite E2. reflexivity.
Qed.
(** or that of a TargetSequenceDataset. *)
Lemma C106_only_sequences : forall (I V : Type) (EI : Eq I) (EV : Eq V) (show : V -> string) (leb : V -> V -> bool) (h : heap I V (list string)) d symbols it name separator relation,
  sub_history [] collect h (d, symbols) -> Permutation it (insts d) -> it <> [] -> one_line relation -> cats d ++ nums d = [] ->
  plain_name name -> (forall s, In s (separator :: symbols) -> plain_value s) ->
  exists text, sequence_export show leb name separator relation h (d, symbols) it = Ok text /\
    forall order, sequence_create order name text = Err IndexError.
Proof.
  intros I V EI EV show leb h d symbols it name separator relation Hs Hit Hne Hr He Hn Hsym.
  destruct (C85_labels _ _ _ _ _ _ _ _ _ Hs) as [_ Hls]. destruct (sub_history_ok _ _ _ _ Hs) as [Hh _]. cbn [fst] in Hh. clear Hs. pose proof (history_inv _ _ _ Hh) as Hinv.
  destruct (C86_unique_sequences _ _ _ _ _ _ _ _ _ Hh Hit) as (u & Eu & _ & Hu).
  unfold sequence_export. rewrite Eu. cbn [bind fst]. set (S := map (sequence_text separator) (stable_sort tuple_leb u)).
  assert (Hseq : forall t a x, member h d a x -> target x = t -> forall s, In s t -> In s symbols) by (intros t a x Hm <- s Hs; apply Hls; eauto).
  assert (Hfree : forall t, (forall s, In s t -> In s symbols) -> plain_value (sequence_text separator t)).
  { intros t Ht. destruct (Hsym separator) as (P1 & P2 & P3); [left; auto|]. assert (Hs2 : forall s, In s t -> plain_value s) by (intros s Hs; apply Hsym; right; auto).
    unfold sequence_text. split; [|split].
    - rewrite !one_line_app. split; [|split]; try short_line. apply one_line_concat; auto. intros s Hs. apply (Hs2 s). auto.
    - rewrite !lacks_app. split; [|split]; try short_line. apply lacks_joined; auto. intros s Hs. apply (Hs2 s). auto.
    - rewrite !lacks_app. split; [|split]; try short_line. apply lacks_joined; auto. intros s Hs. apply (Hs2 s). auto. }
  set (ef := fun a => [Quoted (sequence_text separator (match nth_error h a with Some x => target x | None => [] end))]).
  destruct (unreadable show leb h d it (attribute_line name (category S)) (fun x => "," ++ quote (sequence_text separator (target x)))%string
     [(name, Nominal (map Quoted S))] ef relation) as (text & E1 & E2); auto.
  - apply no_names. auto.
  - cbn [map String.concat]. rewrite category_text. reflexivity.
  - intros a x _ Ex. unfold ef. rewrite Ex. reflexivity.
  - cbn [map fst]. intros n [<-|[]]. auto.
  - intros n vs v [Y|[]] Hv. assert (Evs : vs = map Quoted S) by congruence. subst vs. apply in_map_iff in Hv as (l & <- & Hl).
    unfold S in Hl. apply in_map_iff in Hl as (t & <- & Ht). apply sort_In in Ht. apply Hu in Ht as (a & x & Hm & Et).
    destruct (Hfree t) as (L1 & L2 & L3); [eapply Hseq; eauto|]. split; auto.
  - intros a Ha. unfold ef. split; [discriminate|]. split; [auto|]. split; [congruence|]. intros f [<-|[]]. assert (Ha' : In a (insts d)) by (eapply Permutation_in; eauto).
    destruct (v_valid _ _ _ Hinv a Ha') as [x Ex]. rewrite Ex. destruct (Hfree (target x)) as (L1 & L2 & L3); [apply (Hseq _ a x); [split|]; auto|]. split; auto.
  - exists text. split; [exact E1|]. intros order. unfold sequence_create. rewrite E2. reflexivity.
Qed.
