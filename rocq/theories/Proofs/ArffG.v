(** Datasets with a target: the theorems *)
From Coq Require Import String Ascii ZArith Lia Permutation Sorted.
From Verif.Model Require Import Base Sort Dataset TargetDatasets Arff.
From Verif.Lib Require Import ListLib DictLib SortLib StrLib.
From Verif.Spec Require Import DatasetSpec TargetSpec ArffSpec.
From Verif.Proofs Require Import DatasetA TargetDatasetsA TargetDatasetsB TargetDatasetsC LogTablesB LogTablesD ArffA ArffB ArffC ArffD ArffE ArffF.
Open Scope string_scope.
Open Scope list_scope.
Open Scope nat_scope.

Lemma names_keys {I V T : Type} {EI : Eq I} {EV : Eq V} (h : heap I V T) d : inv true h d -> forall n, In n (keys (attrs d)) <-> In n (cats d ++ nums d).
Proof.
  intros Hi n. split; [|apply (v_fresh _ _ _ Hi eq_refl)]. intros X. apply dict_get_key in X as [w Ew]. apply (v_lists _ _ _ Hi) in Ew. apply in_app_iff. destruct (akind w); auto.
Qed.
Section G.
  Context {I V T : Type} {EI : Eq I} {EV : Eq V}.
  Variable show : V -> string.
  Variable leb : V -> V -> bool.
  Notation heap := (heap I V T).
  Lemma written (h : heap) d it definitions line extra extra_fields relation :
    history true h d -> Permutation it (insts d) -> one_line relation -> plain_dataset show h d -> cats d ++ nums d <> [] ->
    definitions = String.concat "" (map (fun a => lf ++ attribute_text a)%string extra) ->
    (forall a x, In a it -> nth_error h a = Some x -> line x = comma_fields (extra_fields a)) ->
    (forall n, In n (map fst extra) -> plain_name n /\ ~ In n (cats d ++ nums d)) -> NoDup (map fst extra) ->
    (forall n vs v, In (n, Nominal vs) extra -> In v vs -> plain_category (field_value v)) ->
    (forall a, In a it -> length (extra_fields a) = length extra /\ forall f, In f (extra_fields a) -> plain_field f) ->
    exists text h' d', export_with show leb definitions line relation h d it = Ok text /\ create_from_arff text = Ok (h', d') /\ history true h' d' /\
      length h' = length it /\
      cats d' = cats d ++ map fst (filter is_nominal extra) /\ nums d' = nums d ++ map fst (filter (fun a => negb (is_nominal a)) extra) /\
      insts d' = seq 0 (length it) /\
      forall i a, nth_error it i = Some a -> exists x, nth_error h' i = Some x /\ iid x = i /\
        (forall n, ~ In n (map fst extra) -> dict_get n (feats x) = option_map (fun v => Text (show v)) (value h a n)) /\
        (forall k n, nth_error (map fst extra) k = Some n -> dict_get n (feats x) = option_map (fun f => Text (field_value f)) (nth_error (extra_fields a) k)).
  Proof.
    intros Hh Hit Hr Hp Hne Hdef Hline Hx Hnd Hc Hf. set (doc := document_of show leb extra extra_fields relation h d it).
    assert (Hpl : plain doc) by (apply plain_document; auto). destruct (C105_documents doc Hpl) as (h' & d' & E & R).
    exists (text_of doc), h', d'. split; [apply export_document; auto|]. split; auto. split; [apply R|].
    split; [rewrite (r_length _ _ _ R); unfold doc; cbn [document_of rows]; apply map_length|].
    eapply document_values; eauto. intros n Hn. apply Hx in Hn. tauto.
  Qed.
End G.

Lemma new_start {T X} (x0 : X) (upd : T -> X -> X) cs ns : NoDup (cs ++ ns) ->
  sub_history (I := nat) (V := read_value) x0 upd [] (new cs ns, x0) /\ cats (new cs ns : dataset read_value) = cs /\ nums (new cs ns : dataset read_value) = ns /\ insts (new cs ns : dataset read_value) = [].
Proof.
  intros Hn. assert (Hp : proper ([] : heap nat read_value T)) by (intros [|b] y; discriminate).
  split; [constructor; auto|]. destruct (new_ok (V := read_value) cs ns) as (A & B & C & _). auto.
Qed.

Section C.
  Context {I V T T2 X : Type} {EI : Eq I} {EV : Eq V}.
  Variable show : V -> string.
  Variables (x0 : X) (upd : T2 -> X -> X) (make : dict string read_value -> result (dict string read_value * T2)) (same : T -> T2 -> Prop).
  Lemma restore (h : heap I V T) d it (h' : heap nat read_value unit) st order :
    history true h d -> Permutation it (insts d) ->
    sub_history (I := nat) x0 upd [] (st, x0) -> insts st = [] -> Permutation (cats st) (cats d) -> Permutation (nums st) (nums d) ->
    Permutation order (seq 0 (length it)) ->
    (forall i a x, nth_error it i = Some a -> nth_error h a = Some x -> exists y fs t, nth_error h' i = Some y /\ iid y = i /\ make (feats y) = Ok (fs, t) /\
       NoDup (keys fs) /\ (forall n, dict_get n fs = option_map (fun v => Text (show v)) (value h a n)) /\ same (target x) t) ->
    exists h2 D2, convert x0 upd make h' st order = Ok (h2, D2) /\ sub_history x0 upd h2 D2 /\ restored show same h d it h2 (fst D2).
  Proof.
    intros Hh Hit Hst Hsi Hc Hn Ho Hm. pose proof (history_inv _ _ _ Hh) as Hinv.
    destruct (sub_history_ok _ _ _ _ Hst) as [Hs0 _]. apply history_inv in Hs0. cbn [fst] in Hs0.
    pose proof (names_keys _ _ Hs0) as Hkeys. pose proof (names_keys _ _ Hinv) as Hkeys'.
    assert (Hall : forall i, i < length it -> exists a x, nth_error it i = Some a /\ nth_error h a = Some x /\ In a (insts d)).
    { intros i Hi. destruct (nth_error_lt it i Hi) as [a Ea]. assert (Ha : In a (insts d)) by (eapply Permutation_in; eauto; eapply nth_error_In; eauto).
      destruct (v_valid _ _ _ Hinv a Ha) as [x Ex]. eauto. }
    destruct (convert_ok x0 upd make h' st order) as (h2 & D2 & E & H1 & H2 & H3 & H4 & H5 & H6); auto.
    { eapply Permutation_NoDup; [apply Permutation_sym; exact Ho|apply seq_NoDup]. }
    { intros i Hi. apply (Permutation_in _ Ho) in Hi. apply in_seq in Hi. destruct (Hall i) as (a & x & Ea & Ex & Ha); [lia|].
      destruct (Hm i a x Ea Ex) as (y & fs & t & Ey & Eid & Emk & Hk & Hv & _). exists y, fs, t. do 4 (split; [assumption|]).
      intros n. rewrite keys_get, Hv. rewrite (Hkeys n). assert (Ec : In n (cats st ++ nums st) <-> In n (cats d ++ nums d)).
      { rewrite !in_app_iff. split; intros [Z|Z]; [left|right|left|right]; (eapply Permutation_in; [|exact Z]); auto using Permutation_sym. }
      rewrite Ec, <- (Hkeys' n). unfold value. rewrite Ex. rewrite <- (v_feats _ _ _ Hinv a x (conj Ha Ex) n), keys_get. destruct (dict_get n (feats x)); cbn; split; congruence. }
    exists h2, D2. split; auto. split; auto. constructor.
    - rewrite H2. auto.
    - rewrite H3. auto.
    - rewrite H4, seq_length, (Permutation_length Ho), seq_length. auto.
    - intros i a x Ea Ex. pose proof (nth_error_Some_lt _ _ _ Ea) as Hi.
      assert (Hio : In i order) by (eapply Permutation_in; [apply Permutation_sym; exact Ho|]; apply in_seq; lia). apply In_nth_error in Hio as [j Ej].
      destruct (H6 j i Ej) as (y & fs & t & Ey & Emk & E2). destruct (Hm i a x Ea Ex) as (y' & fs' & t' & Ey' & _ & Emk' & _ & Hv & Hs).
      assert (Z : Some y = Some y') by congruence. injection Z as <-. assert (Z : (Ok (fs, t) : result _) = Ok (fs', t')) by congruence. injection Z as <- <-.
      exists j. eexists. split; [split; [rewrite H4; apply in_seq; apply nth_error_Some_lt in Ej; lia|exact E2]|]. cbn. auto.
  Qed.
End C.

Lemma disjoint_NoDup {X} (l m : list X) : NoDup l -> NoDup m -> (forall x, In x l -> ~ In x m) -> NoDup (l ++ m).
Proof. induction l as [|x l IH]; intros Hl Hm Hd; auto. inversion Hl; subst. cbn. constructor; [rewrite in_app_iff; intros [?|?]; [auto|eapply Hd; [left; reflexivity|auto]]|apply IH; auto; intros y Hy; apply Hd; right; auto]. Qed.
Lemma raw_names_NoDup {T} (h : heap nat read_value T) d : history true h d -> NoDup (cats d ++ nums d).
Proof. intros Hh. apply history_inv in Hh. apply (v_fresh _ _ _ Hh eq_refl). Qed.
Lemma NoDup_parts {X} (l m : list X) : NoDup (l ++ m) -> NoDup l /\ NoDup m /\ forall x, In x l -> ~ In x m.
Proof.
  induction l as [|x l IH]; cbn; intros Hd; [repeat split; auto; constructor|]. inversion Hd as [|? ? Hx Hr]; subst. destruct (IH Hr) as (A & B & C). rewrite in_app_iff in Hx.
  split; [constructor; tauto|]. split; auto. intros y [<-|Hy]; [tauto|auto].
Qed.
Lemma prefixed_NoDup p (l : list string) : NoDup l -> NoDup (map (append p) l).
Proof. intros Hn. apply FinFun.Injective_map_NoDup; auto. intros a b E. apply app_str_inj in E. auto. Qed.

Ltac short_line := first [solve [apply one_line_cons; split; [ascii_line|apply one_line_nil]] | ascii_line].
Lemma start_ok {T X} (x0 : X) (upd : T -> X -> X) ord (raw : dataset read_value) cs ns more1 more2 chosen : (forall l, Permutation (ord l) l) ->
  cats raw = cs ++ more1 -> nums raw = ns ++ more2 -> NoDup (cats raw ++ nums raw) ->
  (forall n, In n chosen <-> In n (more1 ++ more2)) ->
  exists st, new (difference ord (cats raw) chosen) (difference ord (nums raw) chosen) = st /\ sub_history (I := nat) x0 upd [] (st, x0) /\ insts st = [] /\
    Permutation (cats st) cs /\ Permutation (nums st) ns.
Proof.
  intros Ho E1 E2 Hn Hch. destruct (NoDup_parts _ _ Hn) as (N1 & N2 & N3). rewrite E1 in N1. rewrite E2 in N2. destruct (NoDup_parts _ _ N1) as (A1 & A2 & A3). destruct (NoDup_parts _ _ N2) as (B1 & B2 & B3).
  assert (P1 : Permutation (difference ord (cats raw) chosen) cs).
  { apply difference_perm; auto; [rewrite E1; auto|]. intros n. specialize (Hch n). specialize (A3 n). specialize (N3 n). rewrite E1, E2 in *. rewrite !in_app_iff in *. tauto. }
  assert (P2 : Permutation (difference ord (nums raw) chosen) ns).
  { apply difference_perm; auto; [rewrite E2; auto|]. intros n. specialize (Hch n). specialize (B3 n). specialize (N3 n). rewrite E1, E2 in *. rewrite !in_app_iff in *. tauto. }
  destruct (new_start (T := T) x0 upd (difference ord (cats raw) chosen) (difference ord (nums raw) chosen)) as (S1 & S2 & S3 & S4).
  - eapply Permutation_NoDup; [apply Permutation_sym; apply Permutation_app; [exact P1|exact P2]|]. apply disjoint_NoDup; auto. intros n Y1 Y2. apply (N3 n); rewrite ?E1, ?E2, in_app_iff; auto.
  - eexists. split; [reflexivity|]. rewrite S2, S3. auto.
Qed.
Lemma lines_prefixed p dom domain_string : domain_string = domain_text dom -> forall ls : list string,
  String.concat "" (map (fun l => attribute_line (p ++ l) domain_string) ls) =
  String.concat "" (map (fun a => lf ++ attribute_text a)%string (map (fun l => ((p ++ l)%string, dom)) ls)).
Proof. intros -> ls. rewrite map_map. f_equal. Qed.
Lemma category_text (ls : list string) : category ls = domain_text (Nominal (map Quoted ls)).
Proof. unfold category, domain_text. rewrite map_map. reflexivity. Qed.

(*P C106 Files of datasets with a target *)
(** The file of a ClassificationDataset has one more categorical attribute,
    whose value is the class of the instance. *)
Lemma C106_classes : forall (I V : Type) (EI : Eq I) (EV : Eq V) (show : V -> string) (leb : V -> V -> bool) (h : heap I V string) d c since asked it name relation,
  class_history h (d, c) since asked -> Permutation it (insts d) -> one_line relation -> plain_dataset show h d -> cats d ++ nums d <> [] ->
  plain_name name -> ~ In name (cats d ++ nums d) -> (forall l, In l (get_set_of_classes c) -> plain_value l) ->
  exists text h' d', class_export show leb name relation h (d, c) it = Ok text /\ create_from_arff text = Ok (h', d') /\ history true h' d' /\
    cats d' = cats d ++ [name] /\ nums d' = nums d /\ insts d' = seq 0 (length it) /\
    forall i a x, nth_error it i = Some a -> nth_error h a = Some x -> exists y, nth_error h' i = Some y /\ iid y = i /\
      dict_get name (feats y) = Some (Text (target x)) /\
      forall n, n <> name -> dict_get n (feats y) = option_map (fun v => Text (show v)) (value h a n).
Proof.
  intros I V EI EV show leb h d c since asked it name relation Hc Hit Hr Hp Hne Hn1 Hn2 Hcl.
  pose proof (C84_set_of_classes _ _ _ _ _ _ _ _ _ _ _ Hc) as [_ Hcs]. apply class_history_inv in Hc. pose proof (c_hist _ _ _ _ _ Hc) as Hh. cbn [fst] in Hh. clear Hc.
  pose proof (history_inv _ _ _ Hh) as Hinv.
  set (ef := fun a => [Quoted (match nth_error h a with Some x => target x | None => "" end)]).
  destruct (written show leb h d it (attribute_line name (category (stable_sort String.leb (get_set_of_classes c)))) (fun x => "," ++ quote (target x))%string
     [(name, Nominal (map Quoted (stable_sort String.leb (get_set_of_classes c))))] ef relation) as (text & h' & d' & E1 & E2 & E3 & _ & E4 & E5 & E6 & E7); auto.
  - cbn [map String.concat]. rewrite category_text. reflexivity.
  - intros a x _ Ex. unfold ef. rewrite Ex. reflexivity.
  - cbn [map fst]. intros n [<-|[]]. auto.
  - repeat constructor. cbn. tauto.
  - intros n vs v [Y|[]] Hv. assert (Evs : vs = map Quoted (stable_sort String.leb (get_set_of_classes c))) by congruence. subst vs.
    apply in_map_iff in Hv as (l & <- & Hl). apply sort_In in Hl. apply Hcl in Hl. destruct Hl as (L1 & L2 & L3). split; auto.
  - intros a Ha. split; [reflexivity|]. unfold ef. intros f [<-|[]]. assert (Ha' : In a (insts d)) by (eapply Permutation_in; eauto).
    destruct (v_valid _ _ _ Hinv a Ha') as [x Ex]. rewrite Ex. destruct (Hcl (target x)) as (L1 & L2 & L3); [|split; auto]. apply Hcs. right. exists a, x. split; [split; auto|auto].
  - exists text, h', d'. split; auto. split; auto. split; auto. split; auto. split; [rewrite E5; apply app_nil_r|]. split; auto.
    intros i a x Ea Ex. destruct (E7 i a Ea) as (y & Ey & Eid & F1 & F2). exists y. split; auto. split; auto. split.
    + rewrite (F2 0 name eq_refl). unfold ef. rewrite Ex. reflexivity.
    + intros n Hn. apply F1. cbn. intros [Z|[]]. congruence.
Qed.

(*P C106 Files of datasets with a target *)
(** A MultiLabelDataset is read back with the same features (as text) and the
    same label sets, with the prefix in front of the labels, whatever order
    the sets of names and the instances of the file are iterated in. *)
Lemma C106_labels : forall (I V : Type) (EI : Eq I) (EV : Eq V) (show : V -> string) (leb : V -> V -> bool) (h : heap I V (list string)) d labels it prefix relation
    (ord : list string -> list string) (order : list nat -> list nat) chosen,
  sub_history [] collect h (d, labels) -> Permutation it (insts d) -> one_line relation -> plain_dataset show h d -> cats d ++ nums d <> [] ->
  labels <> [] -> (forall l, In l labels -> plain_name (prefix ++ l) /\ ~ In (prefix ++ l)%string (cats d ++ nums d)) ->
  (forall l, Permutation (ord l) l) -> (forall l, Permutation (order l) l) -> Permutation chosen (map (append prefix) labels) ->
  exists text h2 D2, label_export show leb prefix relation h (d, labels) it = Ok text /\ label_create ord order chosen text = Ok (h2, D2) /\
    sub_history [] collect h2 D2 /\
    restored show (fun t t2 => forall l2, In l2 t2 <-> exists l, l2 = (prefix ++ l)%string /\ In l t) h d it h2 (fst D2).
Proof.
  intros I V EI EV show leb h d labels it prefix relation ord order chosen Hs Hit Hr Hp Hne Hlne Hpl Hord Hioo Hch.
  destruct (C85_labels _ _ _ _ _ _ _ _ _ Hs) as [Hnd Hls]. destruct (sub_history_ok _ _ _ _ Hs) as [Hh _]. cbn [fst] in Hh. clear Hs. pose proof (history_inv _ _ _ Hh) as Hinv.
  set (S := stable_sort String.leb labels).
  assert (HSp : Permutation S labels) by (apply sort_perm).
  assert (HSn : forall n, In n chosen <-> In n (map (append prefix) S)).
  { intros n. assert (HP : Permutation chosen (map (append prefix) S)) by (eapply perm_trans; [exact Hch|]; apply Permutation_map, Permutation_sym; auto).
    split; intros Y; (eapply Permutation_in; [|exact Y]); auto using Permutation_sym. }
  set (ef := fun a => map (fun l => Bare (if mem l (match nth_error h a with Some x => target x | None => [] end) then "1" else "0")) S).
  set (extra := map (fun l => ((prefix ++ l)%string, Nominal [Bare "0"; Bare "1"])) S).
  assert (Hex : map fst extra = map (append prefix) S) by (unfold extra; rewrite map_map; reflexivity).
  assert (Hnom : map fst (filter is_nominal extra) = map (append prefix) S /\ map fst (filter (fun a => negb (is_nominal a)) extra) = []).
  { unfold extra. clear. induction S as [|l S [IH1 IH2]]; [split; reflexivity|]. cbn. rewrite IH1, IH2. auto. }
  destruct Hnom as [Hnom1 Hnom2].
  destruct (written show leb h d it (String.concat "" (map (fun l => attribute_line (prefix ++ l) "{0,1}") S))
    (fun x => "," ++ String.concat "," (map (fun l => if mem l (target x) then "1" else "0") S))%string
    extra ef relation) as (text & h' & d' & E1 & E2 & E3 & _ & E4 & E5 & E6 & E7); auto.
  - apply lines_prefixed. reflexivity.
  - intros a x _ Ex. unfold ef. rewrite Ex, <- comma_line.
    + f_equal. f_equal. rewrite map_map. reflexivity.
    + intros Y. apply map_eq_nil in Y. rewrite Y in HSp. apply Permutation_nil in HSp. congruence.
  - rewrite Hex. intros n Hn. apply in_map_iff in Hn as (l & <- & Hl). apply Hpl. eapply Permutation_in; eauto.
  - rewrite Hex. apply prefixed_NoDup. eapply Permutation_NoDup; [apply Permutation_sym; exact HSp|auto].
  - unfold extra. intros n vs v Hv1 Hv2. apply in_map_iff in Hv1 as (l & Y & _). injection Y as _ <-. destruct Hv2 as [<-|[<-|[]]]; split; short_line.
  - intros a Ha. unfold ef, extra. rewrite !map_length. split; auto. intros f Hf. apply in_map_iff in Hf as (l & <- & _).
    destruct (mem l _); (split; [|split]); short_line.
  - rewrite Hnom1 in E4. rewrite Hnom2 in E5. exists text.
    assert (Hraw : NoDup (cats d' ++ nums d')) by (eapply raw_names_NoDup; eauto).
    destruct (start_ok (T := list string) [] collect ord d' _ _ _ _ chosen Hord E4 E5 Hraw) as (st & Est & Hst & Hsi & Hsc & Hsn).
    { intros n. rewrite app_nil_r. apply HSn. }
    unfold label_create. rewrite E2. cbn [bind fst snd]. rewrite Est.
    match goal with |- exists h2 D2, _ /\ convert _ _ ?m _ _ _ = _ /\ _ => set (make := m) end.
    destruct (restore (T := list string) show [] collect make (fun t t2 => forall l2, In l2 t2 <-> exists l, l2 = (prefix ++ l)%string /\ In l t) h d it h' st (order (insts d')))
      as (h2 & D2 & F1 & F2 & F3); auto.
    { rewrite <- E6. apply Hioo. }
    { intros i a x Ea Ex. destruct (E7 i a Ea) as (y & Ey & Eid & G1 & G2). exists y, (without chosen (feats y)).
      assert (Hlab : forall l, In l S -> dict_get (prefix ++ l)%string (feats y) = Some (Text (if mem l (target x) then "1" else "0"))).
      { intros l Hl. apply In_nth_error in Hl as [k Ek]. rewrite (G2 k (prefix ++ l)%string) by (rewrite Hex, nth_error_map, Ek; reflexivity).
        unfold ef. rewrite nth_error_map, Ek, Ex. reflexivity. }
      set (bit := fun n => match dict_get n (feats y) with Some v => eqb v (Number 1) || eqb v (Text "1") | None => false end).
      exists (set_of (map fst (filter snd (map (fun n => (n, bit n)) chosen)))). split; auto. split; auto. split.
      { unfold make. rewrite (mapM_map _ (fun n => (n, bit n))); [reflexivity|]. intros n Hn. apply HSn in Hn. apply in_map_iff in Hn as (l & <- & Hl).
        unfold bit. rewrite (Hlab l Hl). reflexivity. }
      assert (Hny : NoDup (keys (feats y))) by (apply (v_proper _ _ _ (history_inv _ _ _ E3) i y Ey)).
      split; [apply keys_without_NoDup; auto|]. split.
      - intros n. rewrite dict_get_without. assert (Hmem : mem n chosen = true <-> In n (map (append prefix) S)) by (rewrite (mem_In n chosen); apply HSn).
        destruct (mem n chosen).
        + assert (Hin : In n (map (append prefix) S)) by (apply Hmem; auto). apply in_map_iff in Hin as (l & <- & Hl). symmetry. unfold value. rewrite Ex.
          rewrite (proj2 (dict_get_None _ _)); [reflexivity|]. intros Y. apply (v_feats _ _ _ Hinv a x) in Y; [|split; auto; eapply Permutation_in; eauto; eapply nth_error_In; eauto].
          apply (names_keys _ _ Hinv) in Y. destruct (Hpl l) as [_ Z]; auto. eapply Permutation_in; eauto.
        + apply G1. rewrite Hex. intros Y. apply Hmem in Y. discriminate.
      - intros l2. rewrite set_of_In, in_map_iff. split.
        + intros ([n b] & <- & Hn). cbn [fst]. apply filter_In in Hn as [Hn Hb]. cbn [snd] in Hb. subst b. apply in_map_iff in Hn as (n' & Y & Hn). injection Y as -> Hb.
          apply HSn in Hn. apply in_map_iff in Hn as (l & <- & Hl). exists l. split; auto. unfold bit in Hb. rewrite (Hlab l Hl) in Hb.
          destruct (mem l (target x)) eqn:Em; [apply mem_In; auto|discriminate].
        + intros (l & -> & Hl). exists ((prefix ++ l)%string, true). split; auto. apply filter_In. split; auto.
          assert (HlS : In l S) by (eapply Permutation_in; [apply Permutation_sym; exact HSp|]; apply Hls; exists a, x; split; auto; split; auto; eapply Permutation_in; eauto; eapply nth_error_In; eauto).
          apply in_map_iff. exists (prefix ++ l)%string. split; [|apply HSn, in_map; auto]. f_equal. unfold bit. rewrite (Hlab l HlS).
          apply mem_In in Hl. rewrite Hl. reflexivity. }
    exists h2, D2. split; [exact E1|]. split; auto.
Qed.

Lemma foldM_set (f : string -> result nat) (g : string -> nat) l : (forall n, In n l -> f n = Ok (g n)) -> forall m : dict string nat, exists r,
  foldM (fun m n => do z <- f n ; Ok (dict_set n z m)) l m = Ok r /\
  forall n, dict_get n r = if mem n l then Some (g n) else dict_get n m.
Proof.
  induction l as [|x l IH]; intros Hf m; [exists m; split; auto|]. cbn [foldM]. rewrite (Hf x) by (left; auto). cbn [bind].
  destruct (IH (fun n Hn => Hf n (or_intror Hn)) (dict_set x (g x) m)) as (r & E & Hr). exists r. split; auto. intros n. rewrite Hr. cbn [mem existsb]. fold (mem n l).
  rewrite dict_get_set. destruct (mem n l); [rewrite orb_true_r; reflexivity|]. rewrite orb_false_r. destruct (eqb_ok n x) as [->|Hn]; reflexivity.
Qed.

(*P C106 Files of datasets with a target *)
(** A MultisetDataset is read back with the same features (as text) and the
    same counts: each multiset that is read lists every class of the dataset,
    also those with count 0. *)
Lemma C106_multisets : forall (I V : Type) (EI : Eq I) (EV : Eq V) (show : V -> string) (leb : V -> V -> bool) (h : heap I V (dict string nat)) d counts it prefix relation
    (ord : list string -> list string) (order : list nat -> list nat) chosen,
  sub_history no_multisets count_multiset h (d, counts) -> Permutation it (insts d) -> one_line relation -> plain_dataset show h d -> cats d ++ nums d <> [] ->
  multiset_classes counts <> [] -> (forall l, In l (multiset_classes counts) -> plain_name (prefix ++ l) /\ ~ In (prefix ++ l)%string (cats d ++ nums d)) ->
  (forall l, Permutation (ord l) l) -> (forall l, Permutation (order l) l) -> Permutation chosen (map (append prefix) (multiset_classes counts)) ->
  exists text h2 D2, multiset_export show leb prefix relation h (d, counts) it = Ok text /\ multiset_create ord order chosen text = Ok (h2, D2) /\
    sub_history no_multisets count_multiset h2 D2 /\
    restored show (fun t t2 => (forall l, In l (multiset_classes counts) -> dict_get (prefix ++ l)%string t2 = Some (count_of l t)) /\
      forall l2, In l2 (keys t2) -> In l2 chosen) h d it h2 (fst D2).
Proof.
  intros I V EI EV show leb h d counts it prefix relation ord order chosen Hs Hit Hr Hp Hne Hlne Hpl Hord Hioo Hch.
  destruct (C85_multiset_classes _ _ _ _ _ _ _ _ _ Hs) as [Hnd Hls]. destruct (sub_history_ok _ _ _ _ Hs) as [Hh _]. cbn [fst] in Hh. clear Hs. pose proof (history_inv _ _ _ Hh) as Hinv.
  unfold multiset_export. cbn [fst snd]. set (labels := multiset_classes counts) in *.
  set (S := stable_sort String.leb labels).
  assert (HSp : Permutation S labels) by (apply sort_perm).
  assert (HSn : forall n, In n chosen <-> In n (map (append prefix) S)).
  { intros n. assert (HP : Permutation chosen (map (append prefix) S)) by (eapply perm_trans; [exact Hch|]; apply Permutation_map, Permutation_sym; auto).
    split; intros Y; (eapply Permutation_in; [|exact Y]); auto using Permutation_sym. }
  set (ef := fun a => map (fun l => Bare (str_nat (count_of l (match nth_error h a with Some x => target x | None => [] end)))) S).
  set (extra := map (fun l => ((prefix ++ l)%string, Numeric)) S).
  assert (Hex : map fst extra = map (append prefix) S) by (unfold extra; rewrite map_map; reflexivity).
  assert (Hnom : map fst (filter is_nominal extra) = [] /\ map fst (filter (fun a => negb (is_nominal a)) extra) = map (append prefix) S).
  { unfold extra. clear. induction S as [|l S [IH1 IH2]]; [split; reflexivity|]. cbn. rewrite IH1, IH2. auto. }
  destruct Hnom as [Hnom1 Hnom2].
  destruct (written show leb h d it (String.concat "" (map (fun l => attribute_line (prefix ++ l) "NUMERIC") S))
    (fun x => "," ++ String.concat "," (map (fun l => str_nat (count_of l (target x))) S))%string
    extra ef relation) as (text & h' & d' & E1 & E2 & E3 & _ & E4 & E5 & E6 & E7); auto.
  - apply lines_prefixed. reflexivity.
  - intros a x _ Ex. unfold ef. rewrite Ex, <- comma_line.
    + f_equal. f_equal. rewrite map_map. reflexivity.
    + intros Y. apply map_eq_nil in Y. rewrite Y in HSp. apply Permutation_nil in HSp. congruence.
  - rewrite Hex. intros n Hn. apply in_map_iff in Hn as (l & <- & Hl). apply Hpl. eapply Permutation_in; eauto.
  - rewrite Hex. apply prefixed_NoDup. eapply Permutation_NoDup; [apply Permutation_sym; exact HSp|auto].
  - unfold extra. intros n vs v Hv1 Hv2. apply in_map_iff in Hv1 as (l & Y & _). discriminate.
  - intros a Ha. unfold ef, extra. rewrite !map_length. split; auto. intros f Hf. apply in_map_iff in Hf as (l & <- & _). cbn [plain_field]. change (str_nat ?n) with (nat_text n).
    match goal with |- one_line (nat_text ?n) /\ _ => set (k := n) end.
    assert (Hdig : forall c, In c (chars (nat_text k)) -> digit c) by apply nat_text_digits.
    split; [|split].
    + intros c Hc. apply Hdig in Hc. apply digit_facts in Hc. tauto.
    + intros Hc. apply Hdig in Hc. apply digit_facts in Hc. tauto.
    + intros Hc. apply Hdig in Hc. apply digit_facts in Hc. tauto.
  - rewrite Hnom1, app_nil_r in E4. rewrite Hnom2 in E5. rewrite <- (app_nil_r (cats d)) in E4. exists text.
    assert (Hraw : NoDup (cats d' ++ nums d')) by (eapply raw_names_NoDup; eauto).
    destruct (start_ok (T := dict string nat) no_multisets count_multiset ord d' _ _ _ _ chosen Hord E4 E5 Hraw) as (st & Est & Hst & Hsi & Hsc & Hsn).
    { intros n. apply HSn. }
    unfold multiset_create. rewrite E2. cbn [bind fst snd]. rewrite Est.
    match goal with |- exists h2 D2, _ /\ convert _ _ ?m _ _ _ = _ /\ _ => set (make := m) end.
    match goal with |- exists h2 D2, _ /\ _ /\ _ /\ restored _ ?s _ _ _ _ _ => set (same := s) end.
    destruct (restore (T := dict string nat) show no_multisets count_multiset make same h d it h' st (order (insts d')))
      as (h2 & D2 & F1 & F2 & F3); auto.
    { rewrite <- E6. apply Hioo. }
    { intros i a x Ea Ex. destruct (E7 i a Ea) as (y & Ey & Eid & G1 & G2). exists y, (without chosen (feats y)).
      assert (Hlab : forall l, In l S -> dict_get (prefix ++ l)%string (feats y) = Some (Text (nat_text (count_of l (target x))))).
      { intros l Hl. apply In_nth_error in Hl as [k Ek]. rewrite (G2 k (prefix ++ l)%string) by (rewrite Hex, nth_error_map, Ek; reflexivity).
        unfold ef. rewrite nth_error_map, Ek, Ex. reflexivity. }
      set (f := fun n => do v <- of_option KeyError (dict_get n (feats y)) ; do z <- int_of_value v ; Ok (Z.to_nat z)).
      set (g := fun n => match f n with Ok z => z | Err _ => 0 end).
      assert (Hf : forall l, In l S -> f (prefix ++ l)%string = Ok (count_of l (target x))).
      { intros l Hl. unfold f. rewrite (Hlab l Hl). cbn [of_option bind int_of_value]. rewrite int_of_nat_text. cbn [of_option bind]. rewrite Nat2Z.id. reflexivity. }
      destruct (foldM_set f g chosen) with (m := [] : dict string nat) as (m & Em & Hm).
      { intros n Hn. apply HSn in Hn. apply in_map_iff in Hn as (l & <- & Hl). unfold g. rewrite (Hf l Hl). reflexivity. }
      exists m. split; auto. split; auto. split.
      { unfold make. replace (foldM _ chosen []) with (Ok m); [reflexivity|]. rewrite <- Em. clear. generalize ([] : dict string nat). induction chosen as [|n l IH]; intros m; [reflexivity|].
        cbn [foldM]. unfold f at 1. destruct (dict_get n (feats y)) as [v|]; [|reflexivity]. cbn [of_option bind]. destruct (int_of_value v); [|reflexivity]. cbn [bind]. apply IH. }
      assert (Hny : NoDup (keys (feats y))) by (apply (v_proper _ _ _ (history_inv _ _ _ E3) i y Ey)).
      split; [apply keys_without_NoDup; auto|]. split; [|split].
      - intros n. rewrite dict_get_without. assert (Hmem : mem n chosen = true <-> In n (map (append prefix) S)) by (rewrite (mem_In n chosen); apply HSn).
        destruct (mem n chosen).
        + assert (Hin : In n (map (append prefix) S)) by (apply Hmem; auto). apply in_map_iff in Hin as (l & <- & Hl). symmetry. unfold value. rewrite Ex.
          rewrite (proj2 (dict_get_None _ _)); [reflexivity|]. intros Y. apply (v_feats _ _ _ Hinv a x) in Y; [|split; auto; eapply Permutation_in; eauto; eapply nth_error_In; eauto].
          apply (names_keys _ _ Hinv) in Y. destruct (Hpl l) as [_ Z]; auto. eapply Permutation_in; eauto.
        + apply G1. rewrite Hex. intros Y. apply Hmem in Y. discriminate.
      - intros l Hl. assert (HlS : In l S) by (eapply Permutation_in; [apply Permutation_sym; exact HSp|auto]).
        rewrite Hm, (proj2 (mem_In _ chosen)) by (apply HSn, in_map; auto). unfold g. rewrite (Hf l HlS). reflexivity.
      - intros l2 Hl2. apply keys_get in Hl2. rewrite Hm in Hl2. destruct (mem l2 chosen) eqn:Em2; [apply mem_In; auto|]. cbn in Hl2. congruence. }
    exists h2, D2. split; [exact E1|]. split; auto.
Qed.
