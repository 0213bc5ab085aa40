(** All files of a collector *)
From Coq Require Import String QArith Permutation Sorted.
From Verif.Model Require Import Base Sort TwoWayDict Statistics ResultCollector.
From Verif.Spec Require Import Moments ResultSpec.
From Verif.Lib Require Import ListLib DictLib SortLib.
From Verif.Proofs Require Import RcA RcB RcC RcD.
Open Scope string_scope.
Open Scope list_scope.
Open Scope nat_scope.

Lemma ticks_ok l : x_ticks (numbered l) = numbered l.
Proof.
  unfold x_ticks, numbered. assert (Q : forall i, stable_sort (fun a b => (fst a <=? fst b)%Z) (combine (map Z.of_nat (seq i (length l))) l) = combine (map Z.of_nat (seq i (length l))) l); [|apply Q].
  induction l as [|s l IH]; intros i; [auto|]. cbn [length seq map combine]. unfold stable_sort in *. cbn [fold_right]. rewrite IH. destruct l as [|s' l]; [auto|].
  cbn [length seq map combine sort_insert fst]. rewrite (proj2 (Z.leb_le _ _)) by lia. auto.
Qed.
Lemma existsb_map {A B} (f : A -> B) P l : existsb P (map f l) = existsb (fun a => P (f a)) l.
Proof. induction l as [|a l IH]; [auto|]. cbn. rewrite IH. auto. Qed.
Lemma existsb_ext' {A} (f g : A -> bool) l : (forall a, f a = g a) -> existsb f l = existsb g l.
Proof. intros E. induction l as [|a l IH]; [auto|]. cbn. rewrite E, IH. auto. Qed.
Lemma figures_ok m ks t : (Z.of_nat (length ks) < 2 ^ 63)%Z -> figures m (miner_table m ks (of_type t ks)) = variants m ks t.
Proof.
  intros S. unfold figures, variants, has_many. destruct m; [|auto]. rewrite M_eq, existsb_map.
  erewrite existsb_ext'; [reflexivity|]. intros n. cbn beta iota. rewrite X_eq, existsb_map. apply existsb_ext'. intros z. apply (clen_b Line ks t S).
Qed.
Lemma appended_app a b : appended (a ++ b) = appended a ++ appended b.
Proof. apply flat_map_app. Qed.
Lemma saved_app a b : saved (a ++ b) = saved a ++ saved b.
Proof. apply flat_map_app. Qed.
Lemma appended_map f l : appended (map (Appends f) l) = map (pair f) l.
Proof. induction l as [|e l IH]; [auto|]. cbn. f_equal. apply IH. Qed.
Lemma saved_map f l : saved (map (Appends f) l) = [].
Proof. induction l as [|e l IH]; [auto|]. apply IH. Qed.
(** a loop that makes effects *)
Lemma effects_loop {A B C} (f : A -> result (list effect)) (RA : B -> string * entry -> Prop) (RS : C -> string * plot -> Prop)
    (ga : A -> list B) (gs : A -> list C) l :
  (forall a, In a l -> exists es, f a = Ok es /\ Forall2 RA (ga a) (appended es) /\ Forall2 RS (gs a) (saved es)) ->
  exists ess, mapM f l = Ok ess /\ Forall2 RA (flat_map ga l) (appended (concat ess)) /\ Forall2 RS (flat_map gs l) (saved (concat ess)).
Proof.
  induction l as [|a l IH]; intros H.
  - exists []. repeat split; constructor.
  - destruct (H a (or_introl eq_refl)) as (es & E & H1 & H2). destruct IH as (ess & E' & H1' & H2'); [intros x Hx; apply H; right; auto|].
    exists (es :: ess). cbn [mapM]. rewrite E, E'. split; [auto|]. cbn [concat flat_map]. rewrite appended_app, saved_app. split; apply Forall2_app; auto.
Qed.

Section F.
  Variables (m : mode) (ops : list op) (x_name : string) (c : collector).
  Notation ks := (calls ops).
  Hypothesis small : (Z.of_nat (length ks) < 2 ^ 63)%Z.
  Hypothesis Hlab : rc_labels c = lab ks.
  Hypothesis Hcol : forall n, color_of c n = color_set ops n.
  Hypothesis Hmar : forall n, marker_of c n = marker_set ops n.
  Definition text_ok (tn : string * string) (fe : string * entry) : Prop :=
    fst fe = (fst tn ++ ".txt")%string /\ is_entry m ks x_name (fst tn) (snd tn) (snd fe).
  Lemma styles_ext t f g : (forall n, f n = g n) -> styles m ks t f = styles m ks t g.
  Proof. intros E. unfold styles. rewrite E, (map_ext f g) by auto. auto. Qed.
  Lemma type_ok t : In t (types ks) -> exists es, save_result_type m x_name c t (miner_table m ks (of_type t ks)) = Ok es /\
    Forall2 text_ok (map (pair t) (kept m ks t)) (appended es) /\
    Forall2 (is_figure m ops x_name) (flat_map (fun legend => map (fun v => (t, legend, v)) (variants m ks t)) [true; false]) (saved es).
  Proof.
    intros Ht. unfold save_result_type. destruct (plot_data_ok m ks t c Ht) as (n0 & Hn0 & E0). rewrite E0. cbn [bind]. rewrite (figures_ok m ks t small).
    set (f := map (fun n => (n, map snd (series m ks t n))) (kept m ks t)). set (md := miner_table m ks (of_type t ks)).
    assert (KF : keys f = kept m ks t) by (unfold f, keys; rewrite map_map; cbn [fst]; apply map_id).
    assert (V : forall sd se, In (sd, se) (variants m ks t) -> sd && se = false /\ (m = Scatter -> sd = false /\ se = false)).
    { intros sd se. unfold variants. destruct m; [destruct (has_many ks t)|]; cbn [In]; intros Q; repeat destruct Q as [Q|Q]; try (injection Q as <- <-); try contradiction; split; auto; discriminate. }
    assert (P : forall legend sd se, In (sd, se) (variants m ks t) -> exists es,
      save_plot m x_name t c md f (map fst (series m ks t n0)) (styles m ks t (color_of c)) (styles m ks t (marker_of c)) legend sd se = Ok es /\
      Forall2 text_ok (if sd || legend || se then [] else map (pair t) (kept m ks t)) (appended es) /\ Forall2 (is_figure m ops x_name) [(t, legend, (sd, se))] (saved es)).
    { intros legend sd se Hv. destruct (V sd se Hv) as [V1 V2]. unfold save_plot. rewrite KF.
      destruct (values_ok m ks t small x_name sd se (styles m ks t (color_of c)) V1 V2) as (bs & es & u & E & HE & HB & HU); [apply style_length; auto|]. fold md in E. rewrite E. cbn [bind].
      eexists. split; [reflexivity|]. rewrite appended_app, saved_app. cbn [appended saved flat_map app]. rewrite app_nil_r. split.
      - destruct (sd || legend || se); [constructor|]. change (appended (map (Appends (t ++ ".txt")%string) es)) with (appended (map (Appends (t ++ ".txt")%string) es)).
        rewrite appended_map. clear - HE. induction HE; cbn; constructor; auto. split; auto.
      - assert (S0 : saved (if sd || legend || se then [] else map (Appends (t ++ ".txt")%string) es) = []) by (destruct (sd || legend || se); [auto|apply saved_map]).
        fold (saved (if sd || legend || se then [] else map (Appends (t ++ ".txt")%string) es)). rewrite S0. cbn [app]. constructor; [|constructor].
        unfold is_figure. cbn [fst snd pl_columns pl_index pl_colors pl_markers pl_bars pl_ticks pl_unit pl_legend pl_xlabel pl_ylabel].
        split; [reflexivity|]. split.
        { split; cbn [pl_columns pl_index].
          - unfold f. apply Forall2_map_r. intros n Hn. split; [auto|]. cbn [snd]. exists (series m ks t n). split; [|auto]. apply series_ok; [auto|]. apply kept_In in Hn. auto.
          - exists n0, (series m ks t n0). split; [auto|]. split; [|auto]. apply series_ok; [auto|]. apply kept_In with (m := m). destruct (kept m ks t); [discriminate|]. injection Hn0 as <-. left. auto. }
        split; [apply styles_ext; auto|]. split; [apply styles_ext; auto|]. split.
        { exact HB. }
        split; [rewrite Hlab; unfold lab; rewrite lab_dict; apply ticks_ok|]. split; [|auto].
        rewrite HU. unfold f. split.
        + intros H n l q Hin Hq. apply in_map_iff in Hin. destruct Hin as (n' & Q & Hn). injection Q as <- <-. eauto.
        + intros H n q Hn Hq. eapply H; [|exact Hq]. apply in_map_iff. exists n. split; [reflexivity|auto]. }
    destruct (effects_loop (fun legend => do es <- mapM (fun '(sd, se) =>
          save_plot m x_name t c md f (map fst (series m ks t n0)) (styles m ks t (color_of c)) (styles m ks t (marker_of c)) legend sd se) (variants m ks t) ; Ok (concat es))
        text_ok (is_figure m ops x_name)
        (fun legend : bool => flat_map (fun '(sd, se) => if sd || legend || se then [] else map (pair t) (kept m ks t)) (variants m ks t))
        (fun legend => map (fun v => (t, legend, v)) (variants m ks t)) [true; false]) as (ess & E & H1 & H2).
    { intros legend _.
      destruct (effects_loop (fun '(sd, se) =>
          save_plot m x_name t c md f (map fst (series m ks t n0)) (styles m ks t (color_of c)) (styles m ks t (marker_of c)) legend sd se) text_ok (is_figure m ops x_name)
          (fun '(sd, se) => if sd || legend || se then [] else map (pair t) (kept m ks t)) (fun v => [(t, legend, v)]) (variants m ks t)) as (ess & E & H1 & H2).
      - intros [sd se] Hv. apply P. auto.
      - rewrite E. cbn [bind]. eexists. split; [reflexivity|]. split; [auto|]. rewrite <- flat_single. auto. }
    rewrite E. cbn [bind]. eexists. split; [reflexivity|]. split; [|auto].
    replace (map (pair t) (kept m ks t)) with (flat_map (fun legend : bool => flat_map (fun '(sd, se) => if sd || legend || se then [] else map (pair t) (kept m ks t)) (variants m ks t)) [true; false]); [auto|].
    cbn [flat_map]. unfold variants. destruct m; [destruct (has_many ks t)|]; cbn; rewrite ?app_nil_r; auto.
  Qed.
End F.

(** every history can be saved *)
Lemma save_ok ord m x_name ops : (forall l, Permutation (ord l) l) -> (Z.of_nat (length (calls ops)) < 2 ^ 63)%Z ->
  exists c es, run_ops ord m ops = Ok c /\ save_plots m x_name c = Ok es /\
    Forall2 (text_ok m ops x_name) (flat_map (fun t => map (pair t) (kept m (calls ops) t)) (types (calls ops))) (appended es) /\
    Forall2 (is_figure m ops x_name) (all_figures m (calls ops)) (saved es).
Proof.
  intros HO S. destruct (run_ok ord m ops HO) as (c & E & ER & EL & EC & EM). exists c. unfold save_plots. rewrite ER.
  assert (TE : table m (calls ops) (calls ops) = map (fun t => (t, miner_table m (calls ops) (of_type t (calls ops)))) (types (calls ops))) by reflexivity. rewrite TE.
  destruct (effects_loop (fun t => save_result_type m x_name c t (miner_table m (calls ops) (of_type t (calls ops)))) (text_ok m ops x_name) (is_figure m ops x_name)
    (fun t => map (pair t) (kept m (calls ops) t))
    (fun t => flat_map (fun legend => map (fun v => (t, legend, v)) (variants m (calls ops) t)) [true; false]) (types (calls ops))) as (ess & E' & H1 & H2).
  { intros t Ht. apply type_ok; auto. }
  assert (EE : mapM (fun '(result_type, miner_dict) => save_result_type m x_name c result_type miner_dict)
    (map (fun t => (t, miner_table m (calls ops) (of_type t (calls ops)))) (types (calls ops))) = Ok ess).
  { rewrite <- E'. clear. induction (types (calls ops)) as [|t l IH]; [auto|]. cbn [map mapM]. rewrite IH. auto. }
  rewrite EE. cbn [bind]. eexists. split; [exact E|]. split; [reflexivity|]. split; [exact H1|exact H2].
Qed.

Lemma append_inj (t a b : string) : (t ++ a)%string = (t ++ b)%string -> a = b.
Proof. induction t as [|x t IH]; cbn; [auto|]. intros Q. injection Q as Q. auto. Qed.
Lemma common_prefix (t t' a b : string) : (t ++ a)%string = (t' ++ b)%string -> String.prefix t t' = true \/ String.prefix t' t = true.
Proof.
  revert t'. induction t as [|x t IH]; intros [|y t'] Q; cbn [String.prefix String.append] in *; auto. injection Q as -> Q.
  destruct (Ascii.ascii_dec y y); [|congruence]. apply IH. auto.
Qed.
Lemma file_inj t l a b l' a' b' : file_name t l a b = file_name t l' a' b' -> l = l' /\ a = a' /\ b = b'.
Proof.
  unfold file_name. intros Q. apply append_inj in Q. destruct l, a, b, l', a', b'; cbn in Q; try discriminate Q; auto.
Qed.

(*P C110 The text files of a result collector hold what was added *)
Lemma C110_text : forall (ord : list Z -> list Z) m x_name ops,
  (forall l, Permutation (ord l) l) -> (Z.of_nat (length (calls ops)) < 2 ^ 63)%Z ->
  exists c es, run_ops ord m ops = Ok c /\ save_plots m x_name c = Ok es /\
    Forall2 (fun tn fe => fst fe = (fst tn ++ ".txt")%string /\ is_entry m (calls ops) x_name (fst tn) (snd tn) (snd fe))
      (flat_map (fun t => map (pair t) (kept m (calls ops) t)) (types (calls ops))) (appended es).
Proof.
  intros ord m x_name ops HO S. destruct (save_ok ord m x_name ops HO S) as (c & es & E & E' & H & _). exists c, es. auto.
Qed.
(** the miners that are written *)
Lemma C110_kept : forall m ks t n,
  In n (kept m ks t) <-> In n (miners ks t) /\ forall n', In n' (miners ks t) -> points m ks t n' <= points m ks t n.
Proof.
  intros m ks t n. unfold kept. rewrite filter_In, Nat.eqb_eq. split; intros [Hn H]; (split; [auto|]).
  - intros n' Hn'. rewrite H. apply most_ge. auto.
  - apply Nat.le_antisymm; [apply most_ge; auto|]. unfold most. clear Hn. induction (miners ks t) as [|x l IH]; [cbn; lia|]. cbn [map fold_right].
    pose proof (H x (or_introl eq_refl)). assert (fold_right Nat.max 0 (map (points m ks t) l) <= points m ks t n) by (apply IH; intros; apply H; right; auto). lia.
Qed.
(** the order in which Python lists a set does not matter *)
Lemma C110_order : forall (ord ord' : list Z -> list Z) m ops,
  (forall l, Permutation (ord l) l) -> (forall l, Permutation (ord' l) l) -> run_ops ord m ops = run_ops ord' m ops.
Proof.
  intros ord ord' m ops HO HO'. induction ops as [|o ops IH] using rev_ind; [auto|].
  destruct (run_ok ord m ops HO) as (c & E & _ & EL & _). rewrite !run_app, <- IH, E. cbn [bind].
  destruct o as [k| |]; [|auto|auto]. cbn [step]. unfold add_result. rewrite EL, !x_number_ok by auto. auto.
Qed.
(** different labels have different numbers *)
Lemma C110_labels : forall ks s s', In s (labels_used ks) -> In s' (labels_used ks) -> number ks (XStr s) = number ks (XStr s') -> s = s'.
Proof.
  intros ks s s' H H' E. cbn in E. apply Nat2Z.inj in E. apply position_nth in H, H'. rewrite E in H. congruence.
Qed.

Lemma C110_label_witness : forall (ord : list Z -> list Z), exists c es,
  run_ops ord Line [Add (Call "m" "t" (XStr "a") 1); Add (Call "m" "t" (XNum 0) 3)] = Ok c /\ save_plots Line "x" c = Ok es /\
  map (fun fe => (fst fe, en_miner (snd fe), en_xs (snd fe), en_counts (snd fe))) (appended es) = [("t.txt", "m", [0%Z], [2%Z])].
Proof. intros ord. eexists _, _. split; [reflexivity|]. split; [reflexivity|]. reflexivity. Qed.
Lemma C110_dropped_witness : forall (ord : list Z -> list Z), exists c es,
  run_ops ord Line [Add (Call "a" "t" (XNum 1) 1); Add (Call "b" "t" (XNum 1) 2); Add (Call "b" "t" (XNum 2) 3)] = Ok c /\ save_plots Line "x" c = Ok es /\
  map (fun fe => (fst fe, en_miner (snd fe))) (appended es) = [("t.txt", "b")].
Proof. intros ord. eexists _, _. split; [reflexivity|]. split; [reflexivity|]. reflexivity. Qed.

(*P C111 The figures of a result collector show what was added *)
Lemma C111_figures : forall (ord : list Z -> list Z) m x_name ops,
  (forall l, Permutation (ord l) l) -> (Z.of_nat (length (calls ops)) < 2 ^ 63)%Z ->
  exists c es, run_ops ord m ops = Ok c /\ save_plots m x_name c = Ok es /\
    Forall2 (is_figure m ops x_name) (all_figures m (calls ops)) (saved es).
Proof.
  intros ord m x_name ops HO S. destruct (save_ok ord m x_name ops HO S) as (c & es & E & E' & _ & H). exists c, es. auto.
Qed.
(** bars beside each other do not meet, and they stand symmetrically around their x *)
Lemma C111_dodge : forall i j n, i < n -> j < n ->
  (dodge i n = dodge j n -> i = j) /\ (i + j = n - 1 -> dodge i n = (- dodge j n)%Z).
Proof.
  intros i j n Hi Hj. unfold dodge. assert (E : Z.of_nat n = (2 * (Z.of_nat n / 2) + Z.of_nat n mod 2)%Z) by (apply Z.div_mod; lia).
  assert (M : (Z.of_nat n mod 2 = if Nat.even n then 0 else 1)%Z).
  { destruct (Nat.even n) eqn:Ev.
    - apply Nat.even_spec in Ev. destruct Ev as [k ->]. rewrite Nat2Z.inj_mul. cbn [Z.of_nat]. rewrite Z.mul_comm. apply Z.mod_mul. lia.
    - assert (O : Nat.odd n = true) by (unfold Nat.odd; rewrite Ev; auto). apply Nat.odd_spec in O. destruct O as [k ->].
      rewrite Nat2Z.inj_add, Nat2Z.inj_mul. change (Z.of_nat 2) with 2%Z. change (Z.of_nat 1) with 1%Z. rewrite Z.add_comm, Z.mul_comm, Z.mod_add by lia. auto. }
  set (h := (Z.of_nat n / 2)%Z) in *. clearbody h. rewrite M in E. clear M. destruct (Nat.even n); rewrite ?Bool.andb_true_r, ?Bool.andb_false_r.
  - destruct (Z.leb_spec 0 (Z.of_nat i - h)); destruct (Z.leb_spec 0 (Z.of_nat j - h)); split; lia.
  - split; lia.
Qed.
(** a miner has its color and its marker *)
Lemma C111_styles : forall m ks t (f : string -> string),
  kept m ks t = miners ks t \/ (exists n, miners ks t = kept m ks t ++ [n] /\ forall n', In n' (kept m ks t) -> f n' <> f n) ->
  styles m ks t f = map f (kept m ks t).
Proof.
  intros m ks t f [E|(n & E & D)]; unfold styles.
  - rewrite E, Nat.eqb_refl. auto.
  - rewrite E, app_length, last_last. cbn [length]. destruct (Nat.eqb_spec (length (kept m ks t)) (length (kept m ks t) + 1)) as [Q|_]; [lia|]. rewrite map_app. cbn [map].
    clear E. induction (kept m ks t) as [|x l IH]; cbn [map app without].
    + destruct (eqb_ok (f n) (f n)); [auto|congruence].
    + destruct (eqb_ok (f n) (f x)) as [Q|_]; [exfalso; apply (D x); [left; auto|auto]|]. f_equal. apply IH. intros n' Hn. apply D. right. auto.
Qed.
(** the figures of a result type, and those of result types of which none is the beginning of another, have different files *)
Lemma C111_names : forall m ks t l a b t' l' a' b',
  (forall u u', In u (types ks) -> In u' (types ks) -> String.prefix u u' = true -> u = u') ->
  In (t, l, (a, b)) (all_figures m ks) -> In (t', l', (a', b')) (all_figures m ks) ->
  file_name t l a b = file_name t' l' a' b' -> (t, l, (a, b)) = (t', l', (a', b')).
Proof.
  intros m ks t l a b t' l' a' b' H I I' E.
  assert (T : forall t l v, In (t, l, v) (all_figures m ks) -> In t (types ks)).
  { intros t0 l0 v0 Q. unfold all_figures in Q. apply in_flat_map in Q. destruct Q as (u & Hu & Q). apply in_flat_map in Q. destruct Q as (g & _ & Q).
    apply in_map_iff in Q. destruct Q as (w & Q & _). injection Q as -> _ _. auto. }
  apply T in I, I'. assert (Q : t = t').
  { destruct (common_prefix t t' _ _ E) as [P|P]; [|symmetry]; apply H; auto. }
  subst t'. apply file_inj in E. destruct E as (-> & -> & ->). auto.
Qed.
Lemma C111_color_witness : forall (ord : list Z -> list Z), exists c es,
  run_ops ord Line [Color "a" "red"; Color "b" "blue"; Add (Call "a" "t" (XNum 1) 1); Add (Call "b" "t" (XNum 1) 2); Add (Call "b" "t" (XNum 2) 3)] = Ok c /\
  save_plots Line "x" c = Ok es /\ map (fun fp => (keys (pl_columns (snd fp)), pl_colors (snd fp))) (saved es) = [(["b"], ["red"]); (["b"], ["red"])].
Proof. intros ord. eexists _, _. split; [reflexivity|]. split; [reflexivity|]. reflexivity. Qed.
Lemma C111_index_witness : forall (ord : list Z -> list Z), exists c es,
  run_ops ord Line [Add (Call "a" "t" (XNum 1) 1); Add (Call "b" "t" (XNum 2) 2)] = Ok c /\ save_plots Line "x" c = Ok es /\
  map (fun fp => (keys (pl_columns (snd fp)), pl_index (snd fp))) (saved es) = [(["a"; "b"], [1%Z]); (["a"; "b"], [1%Z])] /\
  map (fun fe => (en_miner (snd fe), en_xs (snd fe))) (appended es) = [("a", [1%Z]); ("b", [2%Z])].
Proof. intros ord. eexists _, _. split; [reflexivity|]. split; [reflexivity|]. split; reflexivity. Qed.
Lemma C111_names_witness : forall (ord : list Z -> list Z), exists c es,
  run_ops ord Line [Add (Call "m" "a" (XNum 1) 1); Add (Call "m" "a_with_legend" (XNum 1) 2)] = Ok c /\ save_plots Line "x" c = Ok es /\
  map (fun fp => (fst fp, pl_ylabel (snd fp))) (saved es) =
    [("a_with_legend.pdf", "a"); ("a.pdf", "a"); ("a_with_legend_with_legend.pdf", "a_with_legend"); ("a_with_legend.pdf", "a_with_legend")].
Proof. intros ord. eexists _, _. split; [reflexivity|]. split; [reflexivity|]. reflexivity. Qed.
