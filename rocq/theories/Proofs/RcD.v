(** What is written and drawn about each miner *)
From Coq Require Import String QArith Permutation Sorted.
From Verif.Model Require Import Base Sort TwoWayDict Statistics ResultCollector.
From Verif.Spec Require Import Moments ResultSpec.
From Verif.Lib Require Import ListLib DictLib SortLib.
From Verif.Proofs Require Statistics.
From Verif.Proofs Require Import RcA RcB RcC.
Open Scope string_scope.
Open Scope list_scope.
Open Scope nat_scope.

Lemma concat_if {A B} (P : A -> bool) (g : A -> B) l : concat (map (fun z => if P z then [g z] else []) l) = map g (filter P l).
Proof. induction l as [|z l IH]; [auto|]. cbn [map concat filter]. rewrite IH. destruct (P z); auto. Qed.
Lemma Forall2_map_r {A B} (R : A -> B -> Prop) (g : A -> B) l : (forall a, In a l -> R a (g a)) -> Forall2 R l (map g l).
Proof. induction l as [|a l IH]; intros H; constructor; [apply H; left; auto|]. apply IH. intros x Hx. apply H. right. auto. Qed.
Lemma Forall2_map_both {A B C} (R : B -> C -> Prop) (f : A -> B) (g : A -> C) l : (forall a, In a l -> R (f a) (g a)) -> Forall2 R (map f l) (map g l).
Proof. induction l as [|a l IH]; intros H; constructor; [apply H; left; auto|]. apply IH. intros x Hx. apply H. right. auto. Qed.
Lemma combine_split {A B} (l : list (A * B)) : combine (map fst l) (map snd l) = l.
Proof. induction l as [|[a b] l IH]; [auto|]. cbn. rewrite IH. auto. Qed.
Lemma flat_single {A B} (f : A -> B) l : flat_map (fun a => [f a]) l = map f l.
Proof. induction l as [|a l IH]; [auto|]. cbn. rewrite IH. auto. Qed.
Lemma filter_map_c {A B} (f : A -> B) P l : filter P (map f l) = map f (filter (fun a => P (f a)) l).
Proof. induction l as [|a l IH]; [auto|]. cbn. rewrite IH. destruct (P (f a)); auto. Qed.
Lemma flat_map_map_c {A B C} (f : A -> B) (g : B -> list C) l : flat_map g (map f l) = flat_map (fun a => g (f a)) l.
Proof. induction l as [|a l IH]; [auto|]. cbn. rewrite IH. auto. Qed.

Section D.
  Variables (m : mode) (ks : list call) (t : string).
  Hypothesis small : (Z.of_nat (length ks) < 2 ^ 63)%Z.
  Notation X n := (x_table m ks (of_miner t n ks)).
  Notation ser n := (series m ks t n).
  Notation md := (miner_table m ks (of_type t ks)).
  Notation v n z := (values_at ks t n z).
  Lemma len_ok n z : st_len (st_of (v n z)) = Z.of_nat (length (v n z)).
  Proof. apply (Proofs.Statistics.push_report (v n z) (val_small ks t small n z)). Qed.
  Lemma many_b n z : (1 <? st_len (st_of (v n z)))%Z = (1 <? length (v n z)).
  Proof. rewrite len_ok. destruct (Nat.ltb_spec 1 (length (v n z))); [apply Z.ltb_lt|apply Z.ltb_ge]; lia. Qed.
  Lemma clen_b n z : (1 <? clen (collect m (v n z)))%Z = (1 <? length (v n z)).
  Proof. destruct m; cbn [collect clen]; [apply many_b|]. destruct (Nat.ltb_spec 1 (length (v n z))); [apply Z.ltb_lt|apply Z.ltb_ge]; lia. Qed.
  Lemma stddev_ok n z : 1 < length (v n z) -> is_square_stddev (v n z) (square_stddev (st_of (v n z))).
  Proof.
    intros L. destruct (Proofs.Statistics.push_report (v n z) (val_small ks t small n z)) as (_ & _ & _ & V). destruct (V 1%Z) as [V1 _]; [lia|].
    destruct V1 as (q & E & Q); [lia|]. exists q. split; [exact E|exact Q].
  Qed.
  Lemma stderr_ok n z : 1 < length (v n z) -> is_square_stderr (v n z) (square_stderr (st_of (v n z))).
  Proof.
    intros L. destruct (stddev_ok n z L) as (q & E & Q). unfold square_stderr. unfold square_stddev in E. rewrite E. cbn [option_map]. eexists. split; [reflexivity|].
    rewrite len_ok. unfold size in *. rewrite Q. reflexivity.
  Qed.
  Lemma items_eq n : stable_sort (fun a b => (fst a <=? fst b)%Z) (X n) = map (fun z => (z, collect m (v n z))) (zs ks t n).
  Proof. rewrite X_eq. apply sort_map. auto. Qed.
  Definition square_of (sd : bool) : statistics -> option Q := if sd then square_stddev else square_stderr.
  Definition spec_of (sd : bool) : list Q -> option Q -> Prop := if sd then is_square_stddev else is_square_stderr.
  Definition bars_ok (sd se : bool) (colors : list string) (places : list (nat * string * Z)) (bs : list bar) : Prop :=
    if sd then Forall2 (is_bar m ks t colors is_square_stddev) places bs
    else if se then Forall2 (is_bar m ks t colors is_square_stderr) places bs
    else bs = [].
  Lemma miner_ok x_name sd se colors i n : (sd && se = false) -> (m = Scatter -> sd = false /\ se = false) -> i < length colors -> In n (miners ks t) ->
    exists bs e, plot_miner m x_name sd se colors (length md) i n (X n) = Ok (bs, e) /\ is_entry m ks x_name t n e /\ en_values e = map snd (ser n) /\
      bars_ok sd se colors (map (fun z => (i, n, z)) (many ks t n (zs ks t n))) bs.
  Proof.
    intros NB SC Hi Hn. destruct (nth_error colors i) as [col|] eqn:Ec; [|apply nth_error_None in Ec; lia].
    set (g := fun z => Bar col z (dodge i (length (miners ks t))) (st_get_mean (st_of (v n z))) (square_of sd (st_of (v n z)))).
    assert (LM : length md = length (miners ks t)) by (rewrite M_eq, map_length; auto).
    unfold plot_miner. rewrite items_eq, LM.
    assert (B : mapM (fun '(x, c) =>
        do b1 <- bar_at square_stddev sd colors i (length (miners ks t)) x c ;
        do b2 <- bar_at square_stderr se colors i (length (miners ks t)) x c ; Ok (b1 ++ b2)) (map (fun z => (z, collect m (v n z))) (zs ks t n)) =
      Ok (map (fun z => if (sd || se) && (1 <? length (v n z)) then [g z] else []) (zs ks t n))).
    { apply mapM_map. intros z. unfold bar_at. rewrite clen_b, Ec. cbn [of_option bind]. unfold g, square_of.
      destruct m; [|destruct SC as [-> ->]; [auto|]; reflexivity]. cbn [collect].
      destruct sd, se; try discriminate; cbn [andb orb]; destruct (1 <? length (v n z)); reflexivity. }
    rewrite B. cbn [bind]. rewrite series_xy by auto. cbn [bind].
    assert (W : forall z, In z (many ks t n (zs ks t n)) -> 1 < length (v n z)).
    { intros z Hz. unfold many in Hz. rewrite filter_In in Hz. apply Nat.ltb_lt. apply Hz. }
    assert (W' : forall z, In z (many ks t n (zs ks t n)) -> In z (numbers ks t n)).
    { intros z Hz. unfold many in Hz. rewrite filter_In in Hz. apply zs_In. apply Hz. }
    eexists _, _. split; [reflexivity|]. cbn [en_values]. split; [|split; [auto|]].
    - unfold is_entry. cbn [en_x_name en_miner en_xs en_values en_stddevs en_stderrs en_mins en_maxs en_counts]. do 2 (split; [auto|]). rewrite combine_split.
      split; [apply series_ok; auto|]. split; [rewrite !map_length; auto|].
      rewrite flat_map_map_c. unfold series. destruct m; cbn [collect stats_of].
      + rewrite flat_single, filter_map_c, !map_map. cbn [fst]. rewrite map_id.
        assert (ME : filter (fun a => (1 <? st_len (st_of (v n a)))%Z) (zs ks t n) = many ks t n (zs ks t n)) by (apply filter_ext; intros; apply many_b). rewrite ME.
        assert (R : forall z, In z (zs ks t n) -> (exists q, st_minimum (st_of (v n z)) = Some q /\ is_minimum q (v n z)) /\ exists q, st_maximum (st_of (v n z)) = Some q /\ is_maximum q (v n z)).
        { intros z Hz. destruct (Proofs.Statistics.push_report (v n z) (val_small ks t small n z)) as (_ & _ & R & _). apply R. apply val_nonempty, zs_In. auto. }
        do 2 (split; [apply Forall2_map_r; intros z Hz; apply R; auto|]).
        split; [apply map_ext; intros; apply len_ok|].
        split; apply Forall2_map_r; intros z Hz; [apply stddev_ok|apply stderr_ok]; auto.
      + assert (Z0 : flat_map (fun a : Z => @nil statistics) (zs ks t n) = []) by (clear; induction (zs ks t n); auto). rewrite Z0. cbn. repeat split.
    - assert (EB : sd || se = true -> concat (map (fun z => if (sd || se) && (1 <? length (v n z)) then [g z] else []) (zs ks t n)) = map g (many ks t n (zs ks t n))).
      { intros ->. apply concat_if. }
      assert (MB : forall z, In z (many ks t n (zs ks t n)) -> (st_get_mean (st_of (v n z)) == average (v n z))%Q).
      { intros z Hz. apply (Proofs.Statistics.push_report (v n z) (val_small ks t small n z)). apply val_nonempty. auto. }
      unfold bars_ok. destruct sd; [|destruct se].
      + rewrite EB by auto. apply Forall2_map_both. intros z Hz. unfold is_bar, g. cbn. do 3 (split; [auto|]). split; [auto|]. apply stddev_ok. auto.
      + rewrite EB by auto. apply Forall2_map_both. intros z Hz. unfold is_bar, g. cbn. do 3 (split; [auto|]). split; [auto|]. apply stderr_ok. auto.
      + cbn. clear. induction (zs ks t n); auto.
  Qed.
End D.

(** minimum and maximum *)
Lemma fold_min (l : list Q) : forall a, exists b, fold_left (fun a q => match a with Some b => Some (if Qle_bool b q then b else q) | None => Some q end) l (Some a) = Some b /\
  (forall c, (c <= b <-> c <= a /\ forall q, In q l -> c <= q)%Q).
Proof.
  induction l as [|x l IH]; intros a; cbn [fold_left].
  - exists a. split; [auto|]. intros c. split; [intros H; split; [auto|intros q []]|tauto].
  - destruct (IH (if Qle_bool a x then a else x)) as (b & E & H). exists b. split; [exact E|]. intros c. rewrite H. destruct (Qle_bool a x) eqn:Q.
    + apply Qle_bool_iff in Q. split.
      * intros [H1 H2]. split; [auto|]. intros q [<-|Hq]; [eapply Qle_trans; eauto|auto].
      * intros [H1 H2]. split; [auto|]. intros q Hq. apply H2. right. auto.
    + assert (Q' : (x <= a)%Q). { destruct (Qlt_le_dec a x) as [L|L]; [|auto]. apply Qlt_le_weak, Qle_bool_iff in L. congruence. }
      split.
      * intros [H1 H2]. split; [eapply Qle_trans; eauto|]. intros q [<-|Hq]; auto.
      * intros [H1 H2]. split; [apply H2; left; auto|]. intros q Hq. apply H2. right. auto.
Qed.
Lemma fold_max (l : list Q) : forall a, exists b, fold_left (fun a q => match a with Some b => Some (if Qle_bool q b then b else q) | None => Some q end) l (Some a) = Some b /\
  (forall c, (b <= c <-> a <= c /\ forall q, In q l -> q <= c)%Q).
Proof.
  induction l as [|x l IH]; intros a; cbn [fold_left].
  - exists a. split; [auto|]. intros c. split; [intros H; split; [auto|intros q []]|tauto].
  - destruct (IH (if Qle_bool x a then a else x)) as (b & E & H). exists b. split; [exact E|]. intros c. rewrite H. destruct (Qle_bool x a) eqn:Q.
    + apply Qle_bool_iff in Q. split.
      * intros [H1 H2]. split; [auto|]. intros q [<-|Hq]; [eapply Qle_trans; eauto|auto].
      * intros [H1 H2]. split; [auto|]. intros q Hq. apply H2. right. auto.
    + assert (Q' : (a <= x)%Q). { destruct (Qlt_le_dec x a) as [L|L]; [|auto]. apply Qlt_le_weak, Qle_bool_iff in L. congruence. }
      split.
      * intros [H1 H2]. split; [eapply Qle_trans; eauto|]. intros q [<-|Hq]; auto.
      * intros [H1 H2]. split; [apply H2; left; auto|]. intros q Hq. apply H2. right. auto.
Qed.
Definition above (c : Q) (o : option Q) : Prop := match o with Some b => (c <= b)%Q | None => True end.
Definition below (c : Q) (o : option Q) : Prop := match o with Some b => (b <= c)%Q | None => True end.
Lemma min_ok l acc : l <> [] -> exists r, min_of l acc = Ok r /\ forall c, above c r <-> above c acc /\ forall q, In q l -> (c <= q)%Q.
Proof.
  intros NE. destruct l as [|x l]; [congruence|]. unfold min_of. eexists. split; [reflexivity|]. intros c. cbn [fold_left]. destruct acc as [a|].
  - destruct (fold_min (x :: l) a) as (b & E & H). cbn [fold_left] in E. rewrite E. cbn. apply H.
  - destruct (fold_min l x) as (b & E & H). rewrite E. cbn. rewrite H. split.
    + intros [H1 H2]. split; [auto|]. intros q [<-|Hq]; auto.
    + intros [_ H2]. split; [auto|]. auto.
Qed.
Lemma max_ok l acc : l <> [] -> exists r, max_of l acc = Ok r /\ forall c, below c r <-> below c acc /\ forall q, In q l -> (q <= c)%Q.
Proof.
  intros NE. destruct l as [|x l]; [congruence|]. unfold max_of. eexists. split; [reflexivity|]. intros c. cbn [fold_left]. destruct acc as [a|].
  - destruct (fold_max (x :: l) a) as (b & E & H). cbn [fold_left] in E. rewrite E. cbn. apply H.
  - destruct (fold_max l x) as (b & E & H). rewrite E. cbn. rewrite H. split.
    + intros [H1 H2]. split; [auto|]. intros q [<-|Hq]; auto.
    + intros [_ H2]. split; [auto|]. auto.
Qed.

Section E.
  Variables (m : mode) (ks : list call) (t : string).
  Hypothesis small : (Z.of_nat (length ks) < 2 ^ 63)%Z.
  Notation X n := (x_table m ks (of_miner t n ks)).
  Notation ser n := (series m ks t n).
  Notation md := (miner_table m ks (of_type t ks)).
  Lemma get_miner n : In n (miners ks t) -> dict_get n md = Some (X n).
  Proof.
    rewrite M_eq. induction (miners ks t) as [|x l IH]; [intros []|]. cbn [map dict_get]. destruct (eqb_ok n x) as [->|D0]; [auto|]. intros [Q|Q]; [congruence|]. auto.
  Qed.
  Lemma bars_app sd se colors p1 p2 b1 b2 : bars_ok m ks t sd se colors p1 b1 -> bars_ok m ks t sd se colors p2 b2 -> bars_ok m ks t sd se colors (p1 ++ p2) (b1 ++ b2).
  Proof. unfold bars_ok. destruct sd; [|destruct se]; intros H1 H2; try (apply Forall2_app; auto). subst. auto. Qed.
  Definition places (i : nat) (l : list string) : list (nat * string * Z) :=
    flat_map (fun '(i, n) => map (fun z => (i, n, z)) (many ks t n (zs ks t n))) (combine (seq i (length l)) l).
  Lemma fold_ok x_name sd se colors : (sd && se = false) -> (m = Scatter -> sd = false /\ se = false) -> forall l i mn mx bars entries,
    (forall n, In n l -> In n (miners ks t)) -> i + length l <= length colors ->
    exists mn' mx' bs es,
    foldM (fun '(i, mn, mx, bars, entries) miner_name =>
      do x_dict <- of_option KeyError (dict_get miner_name md) ;
      do (bs, e) <- plot_miner m x_name sd se colors (length md) i miner_name x_dict ;
      do mn' <- min_of (en_values e) mn ;
      do mx' <- max_of (en_values e) mx ;
      Ok (S i, mn', mx', bars ++ bs, entries ++ [e])) l (i, mn, mx, bars, entries) = Ok (i + length l, mn', mx', bars ++ bs, entries ++ es) /\
    Forall2 (is_entry m ks x_name t) l es /\ bars_ok m ks t sd se colors (places i l) bs /\
    (forall c, above c mn' <-> above c mn /\ forall n q, In n l -> In q (map snd (ser n)) -> (c <= q)%Q) /\
    (forall c, below c mx' <-> below c mx /\ forall n q, In n l -> In q (map snd (ser n)) -> (q <= c)%Q).
  Proof.
    intros NB SC. induction l as [|n l IH]; intros i mn mx bars entries I L; cbn [foldM].
    - exists mn, mx, [], []. rewrite !app_nil_r. cbn [length]. rewrite Nat.add_0_r. split; [auto|]. split; [constructor|]. split.
      + unfold places, bars_ok. cbn. destruct sd; [|destruct se]; auto; constructor.
      + split; intros c; (split; [intros H; split; [auto|intros ? ? []]|tauto]).
    - assert (Hn : In n (miners ks t)) by (apply I; left; auto). cbn [length] in L. rewrite (get_miner n Hn). cbn [of_option bind].
      destruct (miner_ok m ks t small x_name sd se colors i n NB SC) as (bs & e & E & He & Ev & Hb); [lia|auto|]. rewrite E. cbn [bind].
      assert (NE : en_values e <> []).
      { rewrite Ev. intros Q. apply map_eq_nil in Q. pose proof (points_pos m ks t n Hn) as P. rewrite <- series_length, Q in P. cbn in P. lia. }
      destruct (min_ok (en_values e) mn NE) as (mn1 & E1 & H1). destruct (max_ok (en_values e) mx NE) as (mx1 & E2 & H2). rewrite E1, E2. cbn [bind].
      destruct (IH (S i) mn1 mx1 (bars ++ bs) (entries ++ [e])) as (mn' & mx' & bs' & es' & E' & HE & HB & HM & HX); [intros x Hx; apply I; right; auto|lia|].
      exists mn', mx', (bs ++ bs'), (e :: es'). rewrite E'. split; [rewrite <- !app_assoc; cbn [app length]; replace (S i + length l) with (i + S (length l)) by lia; auto|].
      split; [constructor; auto|]. split; [unfold places; cbn [length seq combine flat_map]; apply bars_app; auto|]. rewrite Ev in H1, H2. split.
      + intros c. rewrite HM, H1. split.
        * intros [[A1 A2] A3]. split; [auto|]. intros n' q [<-|Hn'] Hq; [auto|eauto].
        * intros [A1 A2]. split; [split; [auto|]|]; intros; eapply A2; eauto; [left; auto|right; auto].
      + intros c. rewrite HX, H2. split.
        * intros [[A1 A2] A3]. split; [auto|]. intros n' q [<-|Hn'] Hq; [auto|eauto].
        * intros [A1 A2]. split; [split; [auto|]|]; intros; eapply A2; eauto; [left; auto|right; auto].
  Qed.
  Lemma values_ok x_name sd se colors : (sd && se = false) -> (m = Scatter -> sd = false /\ se = false) -> length (kept m ks t) <= length colors ->
    exists bs es u, plot_values_for_miners m x_name md sd se colors (kept m ks t) = Ok (bs, es, u) /\
    Forall2 (is_entry m ks x_name t) (kept m ks t) es /\ bars_ok m ks t sd se colors (bar_places m ks t) bs /\
    (u = true <-> forall n q, In n (kept m ks t) -> In q (map snd (ser n)) -> (0 <= q <= 1)%Q).
  Proof.
    intros NB SC L. unfold plot_values_for_miners.
    destruct (fold_ok x_name sd se colors NB SC (kept m ks t) 0 None None [] []) as (mn & mx & bs & es & E & HE & HB & HM & HX); [intros n; apply kept_In|auto|].
    rewrite E. cbn [bind app]. eexists bs, es, _. split; [reflexivity|]. split; [auto|]. split; [exact HB|].
    specialize (HM 0%Q). specialize (HX 1%Q). rewrite Bool.andb_true_iff.
    assert (A : match mn with Some q => Qle_bool 0 q | None => true end = true <-> above 0 mn) by (destruct mn; cbn; [apply Qle_bool_iff|tauto]).
    assert (B : match mx with Some q => Qle_bool q 1 | None => true end = true <-> below 1 mx) by (destruct mx; cbn; [apply Qle_bool_iff|tauto]).
    rewrite A, B, HM, HX. cbn [above below]. split.
    - intros [[_ H1] [_ H2]] n q Hn Hq. split; eauto.
    - intros H. do 2 split; auto; intros n q Hn Hq; apply (H n q Hn Hq).
  Qed.
End E.
