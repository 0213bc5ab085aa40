(** Variants, trace statistics and csv files of event logs *)
From Coq Require Import QArith String Ascii Permutation DecimalString DecimalNat.
From Verif.Model Require Import Base Sort EventLog Statistics LogTables.
From Verif.Spec Require Import Lists Logs EventLogSpec LogTableSpec Moments.
From Verif.Lib Require Import ListLib DictLib SortLib StrLib.
From Verif.Proofs Require Import Selection EventLogA EventLogB LogTablesA LogTablesB LogTablesC.
From Verif.Proofs Require Statistics.
Open Scope string_scope.
Open Scope list_scope.
Open Scope nat_scope.

Definition contains (s sub : string) : Prop := exists x y, s = (x ++ sub ++ y)%string.
Lemma first_separator : forall a1 a2 r1 r2 : string, ~ contains a1 ", " -> ~ contains a2 ", " ->
  (a1 ++ ", " ++ r1 = a2 ++ ", " ++ r2)%string -> a1 = a2 /\ r1 = r2.
Proof.
  assert (Z : forall c a r1 r2, ~ contains (String c a) ", " -> (", " ++ r1 = String c a ++ ", " ++ r2)%string -> False).
  { intros c a r1 r2 N E. cbn in E. injection E as <- E. destruct a as [|c' a]; [discriminate|]. cbn in E. injection E as <- E. apply N. exists "", a. reflexivity. }
  induction a1 as [|c1 a1 IH]; intros [|c2 a2] r1 r2 N1 N2 E.
  - cbn in E. injection E as ->. auto.
  - exfalso. eapply Z; eauto.
  - exfalso. symmetry in E. eapply Z; eauto.
  - cbn in E. injection E as -> E. destruct (IH a2 r1 r2) as [-> ->]; auto.
    + intros (x & y & ->). apply N1. exists (String c2 x), y. reflexivity.
    + intros (x & y & ->). apply N2. exists (String c2 x), y. reflexivity.
Qed.
Lemma join_injective : forall v w : list string, (forall a, In a v -> ~ contains a ", ") -> (forall a, In a w -> ~ contains a ", ") -> v <> [] -> w <> [] ->
  String.concat ", " v = String.concat ", " w -> v = w.
Proof.
  induction v as [|a v IH]; intros w Nv Nw Hv Hw E; [congruence|]. destruct w as [|b w]; [congruence|].
  assert (Na : ~ contains a ", ") by (apply Nv; cbn; auto). assert (Nb : ~ contains b ", ") by (apply Nw; cbn; auto).
  destruct v as [|a' v], w as [|b' w].
  - cbn in E. congruence.
  - exfalso. apply Na. change (String.concat ", " [a]) with a in E. rewrite E. exists b, (String.concat ", " (b' :: w)). reflexivity.
  - exfalso. apply Nb. change (String.concat ", " [b]) with b in E. rewrite <- E. exists a, (String.concat ", " (a' :: v)). reflexivity.
  - change (a ++ ", " ++ String.concat ", " (a' :: v) = b ++ ", " ++ String.concat ", " (b' :: w))%string in E.
    apply first_separator in E; [|auto|auto]. destruct E as [-> E]. f_equal. apply IH; [intros; apply Nv; cbn; auto|intros; apply Nw; cbn; auto|discriminate|discriminate|auto].
Qed.

Section P.
  Context {V I : Type}.
  Notation log := (log string V I).
  Notation trace := (trace string V I).
  Lemma variant_counter_ok (l : log) : let c := variant_counter l in
    NoDup (keys c) /\ (forall v, In v (keys c) <-> In v (map to_activity_list l)) /\ forall v, In v (keys c) -> dict_get v c = Some (count_occ eq_dec_of (map to_activity_list l) v).
  Proof.
    cbv zeta. unfold variant_counter. split; [apply counter_incs_NoDup; constructor|]. assert (K : forall v, In v (keys (fold_left (fun c (t : trace) => counter_inc (to_activity_list t) c) l [])) <-> In v (map to_activity_list l)).
    { intros v. rewrite keys_incs. cbn. tauto. }
    split; [auto|]. intros v Hv. rewrite counter_incs. cbn [dict_get]. apply K in Hv. apply (count_occ_In eq_dec_of) in Hv. destruct (count_occ eq_dec_of (map to_activity_list l) v); [lia|auto].
  Qed.
  Lemma variant_count (l : log) v n : In (v, n) (variant_counter l) -> n = count_occ eq_dec_of (map to_activity_list l) v.
  Proof.
    intros Hi. destruct (variant_counter_ok l) as (N & K & G). assert (Hv : In v (keys (variant_counter l))) by (apply (in_map fst) in Hi; auto).
    specialize (G v Hv). assert (Q : dict_get v (variant_counter l) = Some n) by (apply dict_In_get; auto). congruence.
  Qed.
End P.

(*P C103 Variants and trace statistics *)
(** The table of variants has one row for every sequence of activities of the
    log: its activities joined by ", " and the number of traces with it. *)
Lemma C103_variants : forall (V I : Type) (l : log string V I),
  exists variants, NoDup variants /\ (forall v, In v variants <-> exists t, In t l /\ map activity (events t) = v) /\
    Forall2 (fun v row => fst row = String.concat ", " v /\ counted (fun t => map activity (events t) = v) l (snd row))
      variants (compute_variant_statistics_df l) /\
    fold_right Nat.add 0 (map snd (compute_variant_statistics_df l)) = length l.
Proof.
  intros V I l. destruct (variant_counter_ok l) as (N & K & G). exists (keys (variant_counter l)). split; [auto|]. split; [|split].
  - intros v. rewrite K, in_map_iff. split; intros (t & A & B); exists t; auto.
  - unfold compute_variant_statistics_df. assert (Q : forall v n, In (v, n) (variant_counter l) -> n = count_occ eq_dec_of (map to_activity_list l) v) by (intros; apply variant_count; auto).
    revert Q. generalize (variant_counter l). intros c Q. induction c as [|[v n] c IH]; cbn [map keys]; constructor.
    + cbn [fst snd]. split; [auto|]. rewrite (Q v n) by (cbn; auto). apply (counted_occ (fun t : trace string V I => map activity (events t) = v) to_activity_list). reflexivity.
    + apply IH. intros; apply Q; cbn; auto.
  - rewrite <- (map_length to_activity_list l). rewrite <- (occ_sum (keys (variant_counter l)) (map to_activity_list l)); [|auto|intros v Hv; apply K; auto].
    unfold compute_variant_statistics_df. f_equal. unfold keys. rewrite !map_map. apply map_ext_in. intros [v n] Hi. cbn [snd fst]. apply variant_count. auto.
Qed.
(** No two rows have the same name if no trace is empty and no activity contains
    the separator. *)
Lemma C103_names : forall (V I : Type) (l : log string V I),
  (forall t, In t l -> events t <> [] /\ forall e, In e (events t) -> ~ exists x y, activity e = (x ++ ", " ++ y)%string) ->
  NoDup (map fst (compute_variant_statistics_df l)).
Proof.
  intros V I l Ht. destruct (variant_counter_ok l) as (N & K & G). unfold compute_variant_statistics_df. rewrite map_map.
  rewrite (map_ext _ (fun x => String.concat ", " (fst x))) by (intros [v n]; auto). rewrite <- (map_map fst (String.concat ", ")). change (map fst (variant_counter l)) with (keys (variant_counter l)).
  assert (Q : forall v, In v (keys (variant_counter l)) -> v <> [] /\ forall a, In a v -> ~ contains a ", ").
  { intros v Hv. apply K, in_map_iff in Hv. destruct Hv as (t & <- & Hi). destruct (Ht t Hi) as [Ne F]. unfold to_activity_list. split.
    - intros E. apply map_eq_nil in E. auto.
    - intros a Ha. apply in_map_iff in Ha. destruct Ha as (e & <- & He). apply F. auto. }
  revert N Q. generalize (keys (variant_counter l)). clear. intros ks N Q. induction N as [|v ks Nv N IH]; cbn [map]; constructor.
  - intros Hi. apply in_map_iff in Hi. destruct Hi as (w & E & Hw). destruct (Q v) as [Q1 Q2]; [cbn; auto|]. destruct (Q w) as [Q3 Q4]; [cbn; auto|].
    apply join_injective in E; auto. congruence.
  - apply IH. intros; apply Q; cbn; auto.
Qed.
(** Otherwise different variants can have the same name. *)
Lemma C103_names_witness : exists l : log string unit unit, (forall t, In t l -> events t <> []) /\
  exists name, compute_variant_statistics_df l = [(name, 1); (name, 1)].
Proof.
  exists [Trace tt [Event "a, b" [] None] []; Trace tt [Event "a" [] None; Event "b" [] None] []]. split; [intros t [<-|[<-|[]]]; discriminate|]. eexists. reflexivity.
Qed.
(** The statistics of traces: numbers of traces and variants, and the minimum,
    the average and the maximum of the lengths. *)
Lemma C103_trace_statistics : forall (V I : Type) (l : log string V I), (Z.of_nat (length l) < 2 ^ 63)%Z ->
  (l = [] -> compute_trace_statistics l = Err ValueError) /\
  (l <> [] -> exists s variants, compute_trace_statistics l = Ok s /\ nr_of_traces s = length l /\
     NoDup variants /\ (forall v, In v variants <-> exists t, In t l /\ map activity (events t) = v) /\ nr_of_variants s = length variants /\
     (exists t, In t l /\ min_trace_length s = Z.of_nat (length (events t))) /\
     (exists t, In t l /\ max_trace_length s = Z.of_nat (length (events t))) /\
     (forall t, In t l -> min_trace_length s <= Z.of_nat (length (events t)) <= max_trace_length s)%Z /\
     (average_trace_length s == inject_Z (Z.of_nat (fold_right Nat.add 0%nat (map (fun t => length (events t)) l))) / inject_Z (Z.of_nat (length l)))%Q).
Proof.
  intros V I l B. split; [intros ->; reflexivity|]. intros Nl. unfold compute_trace_statistics.
  set (xs := map (fun t => inject_Z (Z.of_nat (length (events t)))) l). destruct (Statistics.push_report xs) as (_ & _ & R & _); [unfold xs; rewrite map_length; auto|].
  destruct R as (Mean & (mn & Emn & Imn & Bmn) & (mx & Emx & Imx & Bmx)); [unfold xs; destruct l; [congruence|discriminate]|]. cbv zeta. rewrite Emn, Emx.
  apply in_map_iff in Imn. destruct Imn as (tmin & <- & Hmin). apply in_map_iff in Imx. destruct Imx as (tmax & <- & Hmax). cbn [int_of bind inject_Z Qnum Qden].
  rewrite !Z.quot_1_r. eexists. exists (set_of (map to_activity_list l)). split; [reflexivity|]. cbn [nr_of_traces nr_of_variants min_trace_length max_trace_length average_trace_length].
  split; [auto|]. split; [apply set_of_NoDup|]. split; [|split; [auto|split; [eauto|split; [eauto|split]]]].
  - intros v. rewrite set_of_In, in_map_iff. split; intros (t & P1 & P2); exists t; auto.
  - intros t Ht. assert (Hx : In (inject_Z (Z.of_nat (length (events t)))) xs) by (apply in_map_iff; eauto). apply Bmn in Hx as H1. apply Bmx in Hx as H2.
    rewrite <- Zle_Qle in H1, H2. lia.
  - rewrite Mean. unfold average, size, xs. rewrite map_length. assert (E : (Moments.total (map (fun t => inject_Z (Z.of_nat (length (events t)))) l) == inject_Z (Z.of_nat (fold_right Nat.add 0%nat (map (fun t => length (events t)) l))))%Q); [|rewrite E; reflexivity].
    unfold Moments.total. clear. induction l as [|t l IH]; cbn [map fold_right]; [reflexivity|]. rewrite IH, Nat2Z.inj_add, inject_Z_plus. reflexivity.
Qed.

Definition digit (c : ascii) : Prop := In c ["0"; "1"; "2"; "3"; "4"; "5"; "6"; "7"; "8"; "9"]%char.
Fixpoint all_digits (s : string) : Prop := match s with EmptyString => True | String c s' => digit c /\ all_digits s' end.
Lemma uint_digits u : all_digits (NilEmpty.string_of_uint u).
Proof. induction u; cbn [NilEmpty.string_of_uint all_digits]; auto; (split; [unfold digit; cbn; tauto|auto]). Qed.
Lemma str_nat_digits n : all_digits (str_nat n).
Proof. unfold str_nat, NilZero.string_of_uint. destruct (Nat.to_uint n) eqn:E; try (rewrite <- E; apply uint_digits). cbn. unfold digit. cbn. tauto. Qed.
Lemma to_uint_not_nil n : Nat.to_uint n <> Decimal.Nil.
Proof. intros E. destruct n as [|n]; [discriminate|]. assert (Nat.of_uint (Nat.to_uint (S n)) = S n) by apply DecimalNat.Unsigned.of_to. rewrite E in *. discriminate. Qed.
Lemma str_nat_injective n m : str_nat n = str_nat m -> n = m.
Proof.
  intros E. unfold str_nat in E. apply (f_equal NilZero.uint_of_string) in E. rewrite !NilZero.usu in E by apply to_uint_not_nil. injection E as E. rewrite <- (DecimalNat.Unsigned.of_to n), <- (DecimalNat.Unsigned.of_to m). congruence.
Qed.
Lemma digits_end : forall d1 d2 c r1 r2, all_digits d1 -> all_digits d2 -> ~ digit c -> (d1 ++ String c r1 = d2 ++ String c r2)%string -> d1 = d2 /\ r1 = r2.
Proof.
  induction d1 as [|c1 d1 IH]; intros [|c2 d2] c r1 r2 D1 D2 N E; cbn [append all_digits] in E, D1, D2.
  - injection E as ->. auto.
  - injection E as <- E. tauto.
  - injection E as <- E. tauto.
  - injection E as -> E. destruct (IH d2 c r1 r2) as [-> ->]; try tauto.
Qed.
Lemma newline_end : forall a1 a2 r1 r2, ~ contains a1 newline -> ~ contains a2 newline -> (a1 ++ newline ++ r1 = a2 ++ newline ++ r2)%string -> a1 = a2 /\ r1 = r2.
Proof.
  assert (Z : forall c a r1 r2, ~ contains (String c a) newline -> (newline ++ r1 = String c a ++ newline ++ r2)%string -> False).
  { intros c a r1 r2 N E. unfold newline in *. cbn [append] in E. injection E as <- E. apply N. exists "", a. reflexivity. }
  induction a1 as [|c1 a1 IH]; intros [|c2 a2] r1 r2 N1 N2 E.
  - cbn in E. injection E as ->. auto.
  - exfalso. eapply Z; eauto.
  - exfalso. symmetry in E. eapply Z; eauto.
  - cbn [append] in E. injection E as -> E. destruct (IH a2 r1 r2) as [-> ->]; auto.
    + intros (x & y & ->). apply N1. exists (String c2 x), y. reflexivity.
    + intros (x & y & ->). apply N2. exists (String c2 x), y. reflexivity.
Qed.
Lemma app_str_assoc (a b c : string) : ((a ++ b) ++ c = a ++ b ++ c)%string.
Proof. induction a as [|x a IH]; [auto|]. cbn. congruence. Qed.
Lemma app_str_nil (a : string) : (a ++ "" = a)%string.
Proof. induction a as [|x a IH]; [auto|]. cbn. congruence. Qed.
Lemma app_str_inj (a b c : string) : (a ++ b = a ++ c)%string -> b = c.
Proof. induction a as [|x a IH]; [auto|]. cbn. intros E. injection E as E. auto. Qed.
Lemma concat_cons x l : String.concat "" (x :: l) = (x ++ String.concat "" l)%string.
Proof. destruct l; cbn; [symmetry; apply app_str_nil|auto]. Qed.
Lemma concat_app a b : String.concat "" (a ++ b) = (String.concat "" a ++ String.concat "" b)%string.
Proof. induction a as [|x a IH]; [auto|]. change ((x :: a) ++ b) with (x :: (a ++ b)). rewrite !concat_cons, IH, app_str_assoc. auto. Qed.

Lemma combine_snoc {X Y} (a : list X) (b : list Y) x y : length a = length b -> combine (a ++ [x]) (b ++ [y]) = combine a b ++ [(x, y)].
Proof. revert b. induction a as [|a0 a IH]; intros [|b0 b] E; try discriminate; [auto|]. cbn. f_equal. apply IH. injection E as E. auto. Qed.

Section Csv.
  Context {V I : Type}.
  Notation log := (log string V I).
  Definition pairs (l : log) : list (nat * string) := flat_map (fun it => map (fun e => (fst it, activity e)) (events (snd it))) (combine (seq 0 (length l)) l).
  Definition line (sep : string) (p : nat * string) : string := (str_nat (fst p) ++ sep ++ snd p ++ newline)%string.
  Lemma csv_pairs tc ac sep (l : log) : write_to_csv tc ac sep l = (tc ++ sep ++ ac ++ newline ++ String.concat "" (map (line sep) (pairs l)))%string.
  Proof.
    unfold write_to_csv, pairs. do 4 f_equal. f_equal. generalize 0. induction l as [|t l IH]; intros n; [auto|]. cbn [length seq combine flat_map fst snd]. rewrite map_app, map_map. rewrite <- IH. reflexivity.
  Qed.
  Lemma lines_injective c s : ~ digit c -> forall ps qs, (forall p, In p ps -> ~ contains (snd p) newline) -> (forall p, In p qs -> ~ contains (snd p) newline) ->
    String.concat "" (map (line (String c s)) ps) = String.concat "" (map (line (String c s)) qs) -> ps = qs.
  Proof.
    intros Nc. assert (Z : forall p x, (line (String c s) p ++ x)%string <> "").
    { intros p x. unfold line. destruct (str_nat (fst p)); discriminate. }
    induction ps as [|[i a] ps IH]; intros [|[j b] qs] N1 N2 E; [auto| | |]; cbn [map] in E; rewrite ?concat_cons in E.
    - exfalso. symmetry in E. eapply Z. exact E.
    - exfalso. eapply Z. exact E.
    - unfold line in E at 1 3. cbn [fst snd] in E. rewrite !app_str_assoc in E. change (String c s ++ ?x)%string with (String c (s ++ x)) in E.
      apply digits_end in E; [|apply str_nat_digits|apply str_nat_digits|auto]. destruct E as [Ei E]. apply str_nat_injective in Ei. apply app_str_inj in E. apply newline_end in E.
      + destruct E as [-> E]. subst j. f_equal. apply IH; auto; intros p Hp; [apply N1|apply N2]; cbn; auto.
      + apply (N1 (i, a)). cbn. auto.
      + apply (N2 (j, b)). cbn. auto.
  Qed.
  Lemma pairs_from (l : log) : forall i n, map snd (filter (fun p => fst p =? n + i) (flat_map (fun it => map (fun e => (fst it, activity e)) (events (snd it))) (combine (seq n (length l)) l)))
    = match nth_error l i with Some t => map activity (events t) | None => [] end.
  Proof.
    induction l as [|t l IH]; intros i n; cbn [length seq combine flat_map]; [destruct i; auto|].
    rewrite filter_app, map_app. cbn [fst snd]. destruct i as [|i]; cbn [nth_error].
    - replace (map snd (filter _ (flat_map _ _))) with (@nil string).
      + rewrite app_nil_r. induction (events t) as [|e es IHe]; [auto|]. cbn [map filter fst]. rewrite Nat.add_0_r, Nat.eqb_refl. cbn [map snd]. f_equal. rewrite Nat.add_0_r in IHe. auto.
      + symmetry. specialize (IH (length l) (S n)).
        assert (F : forall p, In p (flat_map (fun it => map (fun e => (fst it, activity e)) (events (snd it))) (combine (seq (S n) (length l)) l)) -> S n <= fst p).
        { intros p Hp. apply in_flat_map in Hp. destruct Hp as ([k u] & Hk & Hp). apply in_map_iff in Hp. destruct Hp as (e & <- & _). cbn [fst]. apply in_combine_l, in_seq in Hk. lia. }
        revert F. generalize (flat_map (fun it => map (fun e => (fst it, activity e)) (events (snd it))) (combine (seq (S n) (length l)) l)). clear. intros ps F. induction ps as [|p ps IH]; [auto|].
        cbn [filter]. destruct (Nat.eqb_spec (fst p) (n + 0)) as [Q|]; [specialize (F p (or_introl eq_refl)); lia|]. apply IH. intros; apply F; cbn; auto.
    - replace (filter _ (map _ (events t))) with (@nil (nat * string)).
      + cbn [map app]. rewrite <- (IH i (S n)). replace (n + S i) with (S n + i) by lia. auto.
      + symmetry. clear. induction (events t) as [|e es IHe]; [auto|]. cbn [map filter fst]. destruct (Nat.eqb_spec n (n + S i)); [lia|auto].
  Qed.
  Lemma pairs_at (l : log) i : map snd (filter (fun p => fst p =? i) (pairs l)) = match nth_error l i with Some t => map activity (events t) | None => [] end.
  Proof. exact (pairs_from l i 0). Qed.
  Lemma pairs_In (l : log) p : In p (pairs l) -> exists t e, In t l /\ In e (events t) /\ snd p = activity e.
  Proof.
    intros Hp. apply in_flat_map in Hp. destruct Hp as ([k u] & Hk & Hp). apply in_map_iff in Hp. destruct Hp as (e & <- & He). exists u, e. apply in_combine_r in Hk. auto.
  Qed.
  Lemma pairs_snoc (l : log) t : pairs (l ++ [t]) = pairs l ++ map (fun e => (length l, activity e)) (events t).
  Proof.
    unfold pairs. rewrite app_length. cbn [length]. rewrite Nat.add_1_r, seq_S, combine_snoc by (rewrite seq_length; auto). rewrite flat_map_app. cbn [flat_map fst snd Nat.add]. rewrite app_nil_r. auto.
  Qed.
End Csv.
(*P C104 Event logs as csv files *)
(** The file is the header line and then, for trace after trace and event after
    event, a line with the number of the trace, the separator and the activity. *)
Lemma C104_text : forall (V I : Type) (trace_id_column activity_column separator : string) (l : log string V I) t,
  let csv := write_to_csv trace_id_column activity_column separator in
  let line e := (NilZero.string_of_uint (Nat.to_uint (length l)) ++ separator ++ activity e ++ newline)%string in
  csv (@nil (trace string V I)) = (trace_id_column ++ separator ++ activity_column ++ newline)%string /\
  csv (l ++ [t]) = (csv l ++ String.concat "" (map line (events t)))%string.
Proof.
  intros V I tc ac sep l t csv line0. unfold csv. split.
  - rewrite csv_pairs. cbn [pairs map flat_map combine length seq String.concat]. rewrite app_str_nil. auto.
  - rewrite !csv_pairs, pairs_snoc, map_app, concat_app, map_map, !app_str_assoc. reflexivity.
Qed.
(** The file determines the activities of every trace, if the separator does not
    begin with a digit and no activity contains a line break. *)
Lemma C104_injective : forall (V I : Type) trace_id_column activity_column c s (l m : log string V I),
  ~ In c ["0"; "1"; "2"; "3"; "4"; "5"; "6"; "7"; "8"; "9"]%char ->
  (forall t e, In t l \/ In t m -> In e (events t) -> ~ exists x y, activity e = (x ++ newline ++ y)%string) ->
  write_to_csv trace_id_column activity_column (String c s) l = write_to_csv trace_id_column activity_column (String c s) m ->
  forall i, match nth_error l i with Some t => map activity (events t) | None => [] end =
            match nth_error m i with Some t => map activity (events t) | None => [] end.
Proof.
  intros V I tc ac c s l m Nc F E i. rewrite !csv_pairs in E. do 4 apply app_str_inj in E. apply lines_injective in E; [|exact Nc| |].
  - rewrite <- !pairs_at, E. auto.
  - intros p Hp. apply pairs_In in Hp. destruct Hp as (t & e & Ht & He & ->). apply (F t e); auto.
  - intros p Hp. apply pairs_In in Hp. destruct Hp as (t & e & Ht & He & ->). apply (F t e); auto.
Qed.
(** A line break in an activity can make two logs look the same. *)
Lemma C104_line_break_witness : exists l m : log string unit unit,
  map (fun t => map activity (events t)) l <> map (fun t => map activity (events t)) m /\
  write_to_csv "CaseID" "Activity" "," l = write_to_csv "CaseID" "Activity" "," m.
Proof.
  exists [Trace tt [Event ("a" ++ newline ++ "0,b") [] None] []]%string, [Trace tt [Event "a" [] None; Event "b" [] None] []]. split; [discriminate|]. reflexivity.
Qed.
