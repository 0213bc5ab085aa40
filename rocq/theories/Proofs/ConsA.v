(** Progress bars and silenced output *)
From Coq Require Import String Ascii QArith.
From Verif.Model Require Import Base Console.
From Verif.Spec Require Import ConsoleSpec.
From Verif.Lib Require Import ListLib.
Open Scope string_scope.
Open Scope list_scope.
Open Scope nat_scope.

Lemma times_row n a : times n (String a "") = row n a.
Proof. induction n as [|n IH]; [auto|]. cbn. rewrite IH. auto. Qed.
Lemma occ_app a s t : occurrences a (s ++ t) = occurrences a s + occurrences a t.
Proof. induction s as [|b s IH]; [auto|]. cbn. rewrite IH. lia. Qed.
Lemma occ_times a n s : occurrences a (times n s) = n * occurrences a s.
Proof. induction n as [|n IH]; [auto|]. cbn. rewrite occ_app, IH. auto. Qed.
Lemma len_app (s t : string) : String.length (s ++ t) = String.length s + String.length t.
Proof. induction s as [|b s IH]; [auto|]. cbn. rewrite IH. auto. Qed.
Lemma len_times n s : String.length (times n s) = n * String.length s.
Proof. induction n as [|n IH]; [auto|]. cbn. rewrite len_app, IH. auto. Qed.
Lemma filled_bounds length iteration total : (0 < total)%Z ->
  (filled_length length iteration total * total <= length * iteration < (filled_length length iteration total + 1) * total)%Z.
Proof.
  intros T. unfold filled_length. pose proof (Z.div_mod (length * iteration) total ltac:(lia)). pose proof (Z.mod_pos_bound (length * iteration) total T). nia.
Qed.

(*P C113 Progress bars show the progress *)
Lemma C113_bar : forall fmt iteration total prefix suffix decimals length (c : ascii),
  (0 <= iteration <= total)%Z -> (0 < total)%Z -> (0 <= decimals)%Z -> (0 <= length)%Z ->
  exists k, print_progress_bar fmt iteration total prefix suffix decimals length (String c "") =
      Ok (String (ascii_of_nat 13) (prefix ++ " |" ++ row k c ++ row (Z.to_nat length - k) "-" ++ "| " ++
          fmt decimals (100 * (inject_Z iteration / inject_Z total))%Q ++ "% " ++ suffix ++ String (ascii_of_nat 13)
          (if (iteration =? total)%Z then String line_break "" else "")))%string /\
    (Z.of_nat k * total <= length * iteration < (Z.of_nat k + 1) * total)%Z /\ (Z.of_nat k <= length)%Z /\
    (Z.of_nat k = length <-> iteration = total \/ length = 0%Z).
Proof.
  intros fmt iteration total prefix suffix decimals length c I T D L. pose proof (filled_bounds length iteration total T) as B.
  set (f := filled_length length iteration total) in *. assert (F : (0 <= f)%Z) by (unfold f, filled_length; apply Z.div_pos; nia).
  exists (Z.to_nat f). rewrite Z2Nat.id by auto. assert (FL : (f <= length)%Z) by nia. split; [|split; [auto|split; [auto|split]]].
  - unfold print_progress_bar, bar. fold f. destruct (Z.eqb_spec total 0); [lia|]. destruct (Z.ltb_spec decimals 0); [lia|]. rewrite !times_row.
    rewrite Z2Nat.inj_sub by auto. unfold carriage_return, newline, line_break. cbn [String.append]. do 2 f_equal. f_equal.
    assert (A : forall a b d : string, ((a ++ b) ++ d)%string = (a ++ b ++ d)%string) by (intros a b d; induction a as [|x a IH]; cbn; [auto|rewrite IH; auto]).
    rewrite A. auto.
  - intros E. rewrite E in B. nia.
  - intros [E|E]; subst; nia.
Qed.
(** later calls do not show less *)
Lemma C113_monotone : forall fmt total prefix suffix decimals length (c : ascii) i j s t, (0 <= length)%Z -> (0 < total)%Z -> (0 <= i <= j)%Z -> (j <= total)%Z ->
  c <> "-"%char -> (forall d q, occurrences c (fmt d q) = 0) ->
  print_progress_bar fmt i total prefix suffix decimals length (String c "") = Ok s ->
  print_progress_bar fmt j total prefix suffix decimals length (String c "") = Ok t -> occurrences c s <= occurrences c t.
Proof.
  intros fmt total prefix suffix decimals length c i j s t L T Q J C F. unfold print_progress_bar, bar. destruct (Z.eqb_spec total 0); [discriminate|].
  destruct (decimals <? 0)%Z; [discriminate|]. intros A B. assert (A' : forall (x y : string), @Ok string x = Ok y -> x = y) by congruence. apply A' in A, B. subst s t.
  rewrite !occ_app, !occ_times, !F. assert (D : occurrences c "-" = 0) by (cbn; destruct (Ascii.eqb_spec c "-"); [congruence|auto]). rewrite D.
  assert (M : (filled_length length i total <= filled_length length j total)%Z) by (apply Z.div_le_mono; [auto|nia]).
  assert (N : occurrences c (if (i =? total)%Z then newline else "") <= occurrences c (if (j =? total)%Z then newline else "")).
  { destruct (Z.eqb_spec i total); destruct (Z.eqb_spec j total); try lia. cbn. lia. }
  assert (O : Z.to_nat (filled_length length i total) * occurrences c (String c "") <= Z.to_nat (filled_length length j total) * occurrences c (String c "")) by (apply Nat.mul_le_mono_r; lia).
  lia.
Qed.
Lemma C113_errors : forall fmt iteration total prefix suffix decimals length fill,
  (total = 0%Z -> print_progress_bar fmt iteration total prefix suffix decimals length fill = Err ZeroDivisionError) /\
  (total <> 0%Z -> (decimals < 0)%Z -> print_progress_bar fmt iteration total prefix suffix decimals length fill = Err ValueError) /\
  (total <> 0%Z -> (0 <= decimals)%Z -> exists s, print_progress_bar fmt iteration total prefix suffix decimals length fill = Ok s).
Proof.
  intros. unfold print_progress_bar. destruct (Z.eqb_spec total 0); destruct (Z.ltb_spec decimals 0); repeat split; intros; try lia; eauto.
Qed.
(** one line break in a loop from 0 to the total *)
Lemma C113_loop : forall fmt (n : nat) prefix suffix decimals length fill,
  occurrences line_break prefix = 0 -> occurrences line_break suffix = 0 -> occurrences line_break fill = 0 ->
  (forall d q, occurrences line_break (fmt d q) = 0) -> (0 <= decimals)%Z -> 0 < n ->
  exists ts, mapM (fun i => print_progress_bar fmt (Z.of_nat i) (Z.of_nat n) prefix suffix decimals length fill) (seq 0 (S n)) = Ok ts /\
    occurrences line_break (String.concat "" ts) = 1.
Proof.
  intros fmt n prefix suffix decimals length fill Hp Hs Hf Hq D N.
  assert (P : forall i, exists s, print_progress_bar fmt (Z.of_nat i) (Z.of_nat n) prefix suffix decimals length fill = Ok s /\ occurrences line_break s = if i =? n then 1 else 0).
  { intros i. unfold print_progress_bar, bar. destruct (Z.eqb_spec (Z.of_nat n) 0); [lia|]. destruct (Z.ltb_spec decimals 0); [lia|]. eexists. split; [reflexivity|].
    rewrite !occ_app, !occ_times, Hp, Hs, Hf, Hq. change (occurrences line_break carriage_return) with 0. change (occurrences line_break "-") with 0.
    change (occurrences line_break " |") with 0. change (occurrences line_break "| ") with 0. change (occurrences line_break "% ") with 0. rewrite !Nat.mul_0_r.
    destruct (Nat.eqb_spec i n) as [->|Q]; [rewrite Z.eqb_refl; reflexivity|]. destruct (Z.eqb_spec (Z.of_nat i) (Z.of_nat n)); [lia|]. reflexivity. }
  assert (G : forall l, exists ts, mapM (fun i => print_progress_bar fmt (Z.of_nat i) (Z.of_nat n) prefix suffix decimals length fill) l = Ok ts /\
    occurrences line_break (String.concat "" ts) = fold_right Nat.add 0 (map (fun i => if i =? n then 1 else 0) l)).
  { induction l as [|i l (ts & E & C)]; [exists []; auto|]. destruct (P i) as (s & Es & Cs). exists (s :: ts). cbn [mapM]. rewrite Es, E. split; [auto|].
    cbn [map fold_right]. rewrite <- C, <- Cs. destruct ts as [|t ts]; cbn [String.concat]; [cbn; lia|]. rewrite !occ_app. cbn. lia. }
  destruct (G (seq 0 (S n))) as (ts & E & C). exists ts. split; [auto|]. rewrite C. rewrite seq_S, map_app. cbn [plus map]. rewrite Nat.eqb_refl.
  assert (Z0 : forall l, (forall i, In i l -> i < n) -> fold_right Nat.add 0 (map (fun i => if i =? n then 1 else 0) l ++ [1]) = 1).
  { induction l as [|i l IH]; intros H; [auto|]. cbn [map app fold_right]. rewrite IH by (intros; apply H; right; auto). destruct (Nat.eqb_spec i n); [|auto]. specialize (H i (or_introl eq_refl)). lia. }
  apply Z0. intros i Hi. apply in_seq in Hi. lia.
Qed.
(** after the total the bar is longer than wanted *)
Lemma C113_beyond_witness : forall fmt iteration total prefix suffix decimals length (c : ascii),
  (total < iteration)%Z -> (0 < total)%Z -> (0 <= decimals)%Z -> (0 <= length)%Z ->
  exists k, print_progress_bar fmt iteration total prefix suffix decimals length (String c "") =
      Ok (String (ascii_of_nat 13) (prefix ++ " |" ++ row k c ++ "| " ++
          fmt decimals (100 * (inject_Z iteration / inject_Z total))%Q ++ "% " ++ suffix ++ String (ascii_of_nat 13) ""))%string /\
    (Z.of_nat k * total <= length * iteration < (Z.of_nat k + 1) * total)%Z /\ (length <= Z.of_nat k)%Z /\
    (total <= length * (iteration - total) -> length < Z.of_nat k)%Z.
Proof.
  intros fmt iteration total prefix suffix decimals length c I T D L. pose proof (filled_bounds length iteration total T) as B.
  set (f := filled_length length iteration total) in *. assert (F : (0 <= f)%Z) by (unfold f, filled_length; apply Z.div_pos; nia).
  exists (Z.to_nat f). rewrite Z2Nat.id by auto. assert (FL : (length <= f)%Z) by nia. split; [|split; [auto|split; [auto|nia]]].
  unfold print_progress_bar, bar. fold f. destruct (Z.eqb_spec total 0); [lia|]. destruct (Z.ltb_spec decimals 0); [lia|]. destruct (Z.eqb_spec iteration total); [lia|]. rewrite !times_row.
  replace (Z.to_nat (length - f)) with 0 by lia. unfold carriage_return. cbn [String.append row].
  assert (A : forall a : string, (a ++ "")%string = a) by (induction a as [|x a IH]; cbn; [auto|rewrite IH; auto]). rewrite A. reflexivity.
Qed.

(** silenced output *)
Definition quiet (no : bool) (n : nat) (s : stream) (c : console) : Prop :=
  if no then exists k, s = Null k /\ k < opened c /\ ~ In k (closed c) else s = Process n.
Definition sane (c : console) : Prop := forall n, In n (closed c) -> n < opened c.
Lemma seen_write s t c c' : write s t c = (c', false) -> out c' = out c /\ err c' = err c /\ opened c' = opened c /\ closed c' = closed c /\
  seen c' = seen c ++ match s with Process n => [(n, t)] | Null _ => [] end.
Proof.
  unfold write, seen. destruct s as [n|n]; [|destruct (mem n (closed c)); [discriminate|]]; intros Q; injection Q as <-; cbn; rewrite flat_map_app; cbn; auto.
Qed.
Lemma write_ok s t c no n : quiet no n s c -> exists c', write s t c = (c', false).
Proof.
  unfold quiet, write. destruct no; [intros (k & -> & _ & Q)|intros ->; eauto]. destruct (mem k (closed c)) eqn:E; [apply mem_In in E; contradiction|eauto].
Qed.
Lemma run_heard o e : forall p no_out no_err c, plain p = true -> quiet no_out o (out c) c -> quiet no_err e (err c) c -> sane c ->
  exists c', run p c = (c', snd (heard o e no_out no_err p)) /\ seen c' = seen c ++ fst (heard o e no_out no_err p) /\
    out c' = out c /\ err c' = err c /\ sane c' /\ opened c <= opened c' /\ (forall n, In n (closed c') <-> In n (closed c) \/ opened c <= n < opened c').
Proof.
  induction p as [t|t|s|s| |p IHp q IHq|p IHp q IHq|a b p IHp]; intros no_out no_err c PL QO QE SA; cbn [plain] in PL; try discriminate PL.
  - cbn [run heard snd fst]. destruct (write_ok (out c) t c no_out o QO) as [c' E]. exists c'. rewrite E. destruct (seen_write _ _ _ _ E) as (E1 & E2 & E3 & E4 & E5).
    split; [auto|]. split; [|split; [auto|split; [auto|split; [unfold sane; rewrite E3, E4; auto|split; [lia|intros n; rewrite E3, E4; split; [auto|intros [Q|Q]; [auto|lia]]]]]]].
    rewrite E5. f_equal. unfold quiet in QO. destruct no_out; [destruct QO as (k & -> & _)|rewrite QO]; auto.
  - cbn [run heard snd fst]. destruct (write_ok (err c) t c no_err e QE) as [c' E]. exists c'. rewrite E. destruct (seen_write _ _ _ _ E) as (E1 & E2 & E3 & E4 & E5).
    split; [auto|]. split; [|split; [auto|split; [auto|split; [unfold sane; rewrite E3, E4; auto|split; [lia|intros n; rewrite E3, E4; split; [auto|intros [Q|Q]; [auto|lia]]]]]]].
    rewrite E5. f_equal. unfold quiet in QE. destruct no_err; [destruct QE as (k & -> & _)|rewrite QE]; auto.
  - exists c. cbn [run heard snd fst]. rewrite app_nil_r. do 6 (split; [auto|]). intros n. split; [auto|]. intros [Q|Q]; [auto|lia].
  - apply Bool.andb_true_iff in PL. destruct PL as [P1 P2]. cbn [run heard]. destruct (IHp no_out no_err c P1 QO QE SA) as (c1 & E1 & S1 & O1 & R1 & A1 & L1 & C1). rewrite E1.
    destruct (heard o e no_out no_err p) as [l r]. cbn [snd fst] in *. destruct r.
    + exists c1. do 6 (split; [auto|]). auto.
    + assert (QO' : quiet no_out o (out c1) c1).
      { rewrite O1. unfold quiet in *. destruct no_out; [|auto]. destruct QO as (k & E & K1 & K2). exists k. split; [auto|]. split; [lia|]. rewrite C1. intros [Q|Q]; [auto|lia]. }
      assert (QE' : quiet no_err e (err c1) c1).
      { rewrite R1. unfold quiet in *. destruct no_err; [|auto]. destruct QE as (k & E & K1 & K2). exists k. split; [auto|]. split; [lia|]. rewrite C1. intros [Q|Q]; [auto|lia]. }
      destruct (IHq no_out no_err c1 P2 QO' QE' A1) as (c2 & E2 & S2 & O2 & R2 & A2 & L2 & C2). exists c2. destruct (heard o e no_out no_err q) as [l' r']. cbn [snd fst] in *.
      split; [auto|]. split; [rewrite S2, S1, <- app_assoc; auto|]. split; [congruence|]. split; [congruence|]. split; [auto|]. split; [lia|]. intros n. rewrite C2, C1. split.
      * intros [[Q|Q]|Q]; [auto|right; lia|right; lia].
      * intros [Q|Q]; [auto|]. destruct (Nat.lt_ge_cases n (opened c1)); [left; right; lia|right; lia].
  - apply Bool.andb_true_iff in PL. destruct PL as [P1 P2]. cbn [run heard]. destruct (IHp no_out no_err c P1 QO QE SA) as (c1 & E1 & S1 & O1 & R1 & A1 & L1 & C1). rewrite E1.
    destruct (heard o e no_out no_err p) as [l r]. cbn [snd fst] in *. destruct r.
    + assert (QO' : quiet no_out o (out c1) c1).
      { rewrite O1. unfold quiet in *. destruct no_out; [|auto]. destruct QO as (k & E & K1 & K2). exists k. split; [auto|]. split; [lia|]. rewrite C1. intros [Q|Q]; [auto|lia]. }
      assert (QE' : quiet no_err e (err c1) c1).
      { rewrite R1. unfold quiet in *. destruct no_err; [|auto]. destruct QE as (k & E & K1 & K2). exists k. split; [auto|]. split; [lia|]. rewrite C1. intros [Q|Q]; [auto|lia]. }
      destruct (IHq no_out no_err c1 P2 QO' QE' A1) as (c2 & E2 & S2 & O2 & R2 & A2 & L2 & C2). exists c2. destruct (heard o e no_out no_err q) as [l' r']. cbn [snd fst] in *.
      split; [auto|]. split; [rewrite S2, S1, <- app_assoc; auto|]. split; [congruence|]. split; [congruence|]. split; [auto|]. split; [lia|]. intros n. rewrite C2, C1. split.
      * intros [[Q|Q]|Q]; [auto|right; lia|right; lia].
      * intros [Q|Q]; [auto|]. destruct (Nat.lt_ge_cases n (opened c1)); [left; right; lia|right; lia].
    + exists c1. do 6 (split; [auto|]). auto.
  - cbn [run heard enter]. set (c1 := Console _ _ _ _ _).
    assert (N : ~ In (opened c) (closed c)) by (intros Q; apply SA in Q; lia).
    destruct (IHp (no_out || a) (no_err || b) c1 PL) as (c2 & E & S2 & O2 & R2 & A2 & L2 & C2).
    + unfold quiet, c1. cbn [out opened closed]. destruct a.
      * rewrite Bool.orb_true_r. exists (opened c). auto.
      * rewrite Bool.orb_false_r. unfold quiet in QO. destruct no_out; [|auto]. destruct QO as (k & E & K1 & K2). exists k. auto.
    + unfold quiet, c1. cbn [err opened closed]. destruct b.
      * rewrite Bool.orb_true_r. exists (opened c). auto.
      * rewrite Bool.orb_false_r. unfold quiet in QE. destruct no_err; [|auto]. destruct QE as (k & E & K1 & K2). exists k. auto.
    + intros n Hn. cbn [c1 opened closed] in *. apply SA in Hn. lia.
    + rewrite E. exists (leave (Kept a b (out c) (err c) (opened c)) c2). split; [auto|]. split; [exact S2|]. cbn [leave out err opened closed k_out k_err k_stdout k_stderr k_null].
      cbn [c1 out err opened closed] in O2, R2, L2, C2. split; [destruct a; auto|]. split; [destruct b; auto|]. split; [|split; [lia|]].
      * intros n [<-|Q]; [cbn; lia|cbn [leave opened]; apply A2; auto].
      * intros n. cbn [In]. rewrite C2. split.
        -- intros [<-|[Q|Q]]; [right; lia|auto|right; lia].
        -- intros [Q|Q]; [auto|]. destruct (Nat.eq_dec (opened c) n); [auto|right; right; lia].
Qed.

(*P C114 Silencing the output *)
(** only what is not silenced is seen, and afterwards everything is as before *)
Lemma C114_heard : forall p c o e, plain p = true -> out c = Process o -> err c = Process e -> (forall n, In n (closed c) -> n < opened c) ->
  exists c', run p c = (c', snd (heard o e false false p)) /\ seen c' = seen c ++ fst (heard o e false false p) /\
    out c' = out c /\ err c' = err c /\ (all_closed c -> all_closed c').
Proof.
  intros p c o e PL HO HE SA. destruct (run_heard o e p false false c PL HO HE SA) as (c' & E & S & O & R & A & L & C). exists c'. do 4 (split; [auto|]).
  intros AC n Hn. apply C. destruct (Nat.lt_ge_cases n (opened c)); [left; auto|right; lia].
Qed.
(** even if the program redirects the streams itself *)
Lemma C114_restored : forall p suppress_stdout suppress_stderr c c' r, run (Nullify suppress_stdout suppress_stderr p) c = (c', r) ->
  (suppress_stdout = true -> out c' = out c) /\ (suppress_stderr = true -> err c' = err c).
Proof.
  intros p a b c c' r E. cbn [run enter] in E. destruct (run p _) as [c2 r2]. injection E as <- _. cbn. split; intros ->; auto.
Qed.
(** contexts that overlap without being nested leave a closed stream behind *)
Lemma C114_overlap_witness : forall c t, let '(c1, k1) := enter true true c in let '(c2, k2) := enter true true c1 in
  let c3 := leave k2 (leave k1 c2) in out c3 = Null (opened c) /\ snd (write (out c3) t c3) = true.
Proof.
  intros c t. cbn [enter leave out k_out k_stdout opened]. split; [auto|]. unfold write. rewrite (proj2 (mem_In _ _)); [auto|]. cbn [leave closed k_null]. right. left. auto.
Qed.
