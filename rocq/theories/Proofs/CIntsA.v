(** 32 bit integers in matrices (C144) *)
From Coq Require Import String.
From Verif.Model Require Import Base DP Lcs Levenshtein CInts EventLog Dfg.
From Verif.Model Require ListUtils.
From Verif.Spec Require Import Logs EventLogSpec DfgSpec DfgBuilt.
From Verif.Proofs Require DfgJ.
From Verif.Lib Require Import ListLib.
Open Scope list_scope.
Open Scope nat_scope.

Section R.
  Context {A V W : Type} (cell : A -> A -> V -> V -> V -> V) (cell' : A -> A -> W -> W -> W -> W)
    (L : nat) (R : nat -> V -> W -> Prop).
  Hypothesis step : forall x y k d u l d' u' l', S (S k) <= L -> R k d d' -> R (S k) u u' -> R (S k) l l' ->
    R (S (S k)) (cell x y d u l) (cell' x y d' u' l').
  Fixpoint related (k : nat) (l : list V) (l' : list W) : Prop :=
    match l, l' with
    | [], [] => True
    | v :: r, w :: r' => R k v w /\ related (S k) r r'
    | _, _ => False
    end.
  Lemma row_related x : forall ys k prev prev' left left', S k + length ys <= L -> related k prev prev' -> R (S k) left left' ->
    related (S (S k)) (dp_row cell x ys prev left) (dp_row cell' x ys prev' left').
  Proof.
    induction ys as [|y ys IH]; intros k prev prev' left left' HL Hp Hl; cbn [dp_row]; [cbn; auto|].
    destruct prev as [|d prev]; destruct prev' as [|d' prev']; cbn [related] in Hp; try contradiction; [cbn; auto|].
    destruct Hp as [Hd Hp]. destruct prev as [|u prev]; destruct prev' as [|u' prev']; cbn [related] in Hp; try contradiction; [cbn; auto|].
    destruct Hp as [Hu Hp]. cbn [length] in HL. assert (Hc : R (S (S k)) (cell x y d u left) (cell' x y d' u' left')) by (apply step; auto; lia).
    cbn [related tl]. split; [auto|]. apply IH; [lia| |auto]. cbn [related]. auto.
  Qed.
  Lemma rows_related col col' : forall xs i ys prev prev', i + length xs + length ys <= L -> (forall j, j <= L -> R j (col j) (col' j)) ->
    related i prev prev' ->
    Forall2 (fun r r' => exists k, related k r r') (dp_rows cell col i xs ys prev) (dp_rows cell' col' i xs ys prev').
  Proof.
    induction xs as [|x xs IH]; intros i ys prev prev' HL Hc Hp; cbn [dp_rows]; [constructor|]. cbn [length] in HL.
    assert (Hr : related (S i) (col (S i) :: dp_row cell x ys prev (col (S i))) (col' (S i) :: dp_row cell' x ys prev' (col' (S i)))).
    { cbn [related]. split; [apply Hc; lia|]. apply row_related; auto; [lia|apply Hc; lia]. }
    constructor; [eauto|]. apply IH; auto. lia.
  Qed.
  Lemma matrix_related col col' row0 row0' xs ys : length xs + length ys <= L -> (forall j, j <= L -> R j (col j) (col' j)) ->
    related 0 row0 row0' ->
    Forall2 (fun r r' => exists k, related k r r') (dp_matrix cell col row0 xs ys) (dp_matrix cell' col' row0' xs ys).
  Proof. intros HL Hc H0. unfold dp_matrix. constructor; [eauto|]. apply rows_related; auto. Qed.
  Lemma related_map {B} (f : B -> V) (g : B -> W) : forall l k, (forall j b, nth_error l j = Some b -> R (k + j) (f b) (g b)) -> related k (map f l) (map g l).
  Proof.
    induction l as [|b l IH]; intros k Hl; cbn [map related]; [auto|]. split.
    - specialize (Hl 0 b eq_refl). rewrite Nat.add_0_r in Hl. auto.
    - apply IH. intros j c E. specialize (Hl (S j) c E). replace (S k + j) with (k + S j) by lia. auto.
  Qed.
End R.

(** all cells defined: the matrix is the one of exact integers *)
Lemma defined_row {V W} (f : V -> W) (R : nat -> V -> option W -> Prop) : (forall k v w, R k v w -> w = Some (f v)) ->
  forall l l' k, related R k l l' -> all_some l' = Some (map f l).
Proof.
  intros HR. induction l as [|v l IH]; intros [|w l'] k Hr; cbn [related] in Hr; try contradiction; [auto|].
  destruct Hr as [H1 H2]. apply HR in H1. subst w. cbn [all_some map]. rewrite (IH l' (S k)); auto.
Qed.
Lemma defined_matrix {V W} (f : V -> W) (R : nat -> V -> option W -> Prop) : (forall k v w, R k v w -> w = Some (f v)) ->
  forall m m', Forall2 (fun r r' => exists k, related R k r r') m m' -> all_some (map all_some m') = Some (map (map f) m).
Proof.
  intros HR m m'. induction 1 as [|r r' m m' [k Hr] Hm IH]; cbn [map all_some]; [auto|].
  rewrite (defined_row f R HR r r' k Hr). rewrite IH. auto.
Qed.
Lemma same_row {V W} (f : V -> W) (R : nat -> V -> option W -> Prop) : (forall k v w, R k v w -> w = None \/ w = Some (f v)) ->
  forall l l' k r, related R k l l' -> all_some l' = Some r -> r = map f l.
Proof.
  intros HR. induction l as [|v l IH]; intros [|w l'] k r Hr; cbn [related all_some] in *; try contradiction; [intros E; injection E as <-; auto|].
  destruct Hr as [H1 H2]. apply HR in H1. destruct H1 as [->| ->]; [discriminate|].
  destruct (all_some l') as [r'|] eqn:E; [|discriminate]. intros X. injection X as <-. cbn [map]. f_equal. eapply IH; eauto.
Qed.
Lemma same_matrix {V W} (f : V -> W) (R : nat -> V -> option W -> Prop) : (forall k v w, R k v w -> w = None \/ w = Some (f v)) ->
  forall m m', Forall2 (fun r r' => exists k, related R k r r') m m' -> forall r, all_some (map all_some m') = Some r -> r = map (map f) m.
Proof.
  intros HR m m'. induction 1 as [|x x' m m' [k Hr] Hm IH]; cbn [map all_some]; intros r E; [injection E as <-; auto|].
  destruct (all_some x') as [y|] eqn:E1; [|discriminate]. destruct (all_some (map all_some m')) as [z|] eqn:E2; [|discriminate].
  injection E as <-. f_equal; [eapply same_row; eauto|auto].
Qed.
Lemma undefined {X} (l : list (option X)) : In None l -> all_some l = None.
Proof. induction l as [|o l IH]; intros []; cbn [all_some]; [subst; auto|]. destruct o; auto. rewrite IH; auto. Qed.
Lemma is_int_ok z : is_int z = true <-> (- 2 ^ 31 <= z < 2 ^ 31)%Z.
Proof. unfold is_int. rewrite andb_true_iff, Z.leb_le, Z.ltb_lt. tauto. Qed.
Lemma c_int_ok z : (- 2 ^ 31 <= z < 2 ^ 31)%Z -> c_int z = Some z.
Proof. intros Hz. unfold c_int. rewrite (proj2 (is_int_ok z) Hz). auto. Qed.
Lemma c_int_cases z : c_int z = None \/ c_int z = Some z.
Proof. unfold c_int. destruct (is_int z); auto. Qed.
Lemma counters_ok {X} (a b : list X) : (Z.of_nat (length a + 1) < 2 ^ 31)%Z -> (Z.of_nat (length b + 1) < 2 ^ 31)%Z -> counters a b = true.
Proof. intros Ha Hb. unfold counters. rewrite andb_true_iff, !is_int_ok. lia. Qed.
Lemma map_id' {X} (l : list X) : map (fun x => x) l = l.
Proof. apply map_id. Qed.
Lemma matrix_id {X} (m : list (list X)) : map (map (fun x => x)) m = m.
Proof. rewrite (map_ext (map (fun x => x)) (fun l => l)); [apply map_id|]. intros. apply map_id. Qed.

(*P C144 Integers of the compiled code *)
(** Edit costs: while the product of the total length plus one and the largest cost
    is a C int, none of the additions overflows and the result is that of exact
    integers. *)
Lemma C144_levenshtein : forall (A : Type) (EA : Eq A) (s1 s2 : list A) fuel ins del sub M,
  (Z.abs ins <= M)%Z -> (Z.abs del <= M)%Z -> (Z.abs sub <= M)%Z -> (1 <= M)%Z ->
  (Z.of_nat (length s1 + length s2 + 1) * M < 2 ^ 31)%Z ->
  levenshtein_int fuel s1 s2 ins del sub = Some (levenshtein_with_backtrace fuel s1 s2 ins del sub).
Proof.
  intros A EA s1 s2 fuel ins del sub M Hi Hd Hs HM HL.
  set (R := fun (k : nat) (v : Z) (w : option Z) => w = Some v /\ (Z.abs v <= Z.of_nat k * M)%Z).
  unfold levenshtein_int. rewrite counters_ok by nia. rewrite (defined_matrix (fun x => x) R) with (m := compute_cost_matrix s1 s2 ins del sub).
  - rewrite matrix_id. reflexivity.
  - intros k v w [E _]. auto.
  - unfold compute_cost_matrix, cost_matrix_int. apply matrix_related with (L := length s1 + length s2); auto.
    + intros x y k d u l d' u' l' Hk [-> Bd] [-> Bu] [-> Bl]. unfold R, lev_cell, lev_cell_int, c_add, c_min, lift.
      assert (Hb : (Z.of_nat (S (S k)) * M < 2 ^ 31)%Z) by nia.
      assert (He : (Z.abs (if eqb x y then 0 else sub) <= M)%Z) by (destruct (eqb x y); lia).
      rewrite !c_int_ok by (rewrite ?Nat2Z.inj_succ in *; nia). split; [auto|]. rewrite !Nat2Z.inj_succ in *. nia.
    + intros j Hj. split; [apply c_int_ok; nia|nia].
    + rewrite <- (map_map Z.of_nat c_int). rewrite <- (map_id' (map Z.of_nat _)) at 1. apply related_map. intros j b E.
      rewrite nth_error_map in E. destruct (nth_error (seq 0 (length s2 + 1)) j) as [q|] eqn:Eq; [|discriminate]. injection E as <-.
      assert (q = j /\ j < length s2 + 1) as [-> Hj]. { pose proof (nth_error_Some (seq 0 (length s2 + 1)) j) as Hn. rewrite Eq, seq_length in Hn. assert (j < length s2 + 1) by (apply Hn; discriminate). split; [|auto]. rewrite (nth_error_nth' _ 0) in Eq by (rewrite seq_length; auto). rewrite seq_nth in Eq by auto. injection Eq as <-. auto. }
      unfold R. rewrite Nat.add_0_l. split; [apply c_int_ok; nia|nia].
Qed.
(** Whatever the costs: if nothing overflowed, the result is that of exact integers. *)
Lemma C144_levenshtein_defined : forall (A : Type) (EA : Eq A) (s1 s2 : list A) fuel ins del sub r,
  levenshtein_int fuel s1 s2 ins del sub = Some r -> r = levenshtein_with_backtrace fuel s1 s2 ins del sub.
Proof.
  intros A EA s1 s2 fuel ins del sub r. unfold levenshtein_int.
  destruct (counters s1 s2); [|discriminate].
  destruct (all_some (map all_some (cost_matrix_int s1 s2 ins del sub))) as [C|] eqn:E; [|discriminate].
  intros X. injection X as <-.
  apply (same_matrix (fun x => x) (fun _ (v : Z) w => w = None \/ w = Some v)) with (m := compute_cost_matrix s1 s2 ins del sub) in E; auto.
  - rewrite matrix_id in E. subst C. reflexivity.
  - unfold compute_cost_matrix, cost_matrix_int. apply matrix_related with (L := length s1 + length s2); auto.
    + intros x y k d u l d' u' l' _ Hd Hu Hl. unfold lev_cell, lev_cell_int, c_add, c_min, lift.
      destruct Hd as [->| ->]; destruct Hu as [->| ->]; destruct Hl as [->| ->]; auto;
        repeat match goal with |- context [c_int ?z] => destruct (c_int_cases z) as [->| ->]; auto end.
    + intros j _. apply c_int_cases.
    + rewrite <- (map_map Z.of_nat c_int). rewrite <- (map_id' (map Z.of_nat _)) at 1. apply related_map. intros. apply c_int_cases.
Qed.
(** The largest C int as insertion cost overflows for all non-empty sequences. *)
Lemma C144_levenshtein_overflow_witness : forall (A : Type) (EA : Eq A) (s1 s2 : list A) fuel del sub, s1 <> [] -> s2 <> [] ->
  levenshtein_int fuel s1 s2 (2 ^ 31 - 1) del sub = None.
Proof.
  intros A EA [|x s1] [|y s2] fuel del sub H1 H2; try congruence. unfold levenshtein_int. destruct (counters _ _); auto. unfold cost_matrix_int, dp_matrix.
  cbn [length Nat.add seq map dp_rows dp_row tl].
  assert (E : forall up diag, lev_cell_int (2 ^ 31 - 1) del sub x y diag up (c_int (Z.of_nat 1)) = None).
  { intros up diag. unfold lev_cell_int. rewrite (c_int_ok (Z.of_nat 1)) by (change (Z.of_nat 1) with 1%Z; lia).
    replace (c_add (Some (Z.of_nat 1)) (Some (2 ^ 31 - 1)%Z)) with (@None Z) by (vm_compute; reflexivity). reflexivity. }
  assert (Hl : exists v l, seq 1 (length s2 + 1) = v :: l) by (rewrite Nat.add_comm; cbn; eauto). destruct Hl as (v & l & ->).
  cbn [map]. rewrite E.
  match goal with |- context [all_some (c_int (Z.of_nat 1) :: None :: ?t)] => rewrite (undefined (c_int (Z.of_nat 1) :: None :: t)) by (cbn; auto) end.
  match goal with |- context [all_some (?q :: None :: ?t)] => rewrite (undefined (q :: None :: t)) by (cbn; auto) end. reflexivity.
Qed.
(** Common subsequences: no overflow for fewer than 2^31-1 elements in total. *)
Lemma C144_common_subsequence : forall (A : Type) (EA : Eq A) (x y : list A), (Z.of_nat (length x + length y + 1) < 2 ^ 31)%Z ->
  lcs_length_int x y = Some (length_of_common_subsequence x y) /\ lcs_backtrace_int x y = Some (lcs_with_backtrace x y).
Proof.
  intros A EA x y HL.
  assert (E : lcs_matrix_int x y = Some (compute_lcs_matrix x y)).
  { unfold lcs_matrix_int. rewrite counters_ok by lia. set (R := fun (k : nat) (v : nat) (w : option Z) => w = Some (Z.of_nat v) /\ v <= k).
    rewrite (defined_matrix Z.of_nat R) with (m := compute_lcs_matrix x y).
    - cbn [option_map]. f_equal. rewrite map_map. rewrite <- (map_id (compute_lcs_matrix x y)) at 2. apply map_ext. intros r.
      rewrite map_map. rewrite <- (map_id r) at 2. apply map_ext. intros. apply Nat2Z.id.
    - intros k v w [Ew _]. auto.
    - unfold compute_lcs_matrix. apply matrix_related with (L := length x + length y); auto.
      + intros a b k d u l d' u' l' Hk [-> Bd] [-> Bu] [-> Bl]. unfold R, lcs_cell, lcs_cell_int, c_add, c_max, lift.
        destruct (eqb a b); (split; [|lia]); [rewrite c_int_ok by lia; f_equal; lia|f_equal; lia].
      + intros j _. split; [auto|lia].
      + clear HL. assert (G : forall n k, related R k (repeat 0 n) (repeat (Some 0%Z) n)) by (induction n as [|n IH]; intros k; cbn; auto; split; [split; [auto|lia]|auto]).
        apply G. }
  unfold lcs_length_int, lcs_backtrace_int. rewrite E. auto.
Qed.
(** Common blocks: the same. *)
Lemma C144_common_sublists : forall (A : Type) (EA : Eq A) (a b : list A), (Z.of_nat (length a + 1) < 2 ^ 31)%Z -> (Z.of_nat (length b + 1) < 2 ^ 31)%Z ->
  longest_common_sublists_int a b = Some (ListUtils.longest_common_sublists a b).
Proof.
  intros A EA a b HL HLb. unfold longest_common_sublists_int. rewrite counters_ok by auto. unfold ListUtils.longest_common_sublists.
  assert (Rw : forall i prev x ys j row st, (forall v, In v prev -> v <= i) -> (forall v, In v row -> v <= S i) -> (Z.of_nat (S i) < 2 ^ 31)%Z ->
     block_row_int prev i j x ys row st = Some (ListUtils.lcs_row prev i j x ys row st) /\
     forall v, In v (fst (ListUtils.lcs_row prev i j x ys row st)) -> v <= S i).
  { intros i prev x. induction ys as [|y ys IH]; intros j row st Hp Hr Hi; cbn [block_row_int ListUtils.lcs_row]; [auto|].
    unfold block_cell_int, ListUtils.lcs_cell. destruct st as [len ind]. destruct (eqb x y).
    - set (m := if (i =? 0) || (j =? 0) then 1 else nth (j - 1) prev 0 + 1).
      assert (Hm : m <= S i). { unfold m. destruct ((i =? 0) || (j =? 0)); [lia|]. destruct (nth_in_or_default (j - 1) prev 0) as [Hin|E]; [apply Hp in Hin; lia|rewrite E; lia]. }
      rewrite (proj2 (is_int_ok (Z.of_nat m))) by lia.
      assert (Hr' : forall v, In v (row ++ [m]) -> v <= S i) by (intros v Hv; apply in_app_or in Hv as [Hv|[<-|[]]]; auto).
      destruct (len <? m); [apply IH; auto|]. destruct (m =? len); apply IH; auto.
    - apply IH; auto. intros v Hv. apply in_app_or in Hv as [Hv|[<-|[]]]; auto. lia. }
  assert (Rs : forall xs i prev st, (forall v, In v prev -> v <= i) -> (Z.of_nat (i + length xs) < 2 ^ 31)%Z ->
     block_rows_int prev i xs b st = Some (ListUtils.lcs_rows prev i xs b st)).
  { induction xs as [|x xs IH]; intros i prev st Hp Hi; cbn [block_rows_int ListUtils.lcs_rows]; [auto|]. cbn [length] in Hi.
    destruct (Rw i prev x b 0 [] st Hp) as [E Hv]; [intros v []|lia|]. rewrite E. destruct (ListUtils.lcs_row prev i 0 x b [] st) as [row st'].
    apply IH; [exact Hv|lia]. }
  rewrite Rs; [|intros v []|cbn; lia]. cbn [option_map]. destruct (ListUtils.lcs_rows [] 0 a b (0, [])). reflexivity.
Qed.
(** Counts: those of a log are at most its number of events. *)
Lemma C144_directly_follows_counts : forall {V I} (l : log string V I), (Z.of_nat (list_sum (map (fun t => length (events t)) l)) < 2 ^ 31)%Z ->
  exists g, create_from_event_log l = Ok g /\ forall a b, (0 <= get_count a b g < 2 ^ 31)%Z.
Proof.
  intros V I l HL. destruct (DfgJ.C37_directly_follows_counts l) as (g & C & E & _ & Hs & Hc). exists g. split; [auto|]. intros a b.
  rewrite (sh_count _ _ _ Hs). destruct (Hc a b) as (n & Hn & ->). destruct (n =? 0) eqn:E0; [lia|].
  enough (n <= list_sum (map (fun t => length (events t)) l)) by lia. clear - Hn. destruct Hn as (ps & Hd & Hi & <-).
  assert (G : forall (l : log string V I) k0, length (flat_map (fun '(k, t) => map (fun i => (k, i)) (seq 0 (length (events t)))) (combine (seq k0 (length l)) l))
     = list_sum (map (fun t => length (events t)) l)).
  { induction l0 as [|t l0 IH]; intros k0; [auto|]. cbn [length seq combine flat_map map list_sum fold_right]. rewrite app_length, map_length, seq_length, IH. auto. }
  rewrite <- (G l 0). apply NoDup_incl_length; [auto|]. intros [k i] Hin. apply Hi in Hin. destruct Hin as (t & Ht & Ha & _).
  apply in_flat_map. exists (k, t). split.
  - assert (G2 : forall (l : log string V I) k0 k, nth_error l k = Some t -> In (k0 + k, t) (combine (seq k0 (length l)) l)).
    { clear. induction l as [|u l IH]; intros k0 [|k] Hk; try discriminate; cbn [length seq combine].
      - injection Hk as ->. left. f_equal. lia.
      - right. replace (k0 + S k) with (S k0 + k) by lia. auto. }
    apply (G2 l 0 k Ht).
  - apply in_map. apply in_seq. split; [lia|]. unfold act in Ha. destruct (nth_error (events t) i) eqn:En; [|discriminate].
    cbn. apply nth_error_Some. congruence.
Qed.
