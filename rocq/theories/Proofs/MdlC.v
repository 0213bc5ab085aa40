(** Binomials, multinomials, prequential codes *)
From Coq Require Import Reals ZArith Lra Lia List Arith.
From Verif.Model Require Import Base Mdl.
From Verif.Spec Require Import MdlSpec.
From Verif.Proofs Require Import MdlA MdlB.
Open Scope R_scope.
Open Scope list_scope.

(** ** The logarithm of the gamma function *)
Lemma fact_ge1 n : (1 <= fact n)%nat.
Proof. pose proof (lt_O_fact n). lia. Qed.
Lemma INR_fact_pos n : 0 < INR (fact n).
Proof. apply lt_0_INR. apply lt_O_fact. Qed.
Lemma lgamma_fact g : is_lgamma g -> forall n, g (INR n + 1) = ln (INR (fact n)).
Proof.
  intros [H1 HS]. induction n as [|n IH].
  - cbn [INR fact]. rewrite Rplus_0_l, H1. cbn. rewrite ln_1. auto.
  - rewrite HS by (pose proof (pos_INR n); rewrite S_INR; lra). rewrite S_INR at 1. rewrite IH. 
    change (fact (S n)) with (S n * fact n)%nat. rewrite mult_INR, ln_mult; [lra| |apply INR_fact_pos].
    apply lt_0_INR. lia.
Qed.
Lemma IZR_INR z : (0 <= z)%Z -> IZR z = INR (Z.to_nat z).
Proof. intros H. rewrite INR_IZR_INZ. f_equal. lia. Qed.
Lemma lgamma_factZ g : is_lgamma g -> forall z, (0 <= z)%Z -> g (IZR z + 1) = ln (INR (fact (Z.to_nat z))).
Proof. intros H z Hz. rewrite IZR_INR by auto. apply lgamma_fact; auto. Qed.

(** ** Counting *)
Lemma NoDup_app_disj {X} (l l' : list X) : NoDup l -> NoDup l' -> (forall x, In x l -> In x l' -> False) -> NoDup (l ++ l').
Proof.
  induction 1 as [|a l Ha Hl IH]; intros Hl' D; [exact Hl'|]. cbn. constructor.
  - rewrite in_app_iff. intros [H|H]; [auto|]. apply (D a); [left|]; auto.
  - apply IH; auto. intros x Hx. apply D. right. auto.
Qed.
Lemma NoDup_map_inj {X Y} (f : X -> Y) l : (forall x y, f x = f y -> x = y) -> NoDup l -> NoDup (map f l).
Proof.
  intros I. induction 1 as [|a l Ha Hl IH]; cbn; constructor; auto. rewrite in_map_iff. intros (y & E & Hy). apply I in E. subst. auto.
Qed.

Fixpoint selections (n k : nat) : list (list bool) :=
  match n, k with
  | O, O => [[]]
  | O, S _ => []
  | S n', O => map (cons false) (selections n' O)
  | S n', S k' => map (cons false) (selections n' (S k')) ++ map (cons true) (selections n' k')
  end.
Lemma selections_spec n : forall k w, In w (selections n k) <-> selection n k w.
Proof.
  unfold selection. induction n as [|n IH]; intros k w.
  - destruct k; cbn [selections In]; split.
    + intros [<-|[]]. auto.
    + intros [H _]. destruct w; [auto|discriminate].
    + intros [].
    + intros [H H1]. destruct w; [|discriminate]. discriminate.
  - destruct k as [|k]; cbn [selections]; [|rewrite in_app_iff]; rewrite !in_map_iff; split.
    + intros (v & <- & Hv). apply IH in Hv. cbn. destruct Hv. split; [lia|auto].
    + intros [H H1]. destruct w as [|b w]; [discriminate|]. cbn in H, H1. destruct b; cbn in H1; [discriminate|]. exists w. split; [auto|]. apply IH. lia.
    + intros [(v & <- & Hv)|(v & <- & Hv)]; apply IH in Hv; cbn; destruct Hv; split; lia.
    + intros [H H1]. destruct w as [|b w]; [discriminate|]. cbn in H, H1. destruct b; cbn in H1; [right|left]; exists w; (split; [auto|]); apply IH; lia.
Qed.
Lemma selections_NoDup n : forall k, NoDup (selections n k).
Proof.
  induction n as [|n IH]; intros [|k]; cbn [selections].
  - constructor; [intros []|constructor].
  - constructor.
  - apply NoDup_map_inj; [intros x y E; congruence|auto].
  - apply NoDup_app_disj; try (apply NoDup_map_inj; [intros x y E; congruence|auto]).
    intros x Hx Hy. apply in_map_iff in Hx, Hy. destruct Hx as (u & <- & _), Hy as (v & E & _). discriminate.
Qed.
Lemma selections_length n : forall k, (k <= n)%nat -> (length (selections n k) * (fact k * fact (n - k)) = fact n)%nat.
Proof.
  induction n as [|n IH]; intros [|k] H; cbn [selections]; try lia; try reflexivity.
  - rewrite map_length. specialize (IH 0%nat ltac:(lia)). rewrite Nat.sub_0_r in *.
    change (fact (S n)) with (S n * fact n)%nat. change (fact 0) with 1%nat in *. rewrite Nat.mul_1_l in *. 
    replace (length (selections n 0) * (S n * fact n))%nat with (S n * (length (selections n 0) * fact n))%nat by ring. rewrite IH. auto.
  - rewrite app_length, !map_length. cbn [Nat.sub]. assert (A := IH k ltac:(lia)).
    change (fact (S n)) with (S n * fact n)%nat.
    assert (Ek : fact (S k) = (S k * fact k)%nat) by reflexivity.
    destruct (Nat.eq_dec k n) as [->|Hk].
    + assert (Z0 : length (selections n (S n)) = 0%nat).
      { destruct (selections n (S n)) as [|w l] eqn:E; [auto|exfalso]. assert (Hw : In w (selections n (S n))) by (rewrite E; left; auto).
        apply selections_spec in Hw. destruct Hw as [H1 H2]. pose proof (count_occ_bound Bool.bool_dec true w). lia. }
      rewrite Z0. rewrite Ek. rewrite <- A at 2. ring.
    + assert (B := IH (S k) ltac:(lia)). assert (En : fact (n - k) = ((n - k) * fact (n - S k))%nat).
      { replace (n - k)%nat with (S (n - S k)) by lia. reflexivity. }
      rewrite Ek, En in *. assert (Hs : exists d, n = (S k + d)%nat) by (exists (n - S k)%nat; lia). destruct Hs as [d Hd].
      replace (n - S k)%nat with d in * by lia. replace (n - k)%nat with (S d) in * by lia.
      set (x := length (selections n (S k))) in *. set (y := length (selections n k)) in *.
      replace ((x + y) * (S k * fact k * (S d * fact d)))%nat with (S d * (x * (S k * fact k * fact d)) + S k * (y * (fact k * (S d * fact d))))%nat by ring.
      rewrite A, B, Hd. ring.
Qed.
(** a count given by a quotient of factorials *)
Lemma lg_quot c d m : (c * d = m)%nat -> (1 <= m)%nat -> lg (INR c) = (ln (INR m) - ln (INR d)) / ln 2.
Proof.
  intros E Hm. assert (Hc : (1 <= c)%nat) by (destruct c; lia). assert (Hd : (1 <= d)%nat) by (destruct d; lia).
  rewrite <- E, mult_INR, ln_mult by (apply lt_0_INR; lia). unfold lg. f_equal. lra.
Qed.
Lemma log2binom_ok g b n k : is_lgamma g -> is_betaln g b -> (0 <= k <= n)%Z ->
  log2binom b n k = lg (INR (length (selections (Z.to_nat n) (Z.to_nat k)))).
Proof.
  intros Hg Hb Hk. assert (L := selections_length (Z.to_nat n) (Z.to_nat k) ltac:(lia)).
  rewrite (lg_quot _ _ _ L (fact_ge1 _)). unfold log2binom. destruct (Z.eqb_spec k 0) as [->|H0].
  - change (Z.to_nat 0) with 0%nat. rewrite Nat.sub_0_r. change (fact 0) with 1%nat. rewrite Nat.mul_1_l. unfold Rdiv. ring.
  - destruct (Z.eqb_spec k 1) as [->|H1].
    + change (Z.to_nat 1) with 1%nat. change (fact 1) with 1%nat. rewrite Nat.mul_1_l. unfold log2. f_equal.
      rewrite (IZR_INR n) by lia. replace (Z.to_nat n) with (S (Z.to_nat n - 1)) at 2 by lia.
      change (fact (S (Z.to_nat n - 1))) with (S (Z.to_nat n - 1) * fact (Z.to_nat n - 1))%nat.
      replace (S (Z.to_nat n - 1)) with (Z.to_nat n) by lia. rewrite mult_INR, ln_mult; [lra|apply lt_0_INR; lia|apply INR_fact_pos].
    + assert (Ek : 0 <= IZR k) by (apply (IZR_le 0); lia). assert (En : IZR k <= IZR n) by (apply IZR_le; lia).
      rewrite Hb by lra. f_equal. rewrite mult_INR, ln_mult by apply INR_fact_pos.
      replace (1 + IZR n - IZR k) with (IZR (n - k) + 1) by (rewrite minus_IZR; lra). replace (1 + IZR k) with (IZR k + 1) by lra.
      rewrite !lgamma_factZ by (auto; lia). replace (IZR (n - k) + 1 + (IZR k + 1)) with ((IZR n + 1) + 1) by (rewrite minus_IZR; lra).
      destruct Hg as [Hg1 Hg2]. rewrite Hg2 by lra. rewrite lgamma_factZ by (split || lia; auto).
      replace (Z.to_nat (n - k)) with (Z.to_nat n - Z.to_nat k)%nat by lia. lra.
Qed.

(** ** Compositions *)
Definition bump (l : list nat) : list nat := match l with [] => [] | a :: r => S a :: r end.
Fixpoint compositions (m n : nat) : list (list nat) :=
  match m, n with
  | O, O => [[]]
  | O, S _ | S _, O => []
  | S m', S n' => map (cons 1%nat) (compositions m' n') ++ map bump (compositions m' n)
  end.
Lemma compositions_spec m : forall n l, In l (compositions m n) <-> composition m n l.
Proof.
  unfold composition. induction m as [|m IH]; intros n l.
  - destruct n; cbn [compositions In]; split.
    + intros [<-|[]]. auto.
    + intros [H _]. destruct l; [auto|discriminate].
    + intros [].
    + intros (H & H1 & H2). destruct l as [|a l]; [discriminate|]. inversion H1; subst. cbn in H2. lia.
  - destruct n as [|n]; cbn [compositions].
    + split; [intros []|]. intros (H & _ & H2). destruct l; discriminate.
    + rewrite in_app_iff, !in_map_iff. split.
      * intros [(v & <- & Hv)|(v & <- & Hv)]; apply IH in Hv; destruct Hv as (H & H1 & H2).
        -- cbn. split; [lia|]. split; [constructor; [lia|auto]|lia].
        -- destruct v as [|a v]; [discriminate|]. cbn in *. split; [lia|]. inversion H1; subst. split; [constructor; [lia|auto]|lia].
      * intros (H & H1 & H2). destruct l as [|a l]; [discriminate|]. inversion_clear H1 as [|? ? Ha Hl]. cbn in H, H2.
        destruct a as [|[|a]]; [lia| |].
        -- left. exists l. split; [auto|]. apply IH. split; [lia|]. split; [auto|lia].
        -- right. exists (S a :: l). split; [auto|]. apply IH. cbn. split; [lia|]. split; [constructor; [lia|auto]|lia].
Qed.
Lemma bump_inj l l' : l <> [] -> l' <> [] -> bump l = bump l' -> l = l'.
Proof. destruct l, l'; cbn; congruence. Qed.
Lemma compositions_NoDup m : forall n, NoDup (compositions m n).
Proof.
  induction m as [|m IH]; intros [|n]; cbn [compositions]; try constructor; try constructor; [intros []|].
  apply NoDup_app_disj.
  - apply NoDup_map_inj; [intros x y E; congruence|auto].
  - assert (G : forall L, NoDup L -> (forall l, In l L -> l <> []) -> NoDup (map bump L)).
    { induction 1 as [|a L Ha HL IHL]; intros Hne; cbn; constructor.
      - rewrite in_map_iff. intros (y & E & Hy). apply bump_inj in E; [subst; auto|apply Hne; right; auto|apply Hne; left; auto].
      - apply IHL. intros l Hl. apply Hne. right. auto. }
    apply G; [auto|]. intros l Hl. apply compositions_spec in Hl. destruct Hl as [H _]. intros ->. discriminate.
  - intros x Hx Hy. apply in_map_iff in Hx, Hy. destruct Hx as (u & <- & _), Hy as (v & E & Hv).
    apply compositions_spec in Hv. destruct Hv as (H & H1 & _). destruct v as [|a v]; [discriminate|]. inversion H1; subst. cbn in E. injection E as E1 _. lia.
Qed.
Lemma compositions_length m : forall n, length (compositions (S m) (S n)) = length (selections m n).
Proof.
  induction m as [|m IH]; intros n.
  - cbn [compositions]. destruct n; reflexivity.
  - change (compositions (S (S m)) (S n)) with (map (cons 1%nat) (compositions (S m) n) ++ map bump (compositions (S m) (S n))).
    rewrite app_length, !map_length, IH. destruct n as [|n]; [cbn [compositions selections]; rewrite map_length; reflexivity|].
    rewrite IH. cbn [selections]. rewrite app_length, !map_length. lia.
Qed.

(** ** Arrangements *)
Fixpoint dec_at (i : nat) (ks : list nat) : list nat :=
  match ks, i with
  | [], _ => []
  | k :: r, O => pred k :: r
  | k :: r, S i' => k :: dec_at i' r
  end.
Lemma dec_length ks : forall i, length (dec_at i ks) = length ks.
Proof. induction ks as [|k r IH]; intros [|i]; cbn; auto. Qed.
Lemma dec_nth ks : forall i j, nth j (dec_at i ks) 0%nat = if Nat.eq_dec i j then pred (nth j ks 0%nat) else nth j ks 0%nat.
Proof.
  induction ks as [|k r IH]; intros i j.
  - destruct (Nat.eq_dec i j); destruct i, j; cbn; auto.
  - destruct i as [|i], j as [|j]; cbn [dec_at nth]; auto. rewrite IH. destruct (Nat.eq_dec i j), (Nat.eq_dec (S i) (S j)); auto; lia.
Qed.
Definition sum_nat (l : list nat) : nat := fold_right Nat.add 0%nat l.
Definition prod_fact (l : list nat) : nat := fold_right (fun k p => (fact k * p)%nat) 1%nat l.
Lemma dec_sum ks : forall i, (i < length ks)%nat -> (0 < nth i ks 0)%nat -> S (sum_nat (dec_at i ks)) = sum_nat ks.
Proof.
  induction ks as [|k r IH]; intros [|i] H Hp; cbn in *; try lia. specialize (IH i ltac:(lia) Hp). unfold sum_nat in *. lia.
Qed.
Lemma dec_prod ks : forall i, (i < length ks)%nat -> (0 < nth i ks 0)%nat -> (nth i ks 0 * prod_fact (dec_at i ks) = prod_fact ks)%nat.
Proof.
  induction ks as [|k r IH]; intros [|i] H Hp; cbn [length nth dec_at prod_fact fold_right] in *; try lia.
  - destruct k as [|k]; [lia|]. cbn [pred]. change (fact (S k)) with (S k * fact k)%nat. ring.
  - specialize (IH i ltac:(lia) Hp). unfold prod_fact in *. rewrite <- IH. ring.
Qed.
Fixpoint arrangements (fuel : nat) (ks : list nat) : list (list nat) :=
  match fuel with
  | O => [[]]
  | S f => flat_map (fun i => if (0 <? nth i ks 0)%nat then map (cons i) (arrangements f (dec_at i ks)) else []) (seq 0 (length ks))
  end.
Lemma sum_zero ks : sum_nat ks = 0%nat -> forall i, nth i ks 0%nat = 0%nat.
Proof. induction ks as [|k r IH]; intros H [|i]; cbn in *; auto; try lia. apply IH. unfold sum_nat. lia. Qed.
Lemma nth_le_sum ks : forall i, (nth i ks 0 <= sum_nat ks)%nat.
Proof. induction ks as [|k r IH]; intros [|i]; cbn; try lia. specialize (IH i). unfold sum_nat in IH. lia. Qed.
Lemma arrangements_spec f : forall ks w, sum_nat ks = f -> (In w (arrangements f ks) <-> arrangement ks w).
Proof.
  unfold arrangement. induction f as [|f IH]; intros ks w Hs; cbn [arrangements].
  - assert (Z := sum_zero ks Hs). cbn [In]. split.
    + intros [<-|[]]. split; [intros i []|]. intros i _. rewrite Z. reflexivity.
    + intros [H1 H2]. destruct w as [|a w]; [auto|exfalso]. specialize (H2 a (H1 a (or_introl eq_refl))). rewrite Z in H2.
      rewrite count_occ_cons_eq in H2 by auto. discriminate.
  - rewrite in_flat_map. split.
    + intros (i & Hi & Hw). apply in_seq in Hi. destruct (Nat.ltb_spec 0 (nth i ks 0%nat)) as [Hp|]; [|destruct Hw].
      apply in_map_iff in Hw. destruct Hw as (v & <- & Hv). assert (Hd := dec_sum ks i ltac:(lia) Hp).
      apply IH in Hv; [|lia]. rewrite dec_length in Hv. destruct Hv as [H1 H2]. split.
      * intros j [<-|Hj]; [lia|auto].
      * intros j Hj. specialize (H2 j Hj). rewrite dec_nth in H2. cbn [count_occ]. destruct (Nat.eq_dec i j) as [->|]; lia.
    + intros [H1 H2]. destruct w as [|a w].
      * exfalso. assert (Z : forall i, (i < length ks)%nat -> nth i ks 0%nat = 0%nat) by (intros i Hi; rewrite <- H2 by auto; auto).
        assert (sum_nat ks = 0%nat); [|lia]. clear -Z. induction ks as [|k r IHr]; [auto|]. cbn. unfold sum_nat in IHr. rewrite IHr.
        -- specialize (Z 0%nat ltac:(cbn; lia)). cbn in Z. lia.
        -- intros i Hi. apply (Z (S i)). cbn. lia.
      * assert (Ha := H1 a (or_introl eq_refl)). assert (Hc := H2 a Ha). rewrite count_occ_cons_eq in Hc by auto. exists a. split; [apply in_seq; lia|].
        destruct (Nat.ltb_spec 0 (nth a ks 0%nat)) as [Hp|]; [|lia]. apply in_map. apply IH; [pose proof (dec_sum ks a Ha Hp); lia|]. rewrite dec_length. split.
        -- intros i Hi. apply H1. right. auto.
        -- intros i Hi. specialize (H2 i Hi). rewrite dec_nth. cbn [count_occ] in H2. destruct (Nat.eq_dec a i) as [->|]; lia.
Qed.
Lemma flat_map_cons_NoDup (g : nat -> list (list nat)) l : NoDup l -> (forall i, NoDup (g i)) ->
  (forall i w, In w (g i) -> exists v, w = i :: v) -> NoDup (flat_map g l).
Proof.
  intros Hl Hg Hh. induction Hl as [|a l Ha Hl IH]; [constructor|]. cbn [flat_map]. apply NoDup_app_disj; auto.
  intros w Hw Hw'. apply in_flat_map in Hw'. destruct Hw' as (i & Hi & Hw'). destruct (Hh _ _ Hw) as [v ->]. destruct (Hh _ _ Hw') as [v' E]. injection E as -> _. auto.
Qed.
Lemma arrangements_NoDup f : forall ks, NoDup (arrangements f ks).
Proof.
  induction f as [|f IH]; intros ks; cbn [arrangements]; [constructor; [intros []|constructor]|].
  apply flat_map_cons_NoDup; [apply seq_NoDup| |].
  - intros i. destruct (0 <? nth i ks 0)%nat; [|constructor]. apply NoDup_map_inj; [intros x y E; congruence|auto].
  - intros i w Hw. destruct (0 <? nth i ks 0)%nat; [|destruct Hw]. apply in_map_iff in Hw. destruct Hw as (v & <- & _). eauto.
Qed.
Lemma sum_nth ks : sum_nat (map (fun i => nth i ks 0%nat) (seq 0 (length ks))) = sum_nat ks.
Proof.
  f_equal. induction ks as [|k r IH]; [auto|]. cbn [length seq map nth]. rewrite <- seq_shift, map_map. cbn [nth]. rewrite IH. auto.
Qed.
Lemma arrangements_length f : forall ks, sum_nat ks = f -> (length (arrangements f ks) * prod_fact ks = fact f)%nat.
Proof.
  induction f as [|f IH]; intros ks Hs; cbn [arrangements].
  - cbn [length]. assert (Z := sum_zero ks Hs). clear Hs. cbn [fact]. rewrite Nat.mul_1_l.
    induction ks as [|k r IHr]; [auto|]. cbn. fold (prod_fact r). rewrite IHr by (intros i; apply (Z (S i))). specialize (Z 0%nat). cbn in Z. subst k. auto.
  - assert (G : forall l, (forall i, In i l -> (i < length ks)%nat) ->
      (length (flat_map (fun i => if (0 <? nth i ks 0)%nat then map (cons i) (arrangements f (dec_at i ks)) else []) l) * prod_fact ks
        = sum_nat (map (fun i => nth i ks 0%nat) l) * fact f)%nat).
    { induction l as [|i l IHl]; intros Hl; [reflexivity|]. cbn [flat_map map sum_nat fold_right]. rewrite app_length, Nat.mul_add_distr_r, IHl by (intros; apply Hl; right; auto).
      fold (sum_nat (map (fun i => nth i ks 0%nat) l)). rewrite Nat.mul_add_distr_r. f_equal. assert (Hi := Hl i (or_introl eq_refl)).
      destruct (Nat.ltb_spec 0 (nth i ks 0%nat)) as [Hp|Hp].
      - rewrite map_length, <- (dec_prod ks i Hi Hp). pose proof (dec_sum ks i Hi Hp). specialize (IH (dec_at i ks) ltac:(lia)). rewrite <- IH. ring.
      - cbn. replace (nth i ks 0%nat) with 0%nat by lia. reflexivity. }
    rewrite G by (intros i Hi; apply in_seq in Hi; lia). rewrite sum_nth, Hs. reflexivity.
Qed.
Lemma prod_fact_ge1 ks : (1 <= prod_fact ks)%nat.
Proof. induction ks as [|k r IH]; [auto|]. cbn. fold (prod_fact r). pose proof (fact_ge1 k). nia. Qed.
Lemma fold_add_Z l : forall a, fold_left Z.add l a = (a + fold_left Z.add l 0)%Z.
Proof. induction l as [|x l IH]; intros a; cbn; [lia|]. rewrite IH, (IH x). lia. Qed.
Lemma fold_add_sum l : Forall (fun z => (0 <= z)%Z) l -> fold_left Z.add l 0%Z = Z.of_nat (sum_nat (map Z.to_nat l)).
Proof. induction 1 as [|x l Hx Hl IH]; [auto|]. cbn. rewrite fold_add_Z, IH. unfold sum_nat. lia. Qed.
Lemma multinom_fold g : is_lgamma g -> forall ks, Forall (fun z => (0 <= z)%Z) ks -> forall r,
  fold_left (fun r k => r - g (IZR k + 1)) ks r = r - ln (INR (prod_fact (map Z.to_nat ks))).
Proof.
  intros Hg ks H. induction H as [|k ks Hk Hks IH]; intros r; cbn [fold_left map].
  - cbn. rewrite ln_1. lra.
  - rewrite IH, lgamma_factZ by auto. cbn [prod_fact fold_right]. fold (prod_fact (map Z.to_nat ks)).
    rewrite mult_INR, ln_mult; [lra|apply INR_fact_pos|apply lt_0_INR; pose proof (prod_fact_ge1 (map Z.to_nat ks)); lia].
Qed.

(** ** Prequential codes *)
Section Prequential.
  Context {X : Type} (dec : forall x y : X, {x = y} + {x <> y}) (g : R -> R) (eps : R).
  Hypothesis Hg : is_lgamma g. Hypothesis He : 0 < eps.
  Variable syms : list X.
  Hypothesis Hs : NoDup syms.
  Notation m := (INR (length syms)).
  Definition mass (seen : list X) : R := sum_R (map (fun s => g (eps + INR (count_occ dec seen s))) syms).
  Lemma mass_step seen x : In x syms -> mass (x :: seen) = mass seen + ln (eps + INR (count_occ dec seen x)).
  Proof.
    unfold mass. intros Hx. induction Hs as [|a l Ha Hl IH]; [destruct Hx|]. cbn [map sum_R fold_right].
    destruct Hg as [_ HS]. destruct Hx as [->|Hx].
    - assert (E : map (fun s => g (eps + INR (count_occ dec (x :: seen) s))) l = map (fun s => g (eps + INR (count_occ dec seen s))) l).
      { apply map_ext_in. intros s Hin. rewrite count_occ_cons_neq; [auto|]. intros ->. auto. }
      rewrite E. rewrite count_occ_cons_eq, S_INR by auto. rewrite <- Rplus_assoc, HS; [lra|]. pose proof (pos_INR (count_occ dec seen x)). lra.
    - unfold sum_R in *. rewrite IH by auto. rewrite count_occ_cons_neq by (intros ->; auto). lra.
  Qed.
  Lemma bits_telescope : forall rest seen, incl rest syms ->
    sequential_bits dec eps (length syms) seen rest =
    (g (eps * m + INR (length rest + length seen)) - mass (rev rest ++ seen) - (g (eps * m + INR (length seen)) - mass seen)) / ln 2.
  Proof.
    induction rest as [|x rest IH]; intros seen Hi.
    - cbn. unfold Rdiv. ring.
    - assert (Hx : In x syms) by (apply Hi; left; auto). cbn [sequential_bits]. rewrite IH by (intros y Hy; apply Hi; right; auto).
      rewrite mass_step by auto. cbn [rev]. rewrite <- app_assoc. cbn [app length].
      replace (length rest + S (length seen))%nat with (S (length rest) + length seen)%nat by lia.
      assert (Hm : 0 < eps * m). { apply Rmult_lt_0_compat; [auto|]. apply lt_0_INR. destruct syms; [destruct Hx|cbn; lia]. }
      assert (P1 := pos_INR (length seen)). assert (P2 := pos_INR (count_occ dec seen x)).
      rewrite (S_INR (length seen)), <- Rplus_assoc. destruct Hg as [_ HS]. rewrite HS by lra. unfold lg.
      unfold Rdiv at 2. rewrite ln_mult by (try apply Rinv_0_lt_compat; lra). rewrite ln_Rinv by lra.
      rewrite (Rplus_comm (INR (count_occ dec seen x)) eps), (Rplus_comm (INR (length seen)) (eps * m)). 
      unfold Rdiv. ring.
  Qed.
  Lemma count_rev w s : count_occ dec (rev w) s = count_occ dec w s.
  Proof. induction w as [|x w IH]; [auto|]. cbn [rev]. rewrite count_occ_app, IH. cbn. destruct (dec x s); lia. Qed.
  Lemma fold_mass counts : forall r, fold_left (fun r u => r - (g (eps + IZR u) - g eps)) counts r
    = r - sum_R (map (fun u => g (eps + IZR u)) counts) + INR (length counts) * g eps.
  Proof.
    induction counts as [|u l IH]; intros r; [cbn; lra|]. cbn [fold_left map sum_R fold_right]. rewrite IH. change (length (u :: l)) with (S (length l)).
    rewrite S_INR. unfold sum_R. lra.
  Qed.
  Lemma counts_length w : incl w syms -> sum_nat (map (count_occ dec w) syms) = length w.
  Proof.
    induction w as [|x w IH]; intros Hi.
    - cbn. clear. induction syms; [auto|]. cbn. unfold sum_nat in IHl. auto.
    - cbn [length]. rewrite <- IH by (intros y Hy; apply Hi; right; auto). assert (Hx : In x syms) by (apply Hi; left; auto). clear -Hs Hx.
      induction Hs as [|a l Ha Hl IH]; [destruct Hx|]. cbn [map sum_nat fold_right]. unfold sum_nat in IH. destruct Hx as [->|Hx].
      + assert (E : map (count_occ dec (x :: w)) l = map (count_occ dec w) l).
        { apply map_ext_in. intros s Hin. rewrite count_occ_cons_neq; [auto|]. intros ->. auto. }
        rewrite E, count_occ_cons_eq by auto. reflexivity.
      + rewrite IH by auto. rewrite count_occ_cons_neq by (intros ->; auto). lia.
  Qed.
  Lemma prequential_ok w : incl w syms ->
    prequential_coding_length g (map (fun s => Z.of_nat (count_occ dec w s)) syms) eps = sequential_bits dec eps (length syms) [] w.
  Proof.
    intros Hi. rewrite bits_telescope by auto. rewrite app_nil_r. cbn [length]. rewrite Nat.add_0_r. cbn [INR]. rewrite Rplus_0_r.
    unfold prequential_coding_length. rewrite map_length.
    assert (El : fold_left Z.add (map (fun s => Z.of_nat (count_occ dec w s)) syms) 0%Z = Z.of_nat (length w)).
    { rewrite fold_add_sum by (apply Forall_forall; intros z Hz; apply in_map_iff in Hz; destruct Hz as (s & <- & _); lia).
      rewrite map_map, <- (counts_length w Hi). f_equal. f_equal. apply map_ext. intros s. lia. }
    rewrite El.
    assert (M0 : mass [] = m * g eps).
    { unfold mass. cbn [count_occ INR]. rewrite Rplus_0_r. clear. induction syms as [|s l IH]; [cbn; lra|]. cbn [map sum_R fold_right].
      change (length (s :: l)) with (S (length l)). rewrite S_INR. unfold sum_R in IH. lra. }
    assert (Mw : mass (rev w) = sum_R (map (fun u => g (eps + IZR u)) (map (fun s => Z.of_nat (count_occ dec w s)) syms))).
    { unfold mass. rewrite map_map. f_equal. apply map_ext. intros s. rewrite count_rev, INR_IZR_INZ. auto. }
    destruct (Nat.leb_spec (length syms) 1) as [H1|H1]; cbn [orb].
    - (* one symbol or none *)
      rewrite Mw, M0. destruct syms as [|s [|]]; [|cbn [map length sum_R fold_right INR]|cbn in H1; lia].
      + assert (w = []) by (destruct w; [auto|exfalso; apply (Hi x); left; auto]). subst w. cbn. rewrite Rplus_0_r. unfold Rdiv. ring.
      + assert (Ec : count_occ dec w s = length w).
        { clear -Hi. induction w as [|y w IH]; [auto|]. destruct (Hi y (or_introl eq_refl)) as [<-|[]]. rewrite count_occ_cons_eq by auto. cbn. f_equal. apply IH. intros z Hz. apply Hi. right. auto. }
        rewrite Ec, <- INR_IZR_INZ, Rmult_1_r. unfold Rdiv. ring.
    - destruct (Z.eqb_spec (Z.of_nat (length w)) 0) as [H0|H0].
      + destruct w; [|discriminate]. cbn [rev length INR]. rewrite Rplus_0_r. unfold Rdiv. ring.
      + rewrite fold_mass, map_length, <- Mw, M0, <- INR_IZR_INZ. unfold Rdiv. ring.
  Qed.
End Prequential.
