From Verif.Model Require Import Base MathUtils.
From Verif.Lib Require Import ListLib.
From Coq Require Import Znumtheory Sorted.
Open Scope Z_scope.

Definition product (l : list Z) : Z := fold_right Z.mul 1 l.

Lemma product_snoc l x : product (l ++ [x]) = product l * x.
Proof. unfold product. induction l as [|y l IH]; cbn [app fold_right]; [lia|]. rewrite IH. ring. Qed.

Lemma round_small q : 0 <= q < 2 ^ 53 -> round_binary64 q = q.
Proof.
  intros Hq. unfold round_binary64. rewrite Z.abs_eq by lia.
  destruct (Z.ltb_spec q (2 ^ 53)); auto. lia.
Qed.

Lemma div_exact n f : 0 < f -> n mod f = 0 -> n = f * (n / f).
Proof. intros Hf Hm. apply Z.div_exact; lia. Qed.

Lemma quotient n f : 2 <= f -> 1 <= n <= 2 ^ 53 -> n mod f = 0 ->
  round_binary64 (n / f) = n / f /\ 1 <= n / f <= 2 ^ 53 /\ n / f < n /\ n = f * (n / f).
Proof.
  intros Hf Hn Hm. pose proof (div_exact n f ltac:(lia) Hm) as E.
  assert (1 <= n / f) by (destruct (Z.le_gt_cases 1 (n / f)); nia).
  assert (n / f < n) by nia. rewrite round_small by lia. lia.
Qed.

Lemma sorted_snoc l x : StronglySorted Z.le l -> (forall y, In y l -> y <= x) ->
  StronglySorted Z.le (l ++ [x]).
Proof.
  intros Hs Hx. induction Hs as [|a l Hs IH Ha]; cbn.
  - repeat constructor.
  - constructor; [apply IH; intros; apply Hx; right; auto|]. apply Forall_app. split; auto.
    constructor; auto. apply Hx; left; auto.
Qed.

Definition Inv (n0 n : Z) (fs : list Z) (b : Z) : Prop :=
  1 <= n <= 2 ^ 53 /\ product fs * n = n0 /\ Forall prime fs /\ StronglySorted Z.le fs /\
  forall y, In y fs -> y <= b.

Lemma inv_step n0 n fs b f : Inv n0 n fs b -> b <= f -> prime f -> n mod f = 0 ->
  Inv n0 (round_binary64 (n / f)) (fs ++ [f]) f /\ round_binary64 (n / f) < n /\
  (round_binary64 (n / f) | n).
Proof.
  intros (Hn & Hp & HF & HS & Hb) Hbf Hf Hm.
  destruct (quotient n f) as (E & H1 & H2 & H3); auto. { destruct Hf; lia. }
  rewrite E. split; [|split; [lia|exists f; lia]].
  split; [auto|]. split; [rewrite product_snoc; rewrite <- Hp; rewrite H3 at 2; ring|].
  split; [apply Forall_app; split; auto|]. split.
  - apply sorted_snoc; auto. intros y Hy; specialize (Hb y Hy); lia.
  - intros y Hy. apply in_app_or in Hy as [Hy|[<-|[]]]; [specialize (Hb y Hy)|]; lia.
Qed.

Lemma halve_ok n0 fuel : forall n fs, Inv n0 n fs 2 -> n <= Z.of_nat fuel ->
  exists n' fs', halve_loop fuel n fs = Ok (n', fs') /\ Inv n0 n' fs' 2 /\ n' mod 2 <> 0 /\ n' <= n.
Proof.
  induction fuel as [|fuel IH]; intros n fs HI Hf.
  - destruct HI; lia.
  - cbn [halve_loop]. destruct (Z.eqb_spec (n mod 2) 0) as [E|E].
    + destruct (inv_step n0 n fs 2 2 HI) as (H1 & H2 & _); auto; [lia|apply prime_2|].
      destruct (IH _ _ H1) as (n' & fs' & E2 & H3 & H4 & H5); [lia|]. exists n', fs'. split; auto.
      split; auto. split; auto. lia.
    + exists n, fs. split; auto. split; auto. split; auto. lia.
Qed.

Lemma divide_ok n0 f fuel : prime f -> forall n fs, Inv n0 n fs f -> n <= Z.of_nat fuel ->
  exists n' fs', divide_loop fuel f n fs = Ok (n', fs') /\ Inv n0 n' fs' f /\ n' mod f <> 0 /\
                 (n' | n).
Proof.
  intros Hp. induction fuel as [|fuel IH]; intros n fs HI Hf.
  - destruct HI; lia.
  - cbn [divide_loop]. destruct (Z.eqb_spec (n mod f) 0) as [E|E].
    + destruct (inv_step n0 n fs f f HI) as (H1 & H2 & H2'); auto; [lia|].
      destruct (IH _ _ H1) as (n' & fs' & E2 & H3 & H4 & H5); [lia|]. exists n', fs'. split; auto.
      split; auto. split; auto. eapply Z.divide_trans; eauto.
    + exists n, fs. split; auto. split; auto. split; auto. apply Z.divide_refl.
Qed.

Definition no_small (n f : Z) : Prop := forall d, 1 < d < f -> ~ (d | n).

Lemma least_prime n f : 1 < f -> no_small n f -> (f | n) -> prime f.
Proof.
  intros Hf Hs Hd. apply prime_alt. split; auto. intros d Hd2 Hdiv. apply (Hs d); auto.
  eapply Z.divide_trans; eauto.
Qed.

Lemma rest_prime n f : 1 < n -> n < f * f -> 1 < f -> no_small n f -> prime n.
Proof.
  intros Hn Hff Hf Hs. apply prime_alt. split; auto. intros d Hd (q & Hq).
  assert (1 < q < n) by nia.
  destruct (Z.lt_ge_cases d f) as [L|L].
  - apply (Hs d); [lia|exists q; auto].
  - apply (Hs q); [nia|exists d; lia].
Qed.

Lemma factor_ok n0 inner fuel : forall f n fs,
  Inv n0 n fs f -> 3 <= f -> Z.odd f = true -> Z.odd n = true -> no_small n f ->
  n <= Z.of_nat inner -> n - f <= Z.of_nat fuel ->
  exists n' fs' f', factor_loop fuel inner f n fs = Ok (n', fs') /\ Inv n0 n' fs' f' /\ no_small n' f' /\
     3 <= f' /\ n' < f' * f'.
Proof.
  induction fuel as [|fuel IH]; intros f n fs HI Hf Hof Hon Hs Hb1 Hb2; cbn [factor_loop].
  - destruct (Z.leb_spec (f * f) n) as [L|L]; [nia|]. exists n, fs, f. repeat split; auto; apply HI.
  - destruct (Z.leb_spec (f * f) n) as [L|L].
    2: { exists n, fs, f. repeat split; auto; apply HI. }
    assert (Hd : exists n' fs', divide_loop inner f n fs = Ok (n', fs') /\ Inv n0 n' fs' f /\
               n' mod f <> 0 /\ (n' | n)).
    { destruct (Z.eq_dec (n mod f) 0) as [E|E].
      - assert (Hpf : prime f).
        { apply (least_prime n); auto; [lia|]. apply Z.mod_divide; [lia|auto]. }
        apply divide_ok; auto.
      - exists n, fs. split; [destruct inner; cbn [divide_loop]; destruct (Z.eqb_spec (n mod f) 0); auto; lia|].
        split; auto. split; auto. apply Z.divide_refl. }
    destruct Hd as (n' & fs' & E & HI' & Hm & Hdiv). rewrite E. cbn [bind fst snd].
    assert (Hle : n' <= n) by (apply Z.divide_pos_le; auto; destruct HI; lia).
    assert (Hon' : Z.odd n' = true).
    { destruct Hdiv as (q & Hq). rewrite Hq, Z.odd_mul in Hon. apply andb_prop in Hon. tauto. }
    apply IH; auto; try lia.
    + destruct HI' as (H1 & H2 & H3 & H4 & H5). repeat split; auto; try lia.
      intros y Hy; specialize (H5 y Hy); lia.
    + rewrite Z.odd_add, Hof. reflexivity.
    + intros d Hd Hdd. destruct (Z.lt_ge_cases d f) as [L2|L2].
      * apply (Hs d); [lia|]. eapply Z.divide_trans; eauto.
      * assert (d = f \/ d = f + 1) as [-> | ->] by lia.
        -- apply Hm. apply Z.mod_divide; [lia|auto].
        -- destruct Hdd as (q & Hq). rewrite Hq, Z.odd_mul in Hon'. apply andb_prop in Hon' as [_ Ho].
           rewrite Z.odd_add, Hof in Ho. discriminate.
Qed.

Theorem prime_factors_ok n fuel : 1 <= n <= 2 ^ 53 -> n <= Z.of_nat fuel ->
  exists fs, prime_factors fuel n = Ok fs /\ Forall prime fs /\ StronglySorted Z.le fs /\
             fold_right Z.mul 1 fs = n.
Proof.
  intros Hn Hf. unfold prime_factors.
  destruct (halve_ok n fuel n []) as (n1 & fs1 & E1 & HI1 & Hm1 & Hle1).
  { split; [auto|]. split; [unfold product; cbn [fold_right]; lia|]. split; [constructor|]. split; [constructor|]. intros y []. }
  { auto. }
  rewrite E1. cbn [bind fst snd].
  destruct (factor_ok n fuel fuel 3 n1 fs1) as (n2 & fs2 & f2 & E2 & HI2 & Hs2 & Hf2 & Hlt2); auto; try lia.
  - destruct HI1 as (H1 & H2 & H3 & H4 & H5). repeat split; auto; try lia.
    intros y Hy; specialize (H5 y Hy); lia.
  - rewrite Zmod_odd in Hm1. destruct (Z.odd n1); auto; lia.
  - intros d Hd Hdd. assert (d = 2) as -> by lia. apply Hm1. apply Z.mod_divide; [lia|auto].
  - rewrite E2. cbn [bind]. eexists; split; [reflexivity|].
    destruct HI2 as (H1 & H2 & H3 & H4 & H5). unfold product in *.
    destruct (Z.gtb_spec n2 1) as [L|L].
    + assert (prime n2) by (eapply (rest_prime n2 f2); eauto; lia).
      split; [apply Forall_app; split; auto|]. split.
      * apply sorted_snoc; auto. intros y Hy.
        destruct (Z.le_gt_cases y n2) as [|Hgt]; auto. exfalso.
        specialize (H5 y Hy). apply (Hs2 n2); [lia|]. apply Z.divide_refl.
      * change (product (fs2 ++ [n2]) = n). rewrite product_snoc. unfold product. lia.
    + split; auto. split; auto. replace n2 with 1 in H2 by lia. lia.
Qed.

Theorem prime_factors_zero fuel : prime_factors fuel 0 = Err OutOfFuel.
Proof.
  unfold prime_factors. assert (Hg : forall fs, halve_loop fuel 0 fs = Err OutOfFuel).
  { induction fuel as [|fuel IH]; intros fs; cbn; auto. }
  rewrite Hg. reflexivity.
Qed.

Theorem prime_factors_large :
  exists (n : Z) (fuel : nat) fs, 2 ^ 53 < n /\
    prime_factors fuel n = Ok fs /\ fold_right Z.mul 1 fs <> n.
Proof.
  exists (2 ^ 54 + 2), 60%nat, (repeat 2 54). split; [reflexivity|]. split; [vm_compute; reflexivity|].
  vm_compute. discriminate.
Qed.
