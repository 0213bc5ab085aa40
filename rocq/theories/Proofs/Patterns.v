From Verif.Model Require Import Base Sort ListUtils MathUtils Patterns.
From Verif.Spec Require Import Lists Words.
From Verif.Lib Require Import ListLib SortLib.
From Verif.Proofs Require Import Words.
From Verif.Proofs Require ListUtils MathUtils TwoWayDict.
From Coq Require Import Znumtheory Sorted Permutation.
Open Scope nat_scope.

Section P.
  Context {A : Type} `{Eq A}.
  Implicit Types w l trace : list A.

  Lemma slice_occurs w l s :
    (s + length w <=? length l) && eqb (slice l s (s + length w)) w = true <-> occurs_at w l s.
  Proof.
    rewrite occurs_at_iff. rewrite andb_true_iff, Nat.leb_le, eqb_eq. split.
    - intros [H1 H2]. split; auto. intros i Hi. rewrite <- H2. unfold slice.
      rewrite nth_error_firstn, nth_error_skipn. destruct (Nat.ltb_spec i (s + length w - s)); auto. lia.
    - intros [H1 H2]. split; auto. apply nth_error_ext. intros i. unfold slice.
      rewrite nth_error_firstn, nth_error_skipn. destruct (Nat.ltb_spec i (s + length w - s)) as [L|L].
      + apply H2. lia.
      + symmetry. apply nth_error_None. lia.
  Qed.

  (** ** is_tandem_array *)
  Definition below (max_k : option nat) (k : nat) : Prop :=
    match max_k with None => True | Some m => k <= m end.

  Lemma tandem_loop_ok w trace max_k : w <> [] -> forall fuel start k, length trace < fuel + start ->
    exists j, tandem_loop fuel trace w max_k start k = Ok (k + j) /\
      (forall i, i < j -> occurs_at w trace (start + i * length w)) /\
      (below max_k k -> below max_k (k + j)) /\
      (~ occurs_at w trace (start + j * length w) \/ ~ below max_k (S (k + j))).
  Proof.
    intros Hw. assert (Hl : 0 < length w) by (destruct w; [congruence|cbn; lia]).
    induction fuel as [|fuel IH]; intros start k Hf; cbn [tandem_loop].
    - destruct (Nat.leb_spec (start + length w) (length trace)); [lia|]. cbn [andb].
      exists 0. rewrite Nat.add_0_r. split; auto. split; [intros; lia|]. split; auto. left.
      intros Ho. apply occurs_at_bound in Ho. lia.
    - destruct ((start + length w <=? length trace) && eqb (slice trace start (start + length w)) w) eqn:E.
      + cbn [andb]. pose proof E as E0. apply slice_occurs in E0.
        destruct (match max_k with None => true | Some m => k <? m end) eqn:Em.
        * destruct (IH (start + length w) (k + 1)) as (j & E1 & H1 & H2 & H3); [lia|].
          exists (S j). rewrite E1. split; [f_equal; lia|]. split; [|split].
          -- intros [|i] Hi; [rewrite Nat.add_0_r; auto|].
             replace (start + S i * length w) with (start + length w + i * length w) by lia. apply H1; lia.
          -- intros Hb. replace (k + S j) with (k + 1 + j) by lia. apply H2.
             unfold below in *. destruct max_k; auto. apply Nat.ltb_lt in Em. lia.
          -- replace (start + S j * length w) with (start + length w + j * length w) by lia.
             replace (S (k + S j)) with (S (k + 1 + j)) by lia. auto.
        * exists 0. rewrite Nat.add_0_r. split; auto. split; [intros; lia|]. split; auto. right.
          destruct max_k as [m|]; [|discriminate]. apply Nat.ltb_ge in Em. cbn. lia.
      + cbn [andb]. exists 0. rewrite Nat.add_0_r. split; auto. split; [intros; lia|]. split; auto.
        left. rewrite Nat.add_0_r. intros Ho. apply slice_occurs in Ho. congruence.
  Qed.

  Theorem is_tandem_array_ok w trace start max_k fuel : w <> [] -> length trace < fuel ->
    exists k, is_tandem_array fuel trace start w max_k = Ok (2 <=? k, k) /\
      (1 <= k -> occurs_at (power w k) trace start) /\
      match max_k with None => True | Some m => k <= m end /\
      (forall k', 1 <= k' -> match max_k with None => True | Some m => k' <= m end ->
                  occurs_at (power w k') trace start -> k' <= k).
  Proof.
    intros Hw Hf. unfold is_tandem_array.
    destruct (tandem_loop_ok w trace max_k Hw fuel start 0) as (k & -> & H1 & H2 & H3); [lia|].
    cbn [bind Nat.add] in *. exists k. split; auto. split; [|split].
    - intros Hk. apply occurs_power. split; auto. specialize (H1 0 ltac:(lia)). apply occurs_at_bound in H1. lia.
    - apply H2. destruct max_k; cbn; auto; lia.
    - intros k' Hk' Hm Ho. apply occurs_power in Ho as [_ Ho]. destruct (le_lt_dec k' k); auto. exfalso.
      destruct H3 as [H3|H3].
      + apply H3. apply Ho; auto.
      + apply H3. unfold below. destruct max_k; auto. lia.
  Qed.

  Theorem is_tandem_array_empty_diverges trace start fuel : start <= length trace ->
    is_tandem_array fuel trace start [] None = Err OutOfFuel.
  Proof.
    intros Hs. unfold is_tandem_array.
    assert (Hg : forall k, tandem_loop fuel trace [] None start k = Err OutOfFuel).
    { induction fuel as [|fuel IH]; intros k; cbn [tandem_loop length]; rewrite Nat.add_0_r.
      - destruct (Nat.leb_spec start (length trace)); [|lia].
        unfold slice. replace (start - start) with 0 by lia. cbn [firstn]. reflexivity.
      - destruct (Nat.leb_spec start (length trace)); [|lia].
        unfold slice. replace (start - start) with 0 by lia. cbn [firstn]. rewrite IH. reflexivity. }
    rewrite Hg. reflexivity.
  Qed.

  (** ** primitive repeat types *)
  Lemma power_prefix_full w u k : w = power u k -> 0 < k -> firstn (length u) w = u.
  Proof.
    intros -> Hk. destruct k; [lia|]. rewrite power_S, firstn_app, firstn_all.
    replace (length u - length u) with 0 by lia. rewrite firstn_O, app_nil_r. reflexivity.
  Qed.
  Lemma occurs_whole u w : length u = length w -> occurs_at u w 0 -> u = w.
  Proof.
    intros Hl (pre & post & E & Hp). destruct pre; [|discriminate]. cbn in E.
    assert (post = []) as ->.
    { apply length_zero_iff_nil. rewrite E, app_length in Hl. lia. }
    rewrite app_nil_r in E; auto.
  Qed.
  Lemma occurs_self w : occurs_at w w 0.
  Proof. exists [], []. rewrite app_nil_r. auto. Qed.

  (** the test for one factor *)
  Lemma factor_test w fuel (f : Z) : w <> [] -> length w < fuel -> (1 <= f)%Z -> (f | Z.of_nat (length w))%Z ->
    exists bk, is_tandem_array fuel w 0 (firstn (Z.to_nat (Z.of_nat (length w) / f)) w) None = Ok bk /\
      (fst bk && (snd bk * Z.to_nat (Z.of_nat (length w) / f) =? length w) = true <->
       (2 <= f)%Z /\ exists u, w = power u (Z.to_nat f)).
  Proof.
    intros Hw Hf Hf1 [c Hc]. assert (Hl : 0 < length w) by (destruct w; [congruence|cbn; lia]).
    assert (Hd : (Z.of_nat (length w) / f = c)%Z) by (rewrite Hc; apply Z.div_mul; lia).
    rewrite Hd. set (sL := Z.to_nat c).
    assert (HsL : length w = Z.to_nat f * sL /\ 0 < sL) by (unfold sL; nia).
    set (u := firstn sL w).
    assert (Hul : length u = sL) by (unfold u; rewrite firstn_length; nia).
    destruct (is_tandem_array_ok u w 0 None fuel) as (k & E & H1 & _ & H3); auto.
    { intros Eu. rewrite Eu in Hul. cbn in Hul. lia. }
    exists (2 <=? k, k). split; auto. cbn [fst snd]. rewrite andb_true_iff, Nat.leb_le, Nat.eqb_eq. split.
    - intros [Hk2 Hk]. assert (k = Z.to_nat f) by nia. split; [lia|]. exists u.
      symmetry. apply occurs_whole; [rewrite power_length; lia|]. subst k. apply H1. lia.
    - intros [Hf2 (u' & Eu)].
      assert (Hu' : length u' = sL).
      { apply (f_equal (@length A)) in Eu. rewrite power_length in Eu. nia. }
      assert (u' = u) as ->.
      { unfold u. rewrite <- Hu'. symmetry. apply (power_prefix_full w u' (Z.to_nat f)); auto. lia. }
      assert (Hle : Z.to_nat f <= k).
      { apply H3; auto; [lia|]. rewrite <- Eu. apply occurs_self. }
      assert (Hge : k <= Z.to_nat f).
      { assert (Ho : occurs_at (power u k) w 0) by (apply H1; lia).
        apply occurs_at_bound in Ho. rewrite power_length in Ho. nia. }
      split; [lia|]. nia.
  Qed.

  Lemma primitive_loop_ok w fuel : w <> [] -> length w < fuel ->
    forall factors checked,
      (forall f, In f factors -> (1 <= f)%Z /\ (f | Z.of_nat (length w))%Z) ->
      (forall f, In f checked -> ~ ((2 <= f)%Z /\ exists u, w = power u (Z.to_nat f))) ->
      exists b, primitive_loop fuel w factors checked = Ok b /\
        (b = false <-> exists f, In f factors /\ (2 <= f)%Z /\ exists u, w = power u (Z.to_nat f)).
  Proof.
    intros Hw Hf. induction factors as [|f rest IH]; intros checked HF HC; cbn [primitive_loop].
    - exists true. split; auto. split; [discriminate|]. intros (f & [] & _).
    - destruct (mem f checked) eqn:Em.
      + apply mem_In in Em. destruct (IH checked) as (b & E & Hb); auto. { intros; apply HF; right; auto. }
        exists b. split; auto. rewrite Hb. split.
        * intros (g & Hg & Hr). exists g; split; auto. right; auto.
        * intros (g & [<-|Hg] & Hr); [exfalso; eapply HC; eauto|exists g; auto].
      + destruct (HF f (or_introl eq_refl)) as [H1 H2].
        destruct (factor_test w fuel f Hw Hf H1 H2) as (bk & E & Ht). rewrite E. cbn [bind].
        destruct (fst bk && (snd bk * Z.to_nat (Z.of_nat (length w) / f) =? length w)) eqn:Eb.
        * exists false. split; auto. split; auto. intros _. exists f. split; [left; auto|]. apply Ht; auto.
        * destruct (IH (f :: checked)) as (b & E2 & Hb).
          { intros; apply HF; right; auto. }
          { intros g [<-|Hg]; [|apply HC; auto]. intros Hx. apply Ht in Hx. congruence. }
          exists b. split; auto. rewrite Hb. split.
          -- intros (g & Hg & Hr). exists g; split; auto. right; auto.
          -- intros (g & [<-|Hg] & Hr); [|exists g; auto]. apply Ht in Hr. congruence.
  Qed.

  Lemma prime_in_factors fs p : Forall prime fs -> prime p -> (p | fold_right Z.mul 1 fs)%Z -> In p fs.
  Proof.
    induction 1 as [|q fs Hq HF IH]; cbn; intros Hp Hd.
    - exfalso. apply Z.divide_1_r in Hd. destruct Hp. lia.
    - apply prime_mult in Hd; auto. destruct Hd as [Hd|Hd]; [left|right; auto].
      symmetry. apply prime_div_prime; auto.
  Qed.
  Lemma factor_divides (fs : list Z) f : In f fs -> (f | fold_right Z.mul 1 fs)%Z.
  Proof.
    induction fs as [|g fs IH]; cbn; [tauto|]. intros [->|Hf].
    - apply Z.divide_factor_l.
    - apply Z.divide_mul_r; auto.
  Qed.
  Lemma prime_divisor (k : Z) : (2 <= k)%Z -> exists p, prime p /\ (p | k)%Z.
  Proof.
    intros Hk. assert (Hg : forall n, forall k, (2 <= k <= Z.of_nat n)%Z -> exists p, prime p /\ (p | k)%Z).
    { induction n as [|n IH]; intros k0 Hk0; [lia|].
      destruct (prime_dec k0) as [Hp|Hp]; [exists k0; split; auto; apply Z.divide_refl|].
      destruct (not_prime_divide k0) as (d & Hd1 & Hd2); auto; [lia|].
      destruct (IH d) as (p & H1 & H2); [lia|]. exists p. split; auto. eapply Z.divide_trans; eauto. }
    apply (Hg (Z.to_nat k)). lia.
  Qed.

  Theorem is_primitive_ok w fuel : w <> [] -> (Z.of_nat (length w) <= 2 ^ 53)%Z -> length w < fuel ->
    exists b, is_primitive_tandem_repeat_type fuel w = Ok b /\ (b = true <-> primitive w).
  Proof.
    intros Hw Hb Hf. unfold is_primitive_tandem_repeat_type.
    assert (Hl : 0 < length w) by (destruct w; [congruence|cbn; lia]).
    destruct (MathUtils.prime_factors_ok (Z.of_nat (length w)) fuel) as (fs & -> & Hpr & _ & Hprod); [lia|lia|].
    cbn [bind]. destruct (primitive_loop_ok w fuel Hw Hf (1%Z :: fs) []) as (b & -> & Hiff).
    { intros f [<-|Hin]; [split; [lia|apply Z.divide_1_l]|]. rewrite Forall_forall in Hpr. split.
      - destruct (Hpr f Hin). lia.
      - rewrite <- Hprod. apply factor_divides; auto. }
    { intros f []. }
    exists b. split; auto. split.
    - intros ->. split; auto. intros u k Hk E.
      destruct (prime_divisor (Z.of_nat k)) as (p & Hp & q & Hq); [lia|].
      assert (Hp2 : (2 <= p)%Z) by (destruct Hp; lia).
      assert (Hfalse : true = false); [|discriminate]. apply Hiff. exists p. split; [|split; auto].
      + right. apply prime_in_factors; auto. rewrite Hprod, E, power_length.
        rewrite Nat2Z.inj_mul, Hq. exists (q * Z.of_nat (length u))%Z. ring.
      + exists (power u (Z.to_nat q)). rewrite power_mul. rewrite E. f_equal. nia.
    - intros [_ Hp]. destruct b; auto. exfalso. destruct Hiff as [Hi _].
      destruct (Hi eq_refl) as (f & _ & Hf2 & u & E). apply (Hp u (Z.to_nat f)); auto. lia.
  Qed.

  Theorem is_primitive_empty_diverges fuel : is_primitive_tandem_repeat_type fuel ([] : list A) = Err OutOfFuel.
  Proof.
    unfold is_primitive_tandem_repeat_type. cbn [length Z.of_nat].
    rewrite MathUtils.prime_factors_zero. reflexivity.
  Qed.

  (** ** tandem arrays of a repeat type *)
  Section Runs.
    Variables w l : list A.
    Hypothesis Hw : w <> [].
    Let L := length w.
    Let occ o := occurs_at w l o.

    Lemma Lpos : 0 < L.
    Proof. unfold L. destruct w; [congruence|cbn; lia]. Qed.

    Lemma occ_power i k : (forall j, j < k -> occ (i + j * L)) -> 1 <= k -> occurs_at (power w k) l i.
    Proof.
      intros Hj Hk. apply occurs_power. split; auto. specialize (Hj 0 ltac:(lia)).
      apply occurs_at_bound in Hj. lia.
    Qed.

    (** every reported triple is a run, every occurrence is inside one *)
    Lemma runs_sound : forall os i k last acc,
      last = i + (k - 1) * L -> 1 <= k -> ascending (last :: os) ->
      (forall j, j < k -> occ (i + j * L)) -> (forall o, In o os -> occ o) ->
      exists rs, tandem_runs L last (i, k) os acc = acc ++ rs /\
        (forall i' k', In (i', k') rs -> 1 <= k' /\ occurs_at (power w k') l i') /\
        (forall o, (exists j, j < k /\ o = i + j * L) \/ In o os ->
                   exists i' k' j, In (i', k') rs /\ j < k' /\ o = i' + j * L).
    Proof.
      pose proof Lpos as HL.
      induction os as [|o os IH]; intros i k last acc Hla Hk Hasc Hrun Hocc; cbn [tandem_runs].
      - exists [(i, k)]. split; auto. split.
        + intros i' k' [E|[]]. injection E as <- <-. split; auto. apply occ_power; auto.
        + intros o [(j & Hj & ->)|[]]. exists i, k, j. split; [left; auto|auto].
      - apply ascending_cons_iff in Hasc as [Hlt Hasc]. pose proof (Hlt o (or_introl eq_refl)) as Ho.
        destruct (Nat.eqb_spec (Z.abs_nat (Z.of_nat last - Z.of_nat o)) L) as [E|E].
        + assert (Eo : o = i + k * L) by nia. cbn [fst snd].
          assert (Eo2 : o = i + (k + 1 - 1) * L) by (replace (k + 1 - 1) with k by lia; auto).
          destruct (IH i (k + 1) o acc) as (rs & E1 & H1 & H2); auto; [lia| | |].
          * intros j Hj. destruct (Nat.eq_dec j k) as [->|]; [rewrite <- Eo; apply Hocc; left; auto|].
            apply Hrun; lia.
          * intros o' Ho'. apply Hocc; right; auto.
          * exists rs. split; auto. split; auto. intros o' [(j & Hj & ->)|[<-|Ho']].
            -- apply H2. left. exists j. split; [lia|auto].
            -- apply H2. left. exists k. split; [lia|]. lia.
            -- apply H2. right; auto.
        + assert (Eo : o = o + (1 - 1) * L) by lia.
          destruct (IH o 1 o (acc ++ [(i, k)])) as (rs & E1 & H1 & H2); auto.
          * intros j Hj. replace (o + j * L) with o by (replace j with 0 by lia; lia). apply Hocc; left; auto.
          * intros o' Ho'. apply Hocc; right; auto.
          * exists ((i, k) :: rs). rewrite E1, <- app_assoc. split; auto. split.
            -- intros i' k' [E2|Hin]; [|apply H1; auto]. injection E2 as <- <-. split; auto. apply occ_power; auto.
            -- intros o' [(j & Hj & ->)|Ho'].
               ++ exists i, k, j. split; [left; auto|auto].
               ++ assert (Hx : (exists j, j < 1 /\ o' = o + j * L) \/ In o' os).
                  { destruct Ho' as [<-|Ho']; [left; exists 0; split; lia|right; auto]. }
                  destruct (H2 o' Hx) as (i' & k' & j & Hin & Hj & Ej). exists i', k', j. split; [right; auto|auto].
    Qed.

    Hypothesis Hprim : primitive w.

    (** for a primitive word exactly the maximal runs *)
    Lemma runs_primitive : forall os i k last acc,
      last = i + (k - 1) * L -> 1 <= k -> ascending (last :: os) ->
      (forall j, j < k -> occ (i + j * L)) ->
      (forall o, In o os <-> occ o /\ last < o) ->
      (forall h, h + L = i -> ~ occ h) ->
      exists rs, tandem_runs L last (i, k) os acc = acc ++ rs /\
        (forall i' k', In (i', k') rs -> maximal_run w l i' k' /\ i <= i') /\
        ascending (map fst rs) /\
        (forall o, o = i \/ (last < o /\ occ o /\ forall h, h + L = o -> ~ occ h) ->
                   exists k', In (o, k') rs).
    Proof.
      pose proof Lpos as HL.
      induction os as [|o os IH]; intros i k last acc Hla Hk Hasc Hrun Hocc Hpre; cbn [tandem_runs].
      - exists [(i, k)]. split; auto. split; [|split].
        + intros i' k' [E|[]]. injection E as <- <-. split; [|lia]. split; auto. split; [apply occ_power; auto|].
          split; auto. intros Ho. fold L in Ho. destruct (Hocc (i + k * L)) as [_ Hx]. apply Hx. split; auto. nia.
        + constructor.
        + intros o [->|(H1 & H2 & _)]; [exists k; left; auto|]. exfalso. apply (Hocc o); auto.
      - apply ascending_cons_iff in Hasc as [Hlt Hasc]. pose proof (Hlt o (or_introl eq_refl)) as Ho.
        pose proof (proj1 (Hocc o) (or_introl eq_refl)) as [Hoo _].
        assert (Hbetween : forall x, occ x -> last < x -> o <= x).
        { intros x Hx Hlx. destruct (proj2 (Hocc x) (conj Hx Hlx)) as [->|Hin]; auto.
          apply ascending_cons_iff in Hasc as [Hasc _]. specialize (Hasc x Hin). lia. }
        assert (Hlast : occ last) by (rewrite Hla; apply Hrun; lia).
        destruct (Nat.eqb_spec (Z.abs_nat (Z.of_nat last - Z.of_nat o)) L) as [E|E].
        + assert (Eo : o = i + k * L) by nia. cbn [fst snd].
          assert (Eo2 : o = i + (k + 1 - 1) * L) by (replace (k + 1 - 1) with k by lia; auto).
          destruct (IH i (k + 1) o acc) as (rs & E1 & H1 & H2 & H3); auto; [lia| | |].
          * intros j Hj. destruct (Nat.eq_dec j k) as [->|]; [rewrite <- Eo; auto|]. apply Hrun; lia.
          * intros x. split.
            -- intros Hx. split; [apply Hocc; right; auto|]. apply ascending_cons_iff in Hasc as [Hasc _].
               apply Hasc; auto.
            -- intros [Hx Hlx]. destruct (proj2 (Hocc x)) as [->|]; auto; [split; auto; lia|lia].
          * exists rs. split; auto. split; auto. split; auto. intros x [->|(Hx1 & Hx2 & Hx3)]; [apply H3; auto|].
            apply H3. right. specialize (Hbetween x Hx2 Hx1).
            destruct (Nat.eq_dec x o) as [->|]; [|split; auto; lia]. exfalso. apply (Hx3 last); auto. nia.
        + assert (Hend : ~ occ (i + k * L)).
          { intros Hx. assert (Hox : o <= i + k * L) by (apply Hbetween; auto; nia).
            assert (Hno : o <> i + k * L) by (intros ->; apply E; nia).
            apply (primitive_between w l last o); auto.
            - fold L. replace (last + L) with (i + k * L) by nia. auto.
            - fold L. nia. }
          assert (Hstart : forall h, h + L = o -> ~ occ h).
          { intros h Hh Hoc. destruct (lt_eq_lt_dec h last) as [[Lt|Eq']|Gt].
            - apply (primitive_between w l h last); auto; fold L; [rewrite Hh; auto|lia].
            - apply E. lia.
            - specialize (Hbetween h Hoc Gt). lia. }
          assert (Eo : o = o + (1 - 1) * L) by lia.
          destruct (IH o 1 o (acc ++ [(i, k)])) as (rs & E1 & H1 & H2 & H3); auto.
          * intros j Hj. replace (o + j * L) with o by (replace j with 0 by lia; lia). auto.
          * intros x. split.
            -- intros Hx. split; [apply Hocc; right; auto|]. apply ascending_cons_iff in Hasc as [Hasc _].
               apply Hasc; auto.
            -- intros [Hx Hlx]. destruct (proj2 (Hocc x)) as [->|]; auto; [split; auto; lia|lia].
          * exists ((i, k) :: rs). rewrite E1, <- app_assoc. split; auto. split; [|split].
            -- intros i' k' [E2|Hin].
               ++ injection E2 as <- <-. split; auto. split; auto. split; [apply occ_power; auto|]. auto.
               ++ destruct (H1 i' k' Hin). split; auto. nia.
            -- cbn [map fst]. apply ascending_cons_iff. split; auto. intros y Hy.
               apply in_map_iff in Hy as ((i' & k') & <- & Hin). apply H1 in Hin. cbn. nia.
            -- intros x [->|(Hx1 & Hx2 & Hx3)]; [exists k; left; auto|].
               destruct (H3 x) as (k' & Hk').
               { specialize (Hbetween x Hx2 Hx1). destruct (Nat.eq_dec x o); [left; auto|right].
                 split; [lia|auto]. }
               exists k'. right; auto.
    Qed.
  End Runs.

  Theorem tandem_arrays_sound w l : w <> [] ->
    exists ts, create_tandem_arrays_from_repeat_type w l = Ok ts /\
      (forall i v k, In (i, v, k) ts -> v = w /\ 1 <= k /\ occurs_at (power w k) l i) /\
      (forall o, occurs_at w l o -> exists i k j, In (i, w, k) ts /\ j < k /\ o = i + j * length w).
  Proof.
    intros Hw. unfold create_tandem_arrays_from_repeat_type.
    destruct (ListUtils.search_all_ok l w) as (os & -> & Hasc & Hin). cbn [bind].
    destruct os as [|o os].
    - exists []. split; auto. split; [intros ? ? ? []|]. intros o Ho. apply Hin in Ho as [].
    - destruct (runs_sound w l Hw os o 1 o []) as (rs & E & H1 & H2); auto.
      + intros j Hj. replace (o + j * length w) with o by (replace j with 0 by lia; lia).
        apply Hin; left; auto.
      + intros x Hx. apply Hin; right; auto.
      + rewrite E. cbn [app].
        eexists; split; [reflexivity|]. split.
        * intros i v k Hi. apply in_map_iff in Hi as ((i' & k') & E2 & Hi). injection E2 as <- <- <-.
          split; auto.
        * intros x Hx. destruct (H2 x) as (i & k & j & Hi & Hj).
          { apply Hin in Hx as [<-|Hx]; [left; exists 0; split; lia|right; auto]. }
          exists i, k, j. split; auto. apply in_map_iff. exists (i, k). auto.
  Qed.

  Theorem tandem_arrays_primitive w l : primitive w ->
    exists ts, create_tandem_arrays_from_repeat_type w l = Ok ts /\
      ascending (map (fun t => fst (fst t)) ts) /\
      forall i v k, In (i, v, k) ts <-> v = w /\ maximal_run w l i k.
  Proof.
    intros Hp. pose proof Hp as [Hw _]. unfold create_tandem_arrays_from_repeat_type.
    destruct (ListUtils.search_all_ok l w) as (os & -> & Hasc & Hin). cbn [bind].
    assert (HL : 0 < length w) by (destruct w; [congruence|cbn; lia]).
    assert (Hrun_occ : forall i k, maximal_run w l i k -> occurs_at w l i).
    { intros i k (H1 & H2 & _). apply occurs_power in H2 as [_ H2]. specialize (H2 0 H1).
      rewrite Nat.mul_0_l, Nat.add_0_r in H2. auto. }
    destruct os as [|o os].
    - exists []. split; auto. split; [constructor|]. intros i v k. split; [intros []|].
      intros [_ Hm]. apply Hrun_occ, Hin in Hm. destruct Hm.
    - assert (Hfirst : forall x, occurs_at w l x -> o <= x).
      { intros x Hx. apply Hin in Hx as [<-|Hx]; auto. apply ascending_cons_iff in Hasc as [Hasc _].
        specialize (Hasc _ Hx). lia. }
      assert (E1 : o = o + (1 - 1) * length w) by lia.
      destruct (runs_primitive w l Hw Hp os o 1 o []) as (rs & E & H1 & H2 & H3); auto.
      + intros j Hj. replace (o + j * length w) with o by (replace j with 0 by lia; lia).
        apply Hin; left; auto.
      + intros x. rewrite <- Hin. apply ascending_cons_iff in Hasc as [Hasc _]. split.
        * intros Hx. split; [right; auto|]. apply Hasc; auto.
        * intros [[->|Hx] Hlt]; [lia|auto].
      + intros h Hh Ho. apply Hfirst in Ho. lia.
      + rewrite E. cbn [app]. eexists; split; [reflexivity|]. split.
        * rewrite map_map. erewrite map_ext; [exact H2|]. intros []; auto.
        * intros i v k. rewrite in_map_iff. split.
          -- intros ((i' & k') & E2 & Hi). injection E2 as <- <- <-. split; auto. apply H1; auto.
          -- intros [-> Hm]. destruct (H3 i) as (k' & Hk').
             { pose proof (Hrun_occ i k Hm) as Ho. pose proof (Hfirst i Ho).
               destruct (Nat.eq_dec i o); [left; auto|right]. split; [lia|]. split; auto. apply Hm. }
             destruct (H1 i k' Hk') as [Hm' _]. rewrite (maximal_run_unique w l i k k' Hm Hm').
             exists (i, k'). auto.
  Qed.

  (** ** several repeat types *)
  Lemma tandem_leb_iff (a b : nat * list A * nat) : tandem_leb a b = true <->
    fst (fst a) < fst (fst b) \/ (fst (fst a) = fst (fst b) /\ length (snd (fst a)) <= length (snd (fst b))).
  Proof.
    destruct a as [[i u] p], b as [[j v] q]. unfold tandem_leb. cbn [fst snd].
    rewrite orb_true_iff, andb_true_iff, Nat.ltb_lt, Nat.eqb_eq, Nat.leb_le. tauto.
  Qed.
  Lemma tandem_leb_total (a b : nat * list A * nat) : tandem_leb a b = true \/ tandem_leb b a = true.
  Proof. rewrite !tandem_leb_iff. lia. Qed.
  Theorem tandem_arrays_types (types : list (list A)) l : (forall w, In w types -> primitive w) ->
    exists ts, create_tandem_arrays_from_repeat_types types l = Ok ts /\
      StronglySorted (fun a b => fst (fst a) < fst (fst b) \/
         (fst (fst a) = fst (fst b) /\ length (snd (fst a)) <= length (snd (fst b)))) ts /\
      forall i v k, In (i, v, k) ts <-> In v types /\ maximal_run v l i k.
  Proof.
    intros Hp. unfold create_tandem_arrays_from_repeat_types.
    assert (Hg : forall types acc, (forall w, In w types -> primitive w) ->
      exists ts, foldM (fun acc w => do ts <- create_tandem_arrays_from_repeat_type w l ; Ok (acc ++ ts)) types acc
                 = Ok (acc ++ ts) /\
                 forall i v k, In (i, v, k) ts <-> In v types /\ maximal_run v l i k).
    { clear. induction types as [|w types IH]; intros acc Hp; cbn [foldM].
      - exists []. rewrite app_nil_r. split; auto. intros; cbn; tauto.
      - destruct (tandem_arrays_primitive w l) as (ts & -> & _ & Hts); [apply Hp; left; auto|]. cbn [bind].
        destruct (IH (acc ++ ts)) as (ts2 & -> & H2); [intros; apply Hp; right; auto|].
        exists (ts ++ ts2). rewrite app_assoc. split; auto. intros i v k. rewrite in_app_iff, Hts, H2. cbn.
        split; [intros [[-> ?]|[? ?]]; auto|]. intros [[<-|?] ?]; auto. }
    destruct (Hg types [] Hp) as (ts & -> & Hts). cbn [bind app].
    eexists; split; [reflexivity|]. split.
    - assert (Hs : StronglySorted (fun a b => tandem_leb a b = true) (stable_sort tandem_leb ts)).
      { apply sort_sorted; [apply tandem_leb_total|]. intros x y z. rewrite !tandem_leb_iff. lia. }
      induction Hs as [|x xs Hs IH Hx]; constructor; auto.
      eapply Forall_impl; [|exact Hx]. intros y. apply tandem_leb_iff.
    - intros i v k. rewrite sort_In. apply Hts.
  Qed.

  (** ** super maximal repeats *)
  Lemma contained_in_any_ok w others :
    exists b, contained_in_any w others = Ok b /\ (b = true <-> exists o, In o others /\ sublist w o).
  Proof.
    induction others as [|o others (b & E & Hb)]; cbn [contained_in_any].
    - exists false. split; auto. split; [discriminate|]. intros (o & [] & _).
    - destruct (ListUtils.is_sublist_bm_ok o w) as (c & -> & Hc). cbn [bind]. destruct c.
      + exists true. split; auto. split; auto. intros _. exists o. split; [left; auto|]. apply Hc; auto.
      + exists b. split; auto. rewrite Hb. split.
        * intros (x & Hx & Hs). exists x. split; auto. right; auto.
        * intros (x & [->|Hx] & Hs); [apply Hc in Hs; discriminate|exists x; auto].
  Qed.
  Lemma sublist_length w o : sublist w o -> length w <= length o.
  Proof. intros (k & Hk). apply occurs_at_bound in Hk. lia. Qed.
  Lemma sublist_same_length w o : sublist w o -> length w = length o -> w = o.
  Proof.
    intros (k & Hk) Hl. pose proof (occurs_at_bound _ _ _ Hk). assert (k = 0) by lia. subst.
    apply occurs_whole; auto.
  Qed.
  Lemma sublist_refl w : sublist w w.
  Proof. exists 0. apply occurs_self. Qed.

  Lemma super_loop_ok repeats :
    StronglySorted (fun u v => length u <= length v) repeats ->
    exists r, super_maximal_loop repeats = Ok r /\ NoDup r /\ subseq r repeats /\
      forall w, In w r <-> In w repeats /\ forall o, In o repeats -> o <> w -> ~ sublist w o.
  Proof.
    induction repeats as [|w rest IH]; intros Hs; cbn [super_maximal_loop].
    - exists []. split; auto. split; [constructor|]. split; [constructor|]. intros w; cbn; tauto.
    - apply StronglySorted_inv in Hs as [Hs Hle]. rewrite Forall_forall in Hle.
      destruct (contained_in_any_ok w rest) as (b & -> & Hb).
      destruct (IH Hs) as (r & -> & Hnd & Hsub & Hr). cbn [bind].
      assert (Htail : forall v, In v rest -> (forall o, In o rest -> o <> v -> ~ sublist v o) ->
                      forall o, In o (w :: rest) -> o <> v -> ~ sublist v o).
      { intros v Hv Hn o [<-|Ho] Hne Hsl; [|apply (Hn o); auto].
        pose proof (sublist_length _ _ Hsl). specialize (Hle v Hv). apply Hne. symmetry.
        apply sublist_same_length; auto. lia. }
      destruct b.
      + destruct (proj1 Hb eq_refl) as (o & Ho & Hos).
        exists r. split; auto. split; auto. split; [apply subseq_skip; auto|]. intros v. rewrite Hr. split.
        * intros [Hv Hn]. split; [right; auto|]. apply Htail; auto.
        * intros [[<-|Hv] Hn].
          -- destruct (eq_dec_of o w) as [->|Hne]; [|exfalso; apply (Hn o); auto; right; auto].
             split; auto. intros o' Ho' Hne. apply Hn; auto. right; auto.
          -- split; auto. intros o' Ho' Hne. apply Hn; auto. right; auto.
      + exists (w :: r). assert (Hnw : ~ In w rest).
        { intros Hw. assert (false = true); [|discriminate]. apply Hb. exists w. split; auto. apply sublist_refl. }
        split; auto. split; [|split; [apply subseq_take; auto|]].
        * constructor; auto. intros Hw. apply Hr in Hw. tauto.
        * intros v. cbn [In]. rewrite Hr. split.
          -- intros [<-|[Hv Hn]].
             ++ split; [left; auto|]. intros o [<-|Ho] Hne Hsl; [congruence|].
                assert (false = true); [|discriminate]. apply Hb. exists o; auto.
             ++ split; [right; auto|]. apply Htail; auto.
          -- intros [[<-|Hv] Hn]; [left; auto|]. right. split; auto.
  Qed.

  Theorem super_maximal_ok repeats :
    exists r, filter_super_maximal_repeats repeats = Ok r /\ NoDup r /\
      StronglySorted (fun u v => length u <= length v) r /\
      forall w, In w r <-> In w repeats /\ forall o, In o repeats -> o <> w -> ~ sublist w o.
  Proof.
    unfold filter_super_maximal_repeats.
    set (lb := fun u v : list A => length u <=? length v).
    assert (Hs : StronglySorted (fun u v => length u <= length v) (stable_sort lb repeats)).
    { assert (Hs : StronglySorted (fun a b => lb a b = true) (stable_sort lb repeats)).
      { apply sort_sorted; unfold lb.
        - intros x y. rewrite !Nat.leb_le. lia.
        - intros x y z. rewrite !Nat.leb_le. lia. }
      induction Hs as [|x xs Hs IH Hx]; constructor; auto.
      eapply Forall_impl; [|exact Hx]. intros y. apply Nat.leb_le. }
    destruct (super_loop_ok _ Hs) as (r & E & Hnd & Hsub & Hr).
    exists r. split; auto. split; auto. split.
    - clear - Hs Hsub. induction Hsub as [|x s l Hsub IH|x s l Hsub IH]; auto.
      + apply StronglySorted_inv in Hs as [Hs _]. auto.
      + apply StronglySorted_inv in Hs as [Hs Hx]. constructor; auto. rewrite Forall_forall in *.
        intros y Hy. apply Hx. clear - Hsub Hy. induction Hsub; auto; [right; auto|].
        destruct Hy; [left|right]; auto.
    - intros w. rewrite Hr, sort_In. split; intros [H1 H2]; split; auto; intros o Ho; apply H2; apply (sort_In lb o repeats); auto.
  Qed.

  (** ** the TandemArray constructor *)
  Theorem create_tandem_array_ok trace start w n fuel : w <> [] -> length trace < fuel ->
    (create_tandem_array fuel trace start w n = Ok (TandemArray trace start w n) /\
       2 <= n /\ occurs_at (power w 2) trace start) \/
    (create_tandem_array fuel trace start w n = Err ValueError /\
       (n < 2 \/ ~ occurs_at (power w 2) trace start)).
  Proof.
    intros Hw Hf. unfold create_tandem_array.
    destruct (is_tandem_array_ok w trace start (Some n) fuel Hw Hf) as (k & -> & H1 & H2 & H3). cbn [bind fst].
    destruct (Nat.leb_spec 2 k) as [L|L].
    - left. split; auto. split; [lia|]. assert (Ho : occurs_at (power w k) trace start) by (apply H1; lia).
      replace k with (2 + (k - 2)) in Ho by lia. rewrite power_add, occurs_at_app in Ho. tauto.
    - right. split; auto. destruct (lt_dec n 2); auto. right. intros Ho. specialize (H3 2 ltac:(lia) ltac:(lia) Ho). lia.
  Qed.
  Theorem is_maximal_ok (t : tandem_array) : ta_type t <> [] ->
    occurs_at (power (ta_type t) (ta_repeats t)) (ta_trace t) (ta_start t) ->
    (ta_is_maximal t = true <->
     ~ occurs_at (ta_type t) (ta_trace t) (ta_start t + ta_repeats t * length (ta_type t)) /\
     forall h, h + length (ta_type t) = ta_start t -> ~ occurs_at (ta_type t) (ta_trace t) h).
  Proof.
    destruct t as [l s w n]. unfold ta_is_maximal. cbn [ta_type ta_trace ta_start ta_repeats]. intros Hw Ho.
    assert (HL : 0 < length w) by (destruct w; [congruence|cbn; lia]). apply occurs_at_bound in Ho. rewrite power_length in Ho.
    set (L := length w) in *.
    assert (E1 : eqb (slice l (s - L) s) w = true <-> exists h, h + L = s /\ occurs_at w l h).
    { split.
      - intros E. assert (Hl : length (slice l (s - L) s) = L) by (apply (proj1 (eqb_eq _ _)) in E; rewrite E; reflexivity).
        rewrite slice_length in Hl. exists (s - L). split; [lia|]. apply slice_occurs. fold L.
        rewrite andb_true_iff, Nat.leb_le. split; [lia|]. replace (s - L + L) with s by lia. auto.
      - intros (h & <- & Hh). replace (h + L - L) with h by lia. apply slice_occurs in Hh.
        apply andb_prop in Hh. tauto. }
    replace (L * n) with (n * L) by lia.
    rewrite (Nat.min_r (length l) (s + n * L)) by lia.
    assert (E2 : eqb (slice l (s + n * L) (Nat.min (length l) (s + L + n * L))) w = true <->
                 occurs_at w l (s + n * L)).
    { rewrite <- slice_occurs. fold L. rewrite andb_true_iff, Nat.leb_le.
      destruct (le_lt_dec (s + n * L + L) (length l)) as [Le|Lt].
      - rewrite Nat.min_r by lia. replace (s + L + n * L) with (s + n * L + L) by lia. tauto.
      - split; [|lia]. intros E. exfalso.
        assert (Hl : length (slice l (s + n * L) (Nat.min (length l) (s + L + n * L))) = L)
          by (apply (proj1 (eqb_eq _ _)) in E; rewrite E; reflexivity).
        rewrite slice_length in Hl. lia. }
    rewrite andb_true_iff, !negb_true_iff, <- !not_true_iff_false, E1, E2. split.
    - intros [H1 H2]. split; auto. intros h Hh Hoc. apply H1. exists h; auto.
    - intros [H1 H2]. split; auto. intros (h & Hh & Hoc). apply (H2 h); auto.
  Qed.

  (** ** all primitive tandem repeats *)
  Lemma set_of_In (xs : list (list A)) x : In x (set_of xs) <-> In x xs.
  Proof.
    unfold set_of. assert (Hg : forall acc, In x (fold_left (fun s y => set_add y s) xs acc) <-> In x acc \/ In x xs).
    { induction xs as [|y xs IH]; intros acc; cbn [fold_left].
      - cbn; tauto.
      - rewrite IH, TwoWayDict.set_add_In. cbn. intuition. }
    rewrite Hg. cbn. tauto.
  Qed.
  Lemma set_of_NoDup (xs : list (list A)) : NoDup (set_of xs).
  Proof.
    unfold set_of. assert (Hg : forall acc, NoDup acc -> NoDup (fold_left (fun s y => set_add y s) xs acc)).
    { induction xs as [|y xs IH]; intros acc Ha; cbn [fold_left]; auto.
      apply IH. apply TwoWayDict.set_add_NoDup; auto. }
    apply Hg. constructor.
  Qed.

  Lemma has_adjacent_ok len os : ascending os ->
    has_adjacent len os = true <-> exists a b pre post, os = pre ++ a :: b :: post /\ a + len = b.
  Proof.
    induction os as [|a os IH]; intros Ha; cbn [has_adjacent].
    - split; [discriminate|]. intros (x & y & [|z pre] & post & E & _); discriminate.
    - destruct os as [|b os].
      + split; [discriminate|]. intros (x & y & [|z [|z' pre]] & post & E & _); discriminate.
      + pose proof Ha as Ha'. apply ascending_cons_iff in Ha' as [Hlt Ha']. pose proof (Hlt b (or_introl eq_refl)).
        destruct (Nat.eqb_spec (Z.abs_nat (Z.of_nat a - Z.of_nat b)) len) as [E|E].
        * split; auto. intros _. exists a, b, [], os. split; auto. lia.
        * rewrite IH by auto. split.
          -- intros (x & y & pre & post & E2 & E3). exists x, y, (a :: pre), post. rewrite E2. auto.
          -- intros (x & y & [|z pre] & post & E2 & E3).
             ++ injection E2 as <- <- _. exfalso. apply E. lia.
             ++ injection E2 as <- E2. exists x, y, pre, post. auto.
  Qed.

  Lemma double_iff w l : primitive w -> forall os, ascending os -> (forall o, In o os <-> occurs_at w l o) ->
    has_adjacent (length w) os = true <-> exists p, occurs_at (w ++ w) l p.
  Proof.
    intros Hp os Ha Hin. assert (HL : 0 < length w) by (destruct Hp as [Hne _]; destruct w; [congruence|cbn; lia]). rewrite has_adjacent_ok by auto. split.
    - intros (a & b & pre & post & -> & E). exists a. apply occurs_at_app. rewrite <- !Hin, E. split.
      + apply in_or_app; right; left; auto.
      + apply in_or_app; right; right; left; auto.
    - intros (p & Ho). apply occurs_at_app in Ho as [H1 H2].
      pose proof (proj2 (Hin p) H1) as Hip. apply in_split in Hip as (pre & post & E).
      destruct post as [|b post].
      + exfalso. pose proof (proj2 (Hin _) H2) as Hb. rewrite E in Hb, Ha.
        apply ascending_app in Ha as (_ & _ & Ha). apply in_app_or in Hb as [Hb|[Hb|[]]]; [|lia].
        specialize (Ha _ p Hb (or_introl eq_refl)). lia.
      + exists p, b, pre, post. split; auto.
        assert (Hb : occurs_at w l b) by (apply Hin; rewrite E; apply in_or_app; right; right; left; auto).
        rewrite E in Ha. apply ascending_app in Ha as (_ & Ha & Hpre). apply ascending_cons_iff in Ha as [Hpb Ha].
        specialize (Hpb b (or_introl eq_refl)).
        destruct (lt_eq_lt_dec b (p + length w)) as [[Lt|Eq']|Gt]; [|lia|].
        * exfalso. apply (primitive_between w l p b); auto.
        * exfalso. pose proof (proj2 (Hin _) H2) as Hx. rewrite E in Hx.
          apply in_app_or in Hx as [Hx|[Hx|[Hx|Hx]]]; try lia.
          -- specialize (Hpre _ p Hx (or_introl eq_refl)). lia.
          -- apply ascending_cons_iff in Ha as [Ha _]. specialize (Ha _ Hx). lia.
  Qed.

  Lemma word_extract order l n :
    (forall s, Permutation (order s) s) -> (0 <= n)%Z ->
    NoDup (extract_words order l n) /\
    forall w, In w (extract_words order l n) <-> length w = Z.to_nat n /\ exists p, occurs_at w l p.
  Proof.
    intros Ho Hn. unfold extract_words. split.
    - eapply Permutation_NoDup; [symmetry; apply Ho|]. apply set_of_NoDup.
    - intros w. split.
      + intros Hi. apply (Permutation_in _ (Ho _)) in Hi. apply (proj1 (set_of_In _ _)) in Hi.
        apply in_map_iff in Hi as (i & <- & Hi). apply in_seq in Hi. rewrite slice_length.
        split; [lia|]. exists i. apply slice_occurs. rewrite slice_length.
        replace (Nat.min (i + Z.to_nat n - i) (length l - i)) with (Z.to_nat n) by lia.
        rewrite andb_true_iff, Nat.leb_le. split; [lia|]. apply eqb_refl.
      + intros [Hl (p & Hp)]. apply (Permutation_in _ (Permutation_sym (Ho _))). apply (proj2 (set_of_In _ _)).
        apply in_map_iff. exists p. rewrite <- Hl. apply slice_occurs in Hp as Hs. apply andb_prop in Hs as [_ Hs].
        destruct (eqb_ok (slice l p (p + length w)) w) as [E|]; [|discriminate]. split; auto.
        apply in_seq. apply occurs_at_bound in Hp. lia.
  Qed.

  Definition good l w : Prop := primitive w /\ exists p, occurs_at (w ++ w) l p.

  Lemma add_word_ok fuel l acc w : w <> [] -> (Z.of_nat (length l) <= 2 ^ 53)%Z -> length l < fuel ->
    (exists p, occurs_at w l p) ->
    exists b : bool, add_word fuel l acc w = Ok (if b then acc ++ [w] else acc) /\ (b = true <-> good l w).
  Proof.
    intros Hw Hl Hf [p Hp]. apply occurs_at_bound in Hp. unfold add_word.
    destruct (is_primitive_ok w fuel) as (b & -> & Hb); auto; [lia|lia|]. cbn [bind]. destruct b.
    - destruct (ListUtils.search_all_ok l w) as (os & -> & Ha & Hin). cbn [bind].
      exists (has_adjacent (length w) os). split; auto.
      assert (Hpr : primitive w) by (apply Hb; auto).
      rewrite (double_iff w l Hpr os Ha Hin). unfold good. tauto.
    - exists false. split; auto. split; [discriminate|]. intros [Hpr _]. apply Hb in Hpr. discriminate.
  Qed.

  Lemma add_words_ok fuel l : (Z.of_nat (length l) <= 2 ^ 53)%Z -> length l < fuel ->
    forall ws acc, (forall w, In w ws -> w <> [] /\ exists p, occurs_at w l p) ->
    exists rs, foldM (add_word fuel l) ws acc = Ok (acc ++ rs) /\ subseq rs ws /\
      forall w, In w rs <-> In w ws /\ good l w.
  Proof.
    intros Hl Hf. induction ws as [|w ws IH]; intros acc Hws; cbn [foldM].
    - exists []. rewrite app_nil_r. split; auto. split; [constructor|]. intros; cbn; tauto.
    - destruct (Hws w (or_introl eq_refl)) as [Hw Hp].
      destruct (add_word_ok fuel l acc w Hw Hl Hf Hp) as (b & -> & Hb). cbn [bind].
      destruct (IH (if b then acc ++ [w] else acc)) as (rs & -> & Hs & Hr); [intros; apply Hws; right; auto|].
      destruct b.
      + exists (w :: rs). rewrite <- app_assoc. split; auto. split; [apply subseq_take; auto|].
        intros v. cbn. rewrite Hr. split; [intros [<-|[]]; tauto|]. intros [[<-|]]; auto.
      + exists rs. split; auto. split; [apply subseq_skip; auto|]. intros v. rewrite Hr. cbn.
        split; [tauto|]. intros [[<-|] Hg]; auto. apply Hb in Hg. discriminate.
  Qed.

  Lemma subseq_In {X} (s m : list X) x : subseq s m -> In x s -> In x m.
  Proof. induction 1; cbn; intuition. Qed.
  Lemma subseq_NoDup {X} (s m : list X) : subseq s m -> NoDup m -> NoDup s.
  Proof.
    induction 1 as [|x s m Hs IH|x s m Hs IH]; intros Hn; auto; inversion Hn; subst; auto.
    constructor; auto. intros Hx. eapply subseq_In in Hx; eauto.
  Qed.

  Theorem find_primitive_ok order fuel l (mn : Z) mx :
    (forall s, Permutation (order s) s) -> (1 <= mn)%Z ->
    (Z.of_nat (length l) <= 2 ^ 53)%Z -> length l < fuel ->
    exists r, find_primitive_tandem_repeats order fuel l mn mx = Ok r /\ NoDup r /\
      forall w, In w r <->
        (mn <= Z.of_nat (length w) <= match mx with None => Z.of_nat (length l) / 2 | Some m => m end)%Z /\
        primitive w /\ exists p, occurs_at (w ++ w) l p.
  Proof.
    intros Ho Hmn Hl Hf. unfold find_primitive_tandem_repeats.
    set (m := match mx with None => (Z.of_nat (length l) / 2)%Z | Some m => m end).
    assert (Hg : forall ks acc, (forall k, In k ks -> True) -> NoDup ks ->
      exists rs, foldM (fun acc wl => foldM (add_word fuel l) (extract_words order l wl) acc)
                       (map (fun k => (mn + Z.of_nat k)%Z) ks) acc = Ok (acc ++ rs) /\ NoDup rs /\
        forall w, In w rs <-> (exists k, In k ks /\ Z.of_nat (length w) = (mn + Z.of_nat k)%Z) /\ good l w).
    { induction ks as [|k ks IH]; intros acc _ Hnd; cbn [map foldM].
      - exists []. rewrite app_nil_r. split; auto. split; [constructor|]. intros w. cbn.
        split; [intros []|]. intros [(k & [] & _) _].
      - inversion Hnd; subst.
        destruct (word_extract order l (mn + Z.of_nat k) Ho ltac:(lia)) as [HN HW].
        destruct (add_words_ok fuel l Hl Hf (extract_words order l (mn + Z.of_nat k)) acc) as (r1 & -> & Hs1 & Hr1).
        { intros w Hw. apply HW in Hw as [Hlen Hp]. split; auto. intros ->. cbn in Hlen. lia. }
        cbn [bind]. destruct (IH (acc ++ r1)) as (r2 & -> & HN2 & Hr2); auto.
        exists (r1 ++ r2). rewrite app_assoc. split; auto. split.
        + assert (HN1 : NoDup r1) by (eapply subseq_NoDup; eauto).
          assert (Hdis : forall w, In w r1 -> ~ In w r2).
          { intros w Hw1 Hw2. apply Hr1 in Hw1 as [Hw1 _]. apply HW in Hw1 as [Hw1 _].
            apply Hr2 in Hw2 as [(k' & Hk' & Ek') _]. assert (k' = k) by lia. subst. auto. }
          clear - HN1 HN2 Hdis. induction HN1 as [|x r1 Hx HN1 IH]; cbn; auto. constructor.
          * rewrite in_app_iff. intros [|Hi]; auto. apply (Hdis x); auto. left; auto.
          * apply IH. intros; apply Hdis; right; auto.
        + intros w. rewrite in_app_iff, Hr1, Hr2, HW. split.
          * intros [[[Hw1 Hw2] Hw3]|[(k' & Hk' & Ek') Hw]].
            -- split; auto. exists k. split; [left; auto|]. lia.
            -- split; auto. exists k'. split; auto. right; auto.
          * intros [(k' & [<-|Hk'] & Ek') Hw]; [left|right; split; auto; exists k'; auto].
            split; auto. split; [lia|]. destruct Hw as [_ (p & Hp)]. exists p. apply occurs_at_app in Hp. tauto. }
    destruct (Hg (seq 0 (Z.to_nat (m + 1 - mn))) []) as (rs & -> & HN & Hrs); auto; [apply seq_NoDup|].
    cbn [app]. exists rs. split; auto. split; auto. intros w. rewrite Hrs. unfold good. split.
    - intros [(k & Hk & Ek) Hw]. apply in_seq in Hk. split; auto. lia.
    - intros [Hw1 Hw2]. split; auto. exists (Z.to_nat (Z.of_nat (length w) - mn)). split; [apply in_seq; lia|lia].
  Qed.
End P.
