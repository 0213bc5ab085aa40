From Verif.Model Require Import Base RandomUtils.
From Verif.Lib Require Import ListLib.

Section B.
  Context {A : Type}.
  Variable size : nat.
  Variable choice : nat -> result (list A).
  Variable draw : nat -> list A.
  Hypothesis Hsize : 1 <= size.
  Hypothesis Hdraw : forall k, choice k = Ok (draw k) /\ length (draw k) = size.

  (** the first [m] buffers, one after the other *)
  Definition stream (m : nat) : list A := concat (map draw (seq 0 m)).
  Lemma stream_length m : length (stream m) = m * size.
  Proof.
    unfold stream. generalize 0. induction m as [|m IH]; intros s; cbn; auto.
    rewrite app_length, IH. destruct (Hdraw s) as [_ ->]. reflexivity.
  Qed.
  Lemma stream_S m : stream (S m) = stream m ++ draw m.
  Proof.
    unfold stream. replace (S m) with (m + 1) by lia. rewrite seq_app, map_app, concat_app.
    cbn. rewrite app_nil_r. reflexivity.
  Qed.

  (** after [c] refills with [rest] left over, [d] samples have been taken *)
  Definition at_state (b : buffering_choice) (d : nat) : Prop :=
    d + length (bc_buffer b) = bc_calls b * size /\
    stream (bc_calls b) = firstn d (stream (bc_calls b)) ++ bc_buffer b /\
    length (bc_buffer b) < size.

  Lemma samples_ok n : forall b d, at_state b d ->
    exists xs b', bc_samples choice n b = Ok (xs, b') /\ at_state b' (d + n) /\
      length xs = n /\
      firstn d (stream (bc_calls b')) ++ xs = firstn (d + n) (stream (bc_calls b')) /\
      bc_calls b <= bc_calls b'.
  Proof.
    induction n as [|n IH]; intros b d (H1 & H2 & H3).
    - exists [], b. cbn. rewrite Nat.add_0_r, app_nil_r. repeat split; auto.
    - cbn [bc_samples]. unfold bc_next_sample.
      assert (Hstep : exists x b1, (match bc_buffer b with
          | x :: rest => Ok (x, BC rest (bc_calls b))
          | [] => do buf <- choice (bc_calls b);
                  match buf with x :: rest => Ok (x, BC rest (S (bc_calls b))) | [] => Err StopIteration end
          end = Ok (x, b1)) /\ at_state b1 (S d) /\ bc_calls b <= bc_calls b1 /\
          firstn d (stream (bc_calls b1)) ++ [x] = firstn (S d) (stream (bc_calls b1))).
      { destruct (bc_buffer b) as [|x rest] eqn:Eb.
        - destruct (Hdraw (bc_calls b)) as [-> Hl]. cbn [bind].
          destruct (draw (bc_calls b)) as [|x rest] eqn:Ed; [cbn in Hl; lia|]. cbn [length] in *.
          assert (Hd : d = length (stream (bc_calls b))) by (rewrite stream_length; lia).
          assert (Hs : stream (S (bc_calls b)) = (stream (bc_calls b) ++ [x]) ++ rest)
            by (rewrite stream_S, Ed, <- app_assoc; auto).
          assert (HF : firstn (S d) (stream (S (bc_calls b))) = stream (bc_calls b) ++ [x]).
          { rewrite Hs. rewrite firstn_app. rewrite firstn_all2 by (rewrite app_length; cbn; lia).
            rewrite app_length. cbn [length]. replace (S d - _) with 0 by lia. rewrite firstn_O, app_nil_r; auto. }
          exists x. eexists. split; [reflexivity|]. unfold at_state; cbn [bc_buffer bc_calls].
          split; [|split; [lia|]].
          + split; [lia|]. split; [rewrite HF; auto|lia].
          + rewrite HF. f_equal. rewrite stream_S, firstn_app. rewrite firstn_all2 by lia.
            replace (d - _) with 0 by lia. rewrite firstn_O, app_nil_r; auto.
        - exists x. eexists. split; [reflexivity|]. unfold at_state; cbn [bc_buffer bc_calls] in *. cbn [length] in *.
          assert (Hl : length (firstn d (stream (bc_calls b))) = d).
          { rewrite firstn_length, stream_length. lia. }
          assert (HF : firstn d (stream (bc_calls b)) ++ [x] = firstn (S d) (stream (bc_calls b))).
          { rewrite H2 at 2. rewrite firstn_app, Hl. rewrite (firstn_all2 (n := S d)) by (rewrite Hl; auto).
            replace (S d - d) with 1 by lia. reflexivity. }
          split; [|split; [lia|auto]]. split; [lia|]. split; [|lia].
          rewrite <- HF, <- app_assoc. auto. }
      destruct Hstep as (x & b1 & -> & Hb1 & Hc1 & Hx). cbn [bind fst snd].
      destruct (IH b1 (S d) Hb1) as (xs & b' & -> & Hb' & Hl & Hxs & Hc). cbn [bind fst snd].
      exists (x :: xs), b'. split; auto. replace (d + S n) with (S d + n) by lia. split; auto.
      split; [cbn; lia|]. split; [|lia]. rewrite <- Hxs.
      change (x :: xs) with ([x] ++ xs). rewrite app_assoc. f_equal.
      assert (Hpre : forall m, bc_calls b1 <= m -> firstn (S d) (stream m) = firstn (S d) (stream (bc_calls b1)) /\
                      firstn d (stream m) = firstn d (stream (bc_calls b1))).
      { assert (Hld : S d <= length (stream (bc_calls b1))) by (rewrite stream_length; destruct Hb1; lia).
        induction 1 as [|m Hm [IH1 IH2]]; auto.
        assert (Hlm : bc_calls b1 * size <= m * size) by (apply Nat.mul_le_mono_r; auto).
        rewrite stream_length in Hld.
        rewrite stream_S. rewrite !firstn_app, stream_length.
        replace (S d - m * size) with 0 by lia. replace (d - m * size) with 0 by lia.
        rewrite !firstn_O, !app_nil_r. auto. }
      destruct (Hpre (bc_calls b') Hc) as [-> ->]. auto.
  Qed.

  Theorem bc_samples_ok n :
    exists xs b', bc_samples choice n (BC [] 0) = Ok (xs, b') /\
      length xs = n /\ (exists later, stream (bc_calls b') = xs ++ later) /\
      (* as few refills as possible *)
      bc_calls b' * size < n + size.
  Proof.
    destruct (samples_ok n (BC [] 0) 0) as (xs & b' & E & (H1 & H2 & H3) & Hl & Hxs & _).
    { split; [cbn; lia|]. split; [reflexivity|]. cbn; lia. }
    exists xs, b'. split; auto. split; auto. cbn in Hxs. split; [|cbn in *; lia].
    exists (bc_buffer b'). rewrite H2 at 1. cbn [Nat.add]. rewrite <- Hxs. auto.
  Qed.
End B.

Theorem bc_create_ok {A P} (options : list A) (probabilities : list P) size :
  (bc_create options probabilities size = Ok (BC [] 0) /\
     length options = length probabilities /\ (1 <= size)%Z) \/
  (bc_create options probabilities size = Err ValueError /\
     (length options <> length probabilities \/ (size < 1)%Z)).
Proof.
  unfold bc_create. destruct (Nat.eqb_spec (length options) (length probabilities)); cbn [negb]; auto.
  destruct (Z.ltb_spec size 1); auto.
Qed.
