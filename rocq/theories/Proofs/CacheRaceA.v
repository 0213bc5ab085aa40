(** Processes that use the same cache file at the same time *)
From Coq Require Import List Arith Lia.
From Verif.Model Require Import Base Parallel ResultCache CacheRace.
From Verif.Spec Require Import CacheRaceSpec.
From Verif.Proofs Require Import ParallelA.
Import ListNotations.
Open Scope nat_scope.

Lemma nth_upd {A} (q : list A) i j v : i < length q -> nth_error (upd q i v) j = if j =? i then Some v else nth_error q j.
Proof.
  revert i j. induction q as [|a q IH]; intros [|i] [|j] H; cbn in *; try lia; auto. rewrite IH by lia. auto.
Qed.
Lemma upd_len {A} (q : list A) i v : length (upd q i v) = length q.
Proof. revert i. induction q as [|a q IH]; intros [|i]; cbn; auto. Qed.
Lemma exec_inv {S Act} (step : Act -> S -> option S) (J : S -> Prop) : (forall a s s', J s -> step a s = Some s' -> J s') ->
  forall sched s s', exec step sched s = Some s' -> J s -> J s'.
Proof.
  intros Hs. induction sched as [|a sched IH]; intros s s' H; cbn [exec] in H. { injection H as <-. auto. }
  destruct (step a s) as [s1|] eqn:E; [|discriminate]. eauto.
Qed.

  Lemma list_eq {B} (l m : list B) : length l <= length m -> (forall j, j < length m -> nth_error l j = nth_error m j) -> l = m.
  Proof.
    revert m. induction l as [|x l IH]; intros [|y m] L H; cbn in *; auto; try lia. { specialize (H 0). cbn in H. assert (X : None = Some y) by (apply H; lia). discriminate. }
    f_equal. { specialize (H 0). cbn in H. assert (X : Some x = Some y) by (apply H; lia). congruence. } apply IH; [lia|]. intros j Hj. apply (H (S j)). lia.
  Qed.

Section P.
  Context {R B : Type} (zero : B) (p : pickle R B) (function : nat -> result R).
  Notation step := (race_step zero p function).
  Lemma write_length c pos piece : length (write_at zero c pos piece) = Nat.max (length c) (pos + length piece).
  Proof. unfold write_at. rewrite !app_length, firstn_length, repeat_length, skipn_length. lia. Qed.
  Lemma nth_repeat' (x : B) n j : j < n -> nth_error (repeat x n) j = Some x.
  Proof. revert j. induction n as [|n IH]; intros [|j] H; cbn; try lia; auto. apply IH. lia. Qed.
  Lemma nth_firstn (l : list B) n j : j < n -> nth_error (firstn n l) j = nth_error l j.
  Proof. revert n j. induction l as [|x l IH]; intros [|n] [|j] H; cbn; try lia; auto. apply IH. lia. Qed.
  Lemma nth_skipn (l : list B) n j : nth_error (skipn n l) j = nth_error l (n + j).
  Proof. revert n. induction l as [|x l IH]; intros [|n]; cbn; auto. destruct j; auto. Qed.
  Lemma write_nth c pos piece j : j < Nat.max (length c) (pos + length piece) ->
    nth_error (write_at zero c pos piece) j =
    if j <? pos then (if j <? length c then nth_error c j else Some zero)
    else if j <? pos + length piece then nth_error piece (j - pos) else nth_error c j.
  Proof.
    intros Hj. unfold write_at.
    destruct (Nat.ltb_spec j pos) as [H1|H1]; [destruct (Nat.ltb_spec j (length c)) as [H2|H2]|destruct (Nat.ltb_spec j (pos + length piece)) as [H2|H2]].
    - rewrite nth_error_app1 by (rewrite firstn_length; lia). apply nth_firstn. auto.
    - rewrite nth_error_app2; rewrite firstn_length; [|lia]. rewrite nth_error_app1 by (rewrite repeat_length; lia). apply nth_repeat'. lia.
    - rewrite nth_error_app2; rewrite firstn_length; [|lia]. rewrite nth_error_app2; rewrite repeat_length; [|lia]. rewrite nth_error_app1 by lia. f_equal. lia.
    - rewrite nth_error_app2; rewrite firstn_length; [|lia]. rewrite nth_error_app2; rewrite repeat_length; [|lia]. rewrite nth_error_app2 by lia. rewrite nth_skipn. f_equal. lia.
  Qed.
  Lemma nth_None_len {X} (l : list X) j : nth_error l j <> None -> j < length l.
  Proof. apply nth_error_Some. Qed.

  Lemma firstn_grow (c : list B) k n : k <= length c -> firstn k c ++ firstn n (skipn k c) = firstn (k + n) c.
  Proof.
    revert k. induction c as [|x c IH]; intros [|k] H; cbn [length firstn skipn app Nat.add] in *; try lia; auto. f_equal. apply IH. lia.
  Qed.
  Lemma firstn_len (c : list B) m : firstn m c = firstn (length (firstn m c)) c.
  Proof. rewrite firstn_length. destruct (Nat.le_ge_cases m (length c)); [rewrite Nat.min_l by auto; auto|rewrite Nat.min_r, !firstn_all2 by lia; auto]. Qed.
  Lemma firstn_read (c : list B) m n : firstn m c ++ firstn n (skipn (length (firstn m c)) c) = firstn (length (firstn m c) + n) c.
  Proof. rewrite (firstn_len c m) at 1. apply firstn_grow. rewrite firstn_length. lia. Qed.

  Section Same.
    Variable r : R.
    Variable bytes : list B.
    Hypothesis Hf : forall i, function i = Ok r.
    Hypothesis Hd : dump p r = (bytes, None).
    Notation L := (length bytes).
    Definition outcome (got : list B) : ending R := match load p got with Ok r => Returned r | Err e => RaisedExc e end.
    Definition okp (ph : phase R B) : Prop :=
      match ph with
      | Evaluated r' => r' = r
      | Writing r' pos => r' = r /\ pos <= L
      | Reading got => patchy zero bytes got
      | Ended e => e = Returned r \/ exists got, patchy zero bytes got /\ e = outcome got
      | _ => True
      end.
    Definition early (ph : phase R B) : Prop := match ph with Started | Evaluating | Evaluated _ => True | _ => False end.
    Definition inv (s : race R B) : Prop :=
      (forall i ph, nth_error (phases s) i = Some ph -> okp ph) /\
      match file s with
      | None => forall i ph, nth_error (phases s) i = Some ph -> early ph
      | Some c => patchy zero bytes c /\
          forall j, j < L -> nth_error c j = nth_error bytes j \/ exists i pos, nth_error (phases s) i = Some (Writing r pos) /\ pos <= j
      end.
    Lemma patchy_nil : patchy zero bytes [].
    Proof. split; [cbn; lia|]. intros [|j] b H; discriminate. Qed.
    Lemma patchy_app got c n : patchy zero bytes got -> patchy zero bytes c -> patchy zero bytes (got ++ firstn n (skipn (length got) c)).
    Proof.
      intros [G1 G2] [C1 C2]. split.
      - rewrite app_length, firstn_length, skipn_length. lia.
      - intros j b H. destruct (Nat.lt_ge_cases j (length got)) as [Hj|Hj].
        + rewrite nth_error_app1 in H by auto. eauto.
        + rewrite nth_error_app2 in H by auto. assert (Hl : j - length got < length (firstn n (skipn (length got) c))) by (apply nth_None_len; congruence).
          rewrite firstn_length in Hl. rewrite nth_firstn in H by lia. rewrite nth_skipn in H. replace (length got + (j - length got)) with j in H by lia. eauto.
    Qed.
    Lemma inv_step a s s' : inv s -> step a s = Some s' -> inv s'.
    Proof.
      destruct a as [i n]. intros [I1 I2] H. unfold race_step in H. destruct (nth_error (phases s) i) as [ph|] eqn:Ei; [|discriminate].
      assert (Li : i < length (phases s)) by (apply nth_None_len; congruence).
      assert (Up : forall ph' : phase R B, okp ph' -> forall k q, nth_error (upd (phases s) i ph') k = Some q -> okp q).
      { intros ph' Hok k q. rewrite nth_upd by auto. destruct (k =? i); [intros [= <-]; auto|apply I1]. }
      assert (Keep : forall (ph' : phase R B) c, file s = Some c -> (forall pos, ph = Writing r pos -> pos = L) -> patchy zero bytes c /\ forall j, j < L -> nth_error c j = nth_error bytes j \/ exists k pos, nth_error (upd (phases s) i ph') k = Some (Writing r pos) /\ pos <= j).
      { intros ph' c Ef Hw. rewrite Ef in I2. destruct I2 as [C1 C2]. split; [auto|]. intros j Hj. destruct (C2 j Hj) as [?|(k & pos & Hk & Hp)]; [auto|]. right. exists k, pos. split; [|auto].
        rewrite nth_upd by auto. destruct (Nat.eqb_spec k i) as [->|]; [|auto]. rewrite Ei in Hk. injection Hk as ->. specialize (Hw pos eq_refl). lia. }
      pose proof (I1 _ _ Ei) as Ok1. destruct ph as [| |r'|r' pos|got|e].
      - injection H as <-. split; cbn [phases file].
        + apply Up. destruct (file s); cbn; auto. apply patchy_nil.
        + destruct (file s) eqn:Ef. { apply Keep; [auto|discriminate]. }
          intros k q. rewrite nth_upd by auto. destruct (k =? i); [intros [= <-]; cbn; auto|apply I2].
      - injection H as <-. rewrite Hf. split; cbn [phases file]. { apply Up. cbn. auto. }
        destruct (file s) eqn:Ef. { apply Keep; [auto|discriminate]. }
        intros k q. rewrite nth_upd by auto. destruct (k =? i); [intros [= <-]; cbn; auto|apply I2].
      - injection H as <-. cbn in Ok1. subst r'. split; cbn [phases file]. { apply Up. cbn. split; [auto|lia]. }
        split; [apply patchy_nil|]. intros j Hj. right. exists i, 0. split; [|lia]. rewrite nth_upd, Nat.eqb_refl by auto. auto.
      - destruct Ok1 as [-> Hp]. rewrite Hd in H. destruct (file s) as [c|] eqn:Ef; [|exfalso; exact (I2 _ _ Ei)].
        destruct (firstn (S n) (skipn pos bytes)) as [|b0 piece0] eqn:Ep.
        + injection H as <-. split; cbn [phases file]. { apply Up. cbn. auto. } apply Keep; [auto|]. intros pos' [= <-].
          assert (Q : length (firstn (S n) (skipn pos bytes)) = 0) by (rewrite Ep; auto). rewrite firstn_length, skipn_length in Q. lia.
        + assert (Es : S (length piece0) = length (firstn (S n) (skipn pos bytes))) by (rewrite Ep; auto). injection H as <-. rewrite <- Ep. cbn [length]. rewrite ?Es. clear Es. set (piece := firstn (S n) (skipn pos bytes)) in *. assert (Hpl : length piece = Nat.min (S n) (L - pos)) by (unfold piece; rewrite firstn_length, skipn_length; auto).
          assert (Hpn : forall j, pos <= j < pos + length piece -> nth_error piece (j - pos) = nth_error bytes j).
          { intros j Hj. unfold piece. rewrite nth_firstn by lia. rewrite nth_skipn. f_equal. lia. }
          split; cbn [phases file]. { apply Up. cbn [okp]. split; [auto|]. lia. } destruct I2 as [[C0 C1] C2]. split; [split|].
          * rewrite write_length. lia.
          * intros j b Hj. assert (Lj : j < length (write_at zero c pos piece)) by (apply nth_None_len; congruence). rewrite write_length in Lj. rewrite write_nth in Hj by auto.
            destruct (Nat.ltb_spec j pos) as [J1|J1]. { destruct (j <? length c); [eauto|right; congruence]. }
            destruct (Nat.ltb_spec j (pos + length piece)) as [J2|J2]; [|eauto]. left. rewrite <- Hpn by lia. auto.
          * intros j Hj. destruct (Nat.ltb_spec j pos) as [J1|J1].
            -- destruct (C2 j Hj) as [E|(k & q & Hk & Hq)].
               ++ left. assert (Lj : j < length c) by (apply nth_None_len; rewrite E; apply nth_error_Some; auto). rewrite write_nth by lia. rewrite (proj2 (Nat.ltb_lt j pos)), (proj2 (Nat.ltb_lt j (length c))) by auto. auto.
               ++ right. exists k, q. split; [|auto]. rewrite nth_upd by auto. destruct (Nat.eqb_spec k i) as [->|]; [|auto]. rewrite Ei in Hk. injection Hk as ->. lia.
            -- destruct (Nat.ltb_spec j (pos + length piece)) as [J2|J2].
               ++ left. rewrite write_nth by lia. rewrite (proj2 (Nat.ltb_ge j pos)), (proj2 (Nat.ltb_lt j (pos + length piece))) by auto. apply Hpn. lia.
               ++ right. exists i, (pos + length piece). split; [|auto]. rewrite nth_upd, Nat.eqb_refl by auto. auto.
      - destruct (file s) as [c|] eqn:Ef; [|discriminate]. destruct (firstn (S n) (skipn (length got) c)) as [|b0 piece0] eqn:Ep.
        + injection H as <-. split; cbn [phases file]. { apply Up. cbn. right. exists got. auto. } apply Keep; [auto|discriminate].
        + injection H as <-. split; cbn [phases file]. { apply Up. cbn. rewrite <- Ep. destruct I2 as [C1 _]. apply patchy_app; auto. } apply Keep; [auto|discriminate].
      - discriminate.
    Qed.
    Lemma inv_init content n : content = None \/ content = Some bytes -> inv (race_init content n).
    Proof.
      intros Hc. assert (Sn : forall i ph, nth_error (repeat (@Started R B) n) i = Some ph -> ph = Started) by (intros i ph H; apply nth_error_In, repeat_spec in H; auto).
      split; cbn [phases file race_init]; [intros i ph H; rewrite (Sn i ph H); cbn; auto|]. destruct Hc as [->| ->].
      - intros i ph H. rewrite (Sn i ph H). cbn. auto.
      - split; [split; [auto|eauto]|]. auto.
    Qed.
    Definition weight (ph : phase R B) : nat :=
      match ph with
      | Started => L + 4 | Evaluating => L + 3 | Evaluated _ => L + 2
      | Writing _ pos => L - pos + 1 | Reading got => L - length got + 1 | Ended _ => 0
      end.
    Definition total_weight (l : list (phase R B)) : nat := list_sum (map weight l).
    Lemma weight_upd l i ph ph' : nth_error l i = Some ph -> weight ph' < weight ph -> total_weight (upd l i ph') < total_weight l.
    Proof.
      unfold total_weight. revert i. induction l as [|x l IH]; intros [|i] E H; cbn in E; try discriminate; cbn [upd map list_sum fold_right].
      - injection E as ->. cbn. lia.
      - specialize (IH i E H). cbn. unfold list_sum in IH. lia.
    Qed.
    Lemma weight_step a s s' : inv s -> step a s = Some s' -> total_weight (phases s') < total_weight (phases s).
    Proof.
      destruct a as [i n]. intros [I1 I2] H. unfold race_step in H. destruct (nth_error (phases s) i) as [ph|] eqn:Ei; [|discriminate].
      pose proof (I1 _ _ Ei) as Ok1. destruct ph as [| |r'|r' pos|got|e]; try discriminate.
      - injection H as <-. cbn [phases]. eapply weight_upd; [eauto|]. destruct (file s); cbn; lia.
      - injection H as <-. cbn [phases]. eapply weight_upd; [eauto|]. rewrite Hf. cbn. lia.
      - injection H as <-. cbn [phases]. eapply weight_upd; [eauto|]. cbn. lia.
      - destruct Ok1 as [-> Hp]. rewrite Hd in H. destruct (firstn (S n) (skipn pos bytes)) as [|b0 piece0] eqn:Ep.
        + injection H as <-. cbn [phases]. eapply weight_upd; [eauto|]. cbn. lia.
        + destruct (file s); [|discriminate]. injection H as <-. cbn [phases]. eapply weight_upd; [eauto|]. cbn [weight]. 
          assert (Q : length (firstn (S n) (skipn pos bytes)) = S (length piece0)) by (rewrite Ep; auto). rewrite firstn_length, skipn_length in Q. cbn [length]. lia.
      - destruct (file s) as [c|] eqn:Ef; [|discriminate]. destruct (firstn (S n) (skipn (length got) c)) as [|b0 piece0] eqn:Ep.
        + injection H as <-. cbn [phases]. eapply weight_upd; [eauto|]. cbn. lia.
        + injection H as <-. cbn [phases]. eapply weight_upd; [eauto|]. cbn [weight]. rewrite app_length. cbn [length].
          assert (Q : length (firstn (S n) (skipn (length got) c)) = S (length piece0)) by (rewrite Ep; auto). rewrite firstn_length, skipn_length in Q. destruct I2 as [[C0 _] _]. lia.
    Qed.
    Lemma weight_exec sched : forall s s', inv s -> exec step sched s = Some s' -> length sched + total_weight (phases s') <= total_weight (phases s).
    Proof.
      induction sched as [|a sched IH]; intros s s' I H; cbn [exec length] in *. { injection H as <-. lia. }
      destruct (step a s) as [s1|] eqn:E; [|discriminate]. specialize (IH s1 s' (inv_step _ _ _ I E) H). pose proof (weight_step _ _ _ I E). lia.
    Qed.
    Lemma weight_init content n : total_weight (phases (race_init content n)) = n * (L + 4).
    Proof. unfold total_weight. cbn [race_init phases]. induction n as [|n IH]; [auto|]. cbn [repeat map list_sum fold_right weight]. unfold list_sum in IH. rewrite IH. lia. Qed.
    Lemma not_stuck s i ph : inv s -> nth_error (phases s) i = Some ph -> ~ has_ended ph -> exists s', step (i, 0) s = Some s'.
    Proof.
      intros [I1 I2] Ei Ne. unfold race_step. rewrite Ei. destruct ph as [| |r'|r' pos|got|e]; eauto.
      - destruct (I1 _ _ Ei) as [-> Hp]. rewrite Hd. destruct (file s) as [c|] eqn:Ef; [|exfalso; exact (I2 _ _ Ei)]. destruct (firstn 1 (skipn pos bytes)); eauto.
      - destruct (file s) as [c|] eqn:Ef; [|exfalso; exact (I2 _ _ Ei)]. destruct (firstn 1 (skipn (length got) c)); eauto.
      - exfalso. apply Ne. cbn. auto.
    Qed.
    (** later: the file is complete and nobody is busy *)
    Hypothesis Hl : load p bytes = Ok r.
    Definition calm (s : race R B) : Prop := file s = Some bytes /\ forall i ph, nth_error (phases s) i = Some ph -> ~ busy ph.
    Definition follows (s0 s : race R B) : Prop := calm s /\ length (phases s) = length (phases s0) /\
      forall i, nth_error (phases s0) i = Some Started -> nth_error (phases s) i = Some Started \/ (exists n, nth_error (phases s) i = Some (Reading (firstn n bytes))) \/ nth_error (phases s) i = Some (Ended (Returned r)).
    Lemma follows_step s0 a s s' : follows s0 s -> step a s = Some s' -> follows s0 s'.
    Proof.
      clear Hf Hd. destruct a as [i n]. intros ([Ef Nb] & Ln & F) H. unfold race_step in H. destruct (nth_error (phases s) i) as [ph|] eqn:Ei; [|discriminate].
      assert (Li : i < length (phases s)) by (apply nth_None_len; congruence).
      assert (Go : forall ph' : phase R B, ~ busy ph' -> (nth_error (phases s0) i = Some Started -> (exists m, ph' = Reading (firstn m bytes)) \/ ph' = Ended (Returned r)) -> follows s0 (Race (file s) (upd (phases s) i ph'))).
      { intros ph' Nb' S0. split; [split; cbn [file phases]; [auto|]|split; cbn [phases]; [rewrite upd_len; auto|]].
        - intros k q. rewrite nth_upd by auto. destruct (k =? i); [intros [= <-]; auto|apply Nb].
        - intros k Hk. rewrite nth_upd by auto. destruct (Nat.eqb_spec k i) as [->|]; [|apply F; auto]. right. destruct (S0 Hk) as [[m ->]| ->]; eauto. }
      pose proof (Nb _ _ Ei) as Nbi. rewrite Ef in H. destruct ph as [| |r'|r' pos|got|e]; try discriminate; try (exfalso; apply Nbi; cbn; auto; fail).
      - injection H as <-. rewrite <- Ef. apply Go; [cbn; auto|]. intros _. left. exists 0. auto.
      - destruct (firstn (S n) (skipn (length got) bytes)) as [|b0 piece0] eqn:Ep; injection H as <-; rewrite <- Ef; apply Go; cbn; auto; intros S0.
        + destruct (F i S0) as [E|[[m E]|E]]; rewrite Ei in E; try discriminate. injection E as ->. right.
          assert (Q : length (firstn (S n) (skipn (length (firstn m bytes)) bytes)) = 0) by (rewrite Ep; auto). rewrite firstn_length, skipn_length, firstn_length in Q.
          rewrite (firstn_all2 bytes) by lia. rewrite Hl. auto.
        + destruct (F i S0) as [E|[[m E]|E]]; rewrite Ei in E; try discriminate. injection E as ->. left. rewrite <- Ep. exists (length (firstn m bytes) + S n).
          f_equal. apply firstn_read.
    Qed.
  End Same.

  (** a process alone *)
  Definition alone (content : option (list B)) (s : race R B) : Prop :=
    match phases s with
    | [Started] => file s = content
    | [Evaluating] => content = None /\ file s = None
    | [Evaluated r] => content = None /\ function 0 = Ok r /\ file s = None
    | [Writing r pos] => content = None /\ function 0 = Ok r /\ pos <= length (fst (dump p r)) /\ file s = Some (firstn pos (fst (dump p r)))
    | [Reading got] => exists c, content = Some c /\ file s = Some c /\ exists n, got = firstn n c
    | [Ended e] =>
      match content with
      | Some c => file s = Some c /\ e = outcome c
      | None => match function 0 with
                | Err x => file s = None /\ e = RaisedExc x
                | Ok r => file s = Some (fst (dump p r)) /\ e = match snd (dump p r) with None => Returned r | Some x => RaisedExc x end
                end
      end
    | _ => False
    end.
  Lemma alone_step content a s s' : alone content s -> step a s = Some s' -> alone content s'.
  Proof.
    destruct a as [i n]. intros H E. unfold alone in H. destruct s as [fl ps]. cbn [phases file] in H. destruct ps as [|ph [|ph2 ps]]; [contradiction| |destruct ph; contradiction].
    unfold race_step in E. cbn [phases file] in E. destruct i as [|i]; [|destruct i; discriminate]. cbn [nth_error] in E.
    destruct ph as [| |r|r pos|got|e]; cbn [upd] in E.
    - injection E as <-. subst fl. unfold alone. cbn [phases file]. destruct content; [|auto]. exists l. split; [auto|]. split; [auto|]. exists 0. auto.
    - destruct H as [-> ->]. injection E as <-. unfold alone. cbn [phases file]. destruct (function 0); auto.
    - destruct H as (-> & Hf & ->). injection E as <-. unfold alone. cbn [phases file]. split; [auto|]. split; [auto|]. split; [lia|auto].
    - destruct H as (-> & Hf & Hp & ->). destruct (dump p r) as [bytes e] eqn:Hd. cbn [fst snd] in *. destruct (firstn (S n) (skipn pos bytes)) as [|b0 piece0] eqn:Ep.
      + injection E as <-. unfold alone. cbn [phases file]. rewrite Hf, Hd. cbn [fst snd]. split; [|auto]. f_equal. apply firstn_all2.
        assert (Q : length (firstn (S n) (skipn pos bytes)) = 0) by (rewrite Ep; auto). rewrite firstn_length, skipn_length in Q. lia.
      + assert (Es : S (length piece0) = length (firstn (S n) (skipn pos bytes))) by (rewrite Ep; auto). injection E as <-. unfold alone. cbn [phases file]. rewrite Hd. cbn [fst length]. rewrite <- Ep, ?Es. clear Es Ep. split; [auto|]. split; [auto|]. rewrite firstn_length, skipn_length. split; [lia|]. f_equal.
        unfold write_at. rewrite firstn_length, firstn_firstn, Nat.min_id. rewrite (Nat.min_l pos) by auto. rewrite Nat.sub_diag. cbn [repeat app]. rewrite (skipn_all2 (firstn pos bytes)) by (rewrite firstn_length; lia). rewrite app_nil_r.
        replace (firstn (S n) (skipn pos bytes)) with (firstn (Nat.min (S n) (length bytes - pos)) (skipn pos bytes)); [apply firstn_grow; auto|].
        destruct (Nat.le_ge_cases (S n) (length bytes - pos)); [rewrite Nat.min_l by auto; auto|rewrite Nat.min_r, !firstn_all2 by (rewrite ?skipn_length; lia); auto].
    - destruct H as (c & -> & -> & m & ->). destruct (firstn (S n) (skipn (length (firstn m c)) c)) as [|b0 piece0] eqn:Ep.
      + injection E as <-. unfold alone. cbn [phases file]. split; [auto|]. assert (Q : length (firstn (S n) (skipn (length (firstn m c)) c)) = 0) by (rewrite Ep; auto). rewrite firstn_length, skipn_length, firstn_length in Q.
        rewrite (firstn_all2 c) by lia. auto.
      + injection E as <-. unfold alone. cbn [phases file]. exists c. split; [auto|]. split; [auto|]. rewrite <- Ep. exists (length (firstn m c) + S n).
        apply firstn_read.
    - discriminate.
  Qed.
End P.

(*P C132 Processes that share a cache file *)
(** whenever no call is writing, the file does not exist or is complete; once a
    call has ended, it exists *)
Lemma C132_file : forall (R B : Type) (zero : B) (p : pickle R B) function r bytes content n sched s,
  (forall i, function i = Ok r) -> dump p r = (bytes, None) -> content = None \/ content = Some bytes ->
  exec (race_step zero p function) sched (race_init content n) = Some s ->
  ((forall ph, In ph (phases s) -> ~ writes ph) -> file s = None \/ file s = Some bytes) /\
  ((exists ph, In ph (phases s) /\ has_ended ph) -> file s <> None).
Proof.
  intros R B zero p function r bytes content n sched s Hf Hd Hc H.
  assert (I : inv zero p r bytes s) by (eapply exec_inv; [|exact H|apply inv_init; auto]; intros; eapply inv_step; eauto).
  destruct I as [_ I]. split.
  - intros Nw. destruct (file s) as [c|]; [right|auto]. f_equal. destruct I as [[C0 _] C2]. apply list_eq; [auto|]. intros j Hj.
    destruct (C2 j Hj) as [?|(i & pos & Hi & _)]; [auto|]. exfalso. apply (Nw _ (nth_error_In _ _ Hi)). cbn. auto.
  - intros (ph & Hi & He) E. rewrite E in I. apply In_nth_error in Hi. destruct Hi as [i Hi]. specialize (I _ _ Hi). destruct ph; contradiction.
Qed.
(** a call returns the result of the function, or it ends with what it has read
    from an incomplete file *)
Lemma C132_calls : forall (R B : Type) (zero : B) (p : pickle R B) function r bytes content n sched s e,
  (forall i, function i = Ok r) -> dump p r = (bytes, None) -> content = None \/ content = Some bytes ->
  exec (race_step zero p function) sched (race_init content n) = Some s -> In (Ended e) (phases s) ->
  e = Returned r \/ exists got, patchy zero bytes got /\ e = match load p got with Ok r' => Returned r' | Err x => RaisedExc x end.
Proof.
  intros R B zero p function r bytes content n sched s e Hf Hd Hc H Hi.
  assert (I : inv zero p r bytes s) by (eapply exec_inv; [|exact H|apply inv_init; auto]; intros; eapply inv_step; eauto).
  destruct I as [I _]. apply In_nth_error in Hi. destruct Hi as [i Hi]. exact (I _ _ Hi).
Qed.
(** once the file is complete and no call that missed it is still busy, every
    call that starts returns the result, and the file does not change *)
Lemma C132_later : forall (R B : Type) (zero : B) (p : pickle R B) function r bytes sched s s' i e,
  load p bytes = Ok r -> file s = Some bytes -> (forall ph, In ph (phases s) -> ~ busy ph) ->
  exec (race_step zero p function) sched s = Some s' -> nth_error (phases s) i = Some Started ->
  file s' = Some bytes /\ (forall ph, In ph (phases s') -> ~ busy ph) /\ (nth_error (phases s') i = Some (Ended e) -> e = Returned r).
Proof.
  intros R B zero p function r bytes sched s s' i e Hl Ef Nb H Hi.
  assert (F : follows r bytes s s'). { eapply exec_inv; [|exact H|]; [intros; eapply follows_step; eauto|]. split; [split; [auto|]|split; [auto|auto]]. intros k ph Hk. apply Nb. eapply nth_error_In; eauto. }
  destruct F as ([E1 E2] & _ & F). split; [auto|]. split. { intros ph Hp. apply In_nth_error in Hp. destruct Hp as [k Hk]. eauto. }
  intros He. destruct (F i Hi) as [X|[[m X]|X]]; congruence.
Qed.
(** each process that has not ended can go on, and all end after finitely many steps *)
Lemma C132_finishes : forall (R B : Type) (zero : B) (p : pickle R B) function r bytes content n sched s,
  (forall i, function i = Ok r) -> dump p r = (bytes, None) -> content = None \/ content = Some bytes ->
  exec (race_step zero p function) sched (race_init content n) = Some s ->
  length sched <= n * (length bytes + 4) /\
  forall i ph, nth_error (phases s) i = Some ph -> ~ has_ended ph -> exists s', race_step zero p function (i, 0) s = Some s'.
Proof.
  intros R B zero p function r bytes content n sched s Hf Hd Hc H.
  assert (I : inv zero p r bytes s) by (eapply exec_inv; [|exact H|apply inv_init; auto]; intros; eapply inv_step; eauto).
  split; [|intros; eapply not_stuck; eauto].
  assert (W := weight_exec zero p function r bytes Hf Hd sched _ _ (inv_init zero p r bytes content n Hc) H). rewrite (weight_init function r bytes Hf) in W. lia.
Qed.
(** a process alone does what a call of [ResultCache] does *)
Lemma C132_alone : forall (A R B : Type) (zero : B) (p : pickle R B) function content sched s e name (a : A),
  exec (race_step zero p function) sched (race_init content 1) = Some s -> phases s = [Ended e] ->
  let w := World (match content with None => [] | Some c => [(name, c)] end) 0 in
  let '(w', e') := wrapper p (Call name None (fun k _ => function k) a) NotKilled w in
  e' = e /\ dict_get name (files w') = file s.
Proof.
  intros A R B zero p function content sched s e name a H He.
  assert (J : alone p function content s) by (eapply exec_inv; [|exact H|reflexivity]; intros; eapply alone_step; eauto).
  unfold alone in J. rewrite He in J. unfold wrapper. cbn [cache_file key ResultCache.name files]. destruct content as [c|].
  - cbn [dict_get]. destruct (eqb_ok name name) as [_|X]; [|congruence]. destruct J as [-> ->]. split; [unfold outcome; destruct (load p c); auto|]. cbn [files dict_get]. destruct (eqb_ok name name); [auto|congruence].
  - cbn [dict_get ResultCache.function evaluations args]. destruct (function 0) as [r|x].
    + destruct (dump p r) as [bytes x]. cbn [fst snd] in J. destruct J as [-> ->]. split; [auto|]. cbn [files dict_set dict_get]. destruct (eqb_ok name name); [auto|congruence].
    + destruct J as [-> ->]. split; auto.
Qed.
(** three calls of a function that always returns [7; 8]: one returns [0; 8] *)
Lemma C132_wrong_result_witness : exists sched s, exec (race_step 0 counted_pickle (fun _ => Ok [7; 8])) sched (race_init None 3) = Some s /\
  phases s = [Ended (Returned [7; 8]); Ended (Returned [7; 8]); Ended (Returned [0; 8])] /\ file s = Some [2; 7; 8] /\
  (forall r, load counted_pickle (fst (dump counted_pickle r)) = Ok r) /\ (forall r k, k < length (fst (dump counted_pickle r)) -> exists x, load counted_pickle (firstn k (fst (dump counted_pickle r))) = Err x).
Proof.
  exists [(0, 0); (1, 0); (0, 0); (1, 0); (0, 0); (0, 1); (1, 0); (1, 0); (0, 0); (2, 0); (2, 5); (2, 0); (0, 0); (1, 5); (1, 0)]. eexists.
  split; [vm_compute; reflexivity|]. split; [reflexivity|]. split; [reflexivity|]. split.
  - intros r. cbn [counted_pickle dump load fst]. rewrite Nat.ltb_irrefl, firstn_all. auto.
  - intros r [|k] Hk; cbn [counted_pickle dump load fst firstn length] in *; [eauto|]. rewrite firstn_length. rewrite (proj2 (Nat.ltb_lt _ _)) by lia. eauto.
Qed.
(** two calls of a function that returns different results: the file holds neither *)
Lemma C132_mixture_witness : exists sched s, exec (race_step 0 counted_pickle (fun i => Ok (if i =? 0 then [7; 8] else [5; 6]))) sched (race_init None 3) = Some s /\
  phases s = [Ended (Returned [7; 8]); Ended (Returned [5; 6]); Ended (Returned [5; 8])].
Proof.
  exists [(0, 0); (1, 0); (0, 0); (1, 0); (0, 0); (0, 1); (1, 0); (1, 5); (1, 0); (0, 0); (0, 0); (2, 0); (2, 5); (2, 0)]. eexists.
  split; [vm_compute; reflexivity|]. reflexivity.
Qed.
