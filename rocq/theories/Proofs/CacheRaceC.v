(** Processes that share a cache file: any functions and any results *)
From Coq Require Import List Arith Lia.
From Verif.Model Require Import Base Parallel ResultCache CacheRace.
From Verif.Spec Require Import CacheRaceSpec.
From Verif.Proofs Require Import ParallelA CacheRaceA.
Import ListNotations.
Open Scope nat_scope.

Section P.
  Context {R B : Type} (zero : B) (p : pickle R B) (function : nat -> result R) (L : nat).
  Notation step := (kill_step zero p function).
  Hypothesis HL : forall i r, function i = Ok r -> length (fst (dump p r)) <= L.
  Definition ended (i : nat) (e : ending R) : Prop := e = Killed \/
    (exists x, function i = Err x /\ e = RaisedExc x) \/
    (exists r, function i = Ok r /\ e = match snd (dump p r) with None => Returned r | Some x => RaisedExc x end) \/
    (exists got, length got <= L /\ e = match load p got with Ok r => Returned r | Err x => RaisedExc x end).
  Definition okq (i : nat) (ph : phase R B) : Prop :=
    match ph with
    | Evaluated r => function i = Ok r
    | Writing r pos => function i = Ok r /\ pos <= length (fst (dump p r))
    | Reading got => length got <= L
    | Ended e => ended i e
    | _ => True
    end.
  Definition opens (ph : phase R B) : Prop := match ph with Writing _ _ | Reading _ => True | _ => False end.
  Definition inv2 (s : race R B) : Prop :=
    (forall i ph, nth_error (phases s) i = Some ph -> okq i ph) /\
    match file s with None => forall i ph, nth_error (phases s) i = Some ph -> ~ opens ph | Some c => length c <= L end.
  Definition weight2 (ph : phase R B) : nat :=
    match ph with
    | Started => L + 4 | Evaluating => L + 3 | Evaluated _ => L + 2
    | Writing _ pos => L - pos + 1 | Reading got => L - length got + 1 | Ended _ => 0
    end.
  Definition total2 (l : list (phase R B)) : nat := list_sum (map weight2 l).
  Lemma weight2_upd l i ph ph' : nth_error l i = Some ph -> weight2 ph' < weight2 ph -> total2 (upd l i ph') < total2 l.
  Proof.
    unfold total2. revert i. induction l as [|x l IH]; intros [|i] E H; cbn in E; try discriminate; cbn [upd map list_sum fold_right].
    - injection E as ->. cbn. lia.
    - specialize (IH i E H). cbn. unfold list_sum in IH. lia.
  Qed.
  Lemma inv2_upd s i ph ph' f : inv2 s -> nth_error (phases s) i = Some ph -> okq i ph' ->
    match f with None => file s = None /\ ~ opens ph' | Some c => length c <= L end -> inv2 (Race f (upd (phases s) i ph')).
  Proof.
    intros [I1 I2] Ei Ho Hf. assert (Li : i < length (phases s)) by (apply nth_error_Some; congruence). split; cbn [phases file].
    - intros k q. rewrite nth_upd by auto. destruct (Nat.eqb_spec k i) as [->|]; [intros [= <-]; auto|apply I1].
    - destruct f as [c|]; [auto|]. destruct Hf as [Ef Hn]. rewrite Ef in I2. intros k q. rewrite nth_upd by auto. destruct (k =? i); [intros [= <-]; auto|apply I2].
  Qed.
  Lemma inv2_step a s s' : inv2 s -> step a s = Some s' -> inv2 s' /\ total2 (phases s') < total2 (phases s).
  Proof.
    intros I H. pose proof I as [I1 I2]. destruct a as [i n|i]; cbn [kill_step] in H.
    - unfold race_step in H. destruct (nth_error (phases s) i) as [ph|] eqn:Ei; [|discriminate].
      pose proof (I1 _ _ Ei) as Ok1. destruct ph as [| |r'|r' pos|got|e]; try discriminate.
      + injection H as <-. cbn [phases]. split; [|eapply weight2_upd; [eauto|]; destruct (file s); cbn; lia].
        apply (inv2_upd s i _ _ _ I Ei); destruct (file s); cbn; auto; lia.
      + injection H as <-. cbn [phases]. destruct (function i) as [r|x] eqn:Ef; (split; [|eapply weight2_upd; [eauto|]; cbn; lia]);
          apply (inv2_upd s i _ _ _ I Ei); cbn; auto; try (destruct (file s); auto).
        * right. left. eauto.
        * right. left. eauto.
      + injection H as <-. cbn [phases]. split; [|eapply weight2_upd; [eauto|]; cbn; lia].
        apply (inv2_upd s i _ _ _ I Ei); cbn; [|lia]. cbn in Ok1. split; [auto|lia].
      + destruct Ok1 as [Ef Hp]. pose proof (HL _ _ Ef) as Hd. destruct (dump p r') as [bytes e] eqn:Ed. cbn [fst] in *. destruct (firstn (S n) (skipn pos bytes)) as [|b0 piece0] eqn:Ep.
        * injection H as <-. cbn [phases]. split; [|eapply weight2_upd; [eauto|]; cbn; lia].
          apply (inv2_upd s i _ _ _ I Ei); [|destruct (file s); cbn; auto]. cbn. right. right. left. exists r'. rewrite Ed. auto.
        * destruct (file s) as [c|] eqn:Ec; [|discriminate]. injection H as <-.
          assert (Q : length (firstn (S n) (skipn pos bytes)) = S (length piece0)) by (rewrite Ep; auto). rewrite firstn_length, skipn_length in Q.
          cbn [phases]. split; [|eapply weight2_upd; [eauto|]; cbn [weight2 length]; lia].
          apply (inv2_upd s i _ _ _ I Ei); [cbn [okq]; rewrite Ed; cbn [fst length]; split; [auto|lia]|].
          rewrite (write_length (R:=R) zero function). cbn [length]. lia.
      + destruct (file s) as [c|] eqn:Ec; [|discriminate]. destruct (firstn (S n) (skipn (length got) c)) as [|b0 piece0] eqn:Ep.
        * injection H as <-. cbn [phases]. split; [|eapply weight2_upd; [eauto|]; cbn; lia].
          apply (inv2_upd s i _ _ _ I Ei); [|auto]. cbn. right. right. right. exists got. auto.
        * injection H as <-. assert (Q : length (firstn (S n) (skipn (length got) c)) = S (length piece0)) by (rewrite Ep; auto). rewrite firstn_length, skipn_length in Q.
          cbn [phases]. split; [|eapply weight2_upd; [eauto|]; cbn [weight2]; rewrite app_length; cbn [length]; lia].
          apply (inv2_upd s i _ _ _ I Ei); [|auto]. cbn [okq]. rewrite app_length. cbn [length]. lia.
    - destruct (nth_error (phases s) i) as [ph|] eqn:Ei; [|discriminate].
      assert (X : ~ has_ended ph /\ s' = Race (file s) (upd (phases s) i (Ended Killed))) by (destruct ph; try discriminate; injection H as <-; cbn; auto).
      destruct X as [Ne ->]. cbn [phases]. split.
      + apply (inv2_upd s i _ _ _ I Ei); [cbn; left; auto|]. destruct (file s); cbn; auto.
      + eapply weight2_upd; [eauto|]. destruct ph; cbn in *; try lia; contradiction.
  Qed.
  Lemma inv2_exec sched : forall s s', inv2 s -> exec step sched s = Some s' -> inv2 s' /\ length sched + total2 (phases s') <= total2 (phases s).
  Proof.
    induction sched as [|a sched IH]; intros s s' I H; cbn [exec length] in *. { injection H as <-. split; [auto|lia]. }
    destruct (step a s) as [s1|] eqn:E; [|discriminate]. destruct (inv2_step _ _ _ I E) as [I' W]. destruct (IH s1 s' I' H). split; [auto|lia].
  Qed.
  Lemma inv2_init content n : match content with None => True | Some c => length c <= L end -> inv2 (race_init content n).
  Proof.
    intros Hc. assert (Sn : forall i ph, nth_error (repeat (@Started R B) n) i = Some ph -> ph = Started) by (intros i ph H; apply nth_error_In, repeat_spec in H; auto).
    split; cbn [phases file race_init]; [intros i ph H; rewrite (Sn i ph H); cbn; auto|]. destruct content; [auto|]. intros i ph H. rewrite (Sn i ph H). cbn. auto.
  Qed.
  Lemma total2_init content n : total2 (phases (race_init content n)) = n * (L + 4).
  Proof. clear HL. unfold total2. cbn [race_init phases]. induction n as [|n IH]; [auto|]. cbn [repeat map list_sum fold_right weight2]. unfold list_sum in IH. rewrite IH. lia. Qed.
  Lemma not_stuck2 s i ph : inv2 s -> nth_error (phases s) i = Some ph -> ~ has_ended ph -> exists s', step (Go i 0) s = Some s'.
  Proof.
    intros [I1 I2] Ei Ne. cbn [kill_step]. unfold race_step. rewrite Ei. destruct ph as [| |r'|r' pos|got|e]; eauto.
    - destruct (dump p r') as [bytes e]. destruct (file s) as [c|] eqn:Ef; [|exfalso; apply (I2 _ _ Ei); cbn; auto]. destruct (firstn 1 (skipn pos bytes)); eauto.
    - destruct (file s) as [c|] eqn:Ef; [|exfalso; apply (I2 _ _ Ei); cbn; auto]. destruct (firstn 1 (skipn (length got) c)); eauto.
    - exfalso. apply Ne. cbn. auto.
  Qed.
End P.
(*P C132 x *)
(** Whatever the functions return or raise, and whoever is killed: every process
    that has not ended can go on, all end after finitely many steps, and a call
    ends with the exception or the result of its own function, or with what
    unpickling makes of bytes it has read. *)
Lemma C132_any_function : forall (R B : Type) (zero : B) (p : pickle R B) function size content n sched s,
  (forall i r, function i = Ok r -> length (fst (dump p r)) <= size) -> (forall c, content = Some c -> length c <= size) ->
  exec (kill_step zero p function) sched (race_init content n) = Some s ->
  length sched <= n * (size + 4) /\
  (forall i ph, nth_error (phases s) i = Some ph -> ~ has_ended ph -> exists s', kill_step zero p function (Go i 0) s = Some s') /\
  (forall i e, nth_error (phases s) i = Some (Ended e) -> e = Killed \/
    (exists x, function i = Err x /\ e = RaisedExc x) \/
    (exists r, function i = Ok r /\ e = match snd (dump p r) with None => Returned r | Some x => RaisedExc x end) \/
    (exists got, length got <= size /\ e = match load p got with Ok r => Returned r | Err x => RaisedExc x end)).
Proof.
  intros R B zero p function size content n sched s HL Hc H.
  assert (I0 : inv2 p function size (race_init content n)) by (apply inv2_init; destruct content as [c|]; auto).
  destruct (inv2_exec zero p function size HL sched _ _ I0 H) as [I W].
  rewrite (total2_init function) in W. split; [lia|]. split; [intros; eapply not_stuck2; eauto|]. intros i e Hi. exact (proj1 I _ _ Hi).
Qed.
