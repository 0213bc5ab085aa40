(** Processes that use the same cache file and may be killed *)
From Coq Require Import List Arith Lia.
From Verif.Model Require Import Base Parallel ResultCache CacheRace.
From Verif.Spec Require Import CacheRaceSpec.
From Verif.Proofs Require Import ParallelA CacheRaceA.
Import ListNotations.
Open Scope nat_scope.

Lemma exec_app {S Act} (step : Act -> S -> option S) l1 l2 s s' : exec step (l1 ++ l2) s = Some s' <-> exists s1, exec step l1 s = Some s1 /\ exec step l2 s1 = Some s'.
Proof.
  revert s. induction l1 as [|a l1 IH]; intros s; cbn [exec app].
  - split; [eauto|]. intros (s1 & [= <-] & H). auto.
  - destruct (step a s) as [s1|]; [apply IH|]. split; [discriminate|]. intros (s1 & X & _). discriminate.
Qed.

Ltac dis := intros; discriminate.
Section P.
  Context {R B : Type} (zero : B) (p : pickle R B) (function : nat -> result R).
  Notation step := (race_step zero p function).
  Notation kstep := (kill_step zero p function).
  (** a killed process is one that makes no more steps *)
  Definition goes (sched : list move) : list (nat * nat) := concat (map (fun m => match m with Go i n => [(i, n)] | Kill _ => [] end) sched).
  Definition kills (sched : list move) : list nat := concat (map (fun m => match m with Go _ _ => [] | Kill i => [i] end) sched).
  Definition dead (ok : phase R B -> Prop) (a b : option (phase R B)) : Prop := a = b \/ exists ph, a = Some ph /\ b = Some (Ended Killed) /\ ok ph.
  Definition sim (ok : phase R B -> Prop) (s t : race R B) : Prop := file s = file t /\ length (phases s) = length (phases t) /\
    forall i, dead ok (nth_error (phases s) i) (nth_error (phases t) i).
  Lemma lt_nth {X} (l : list X) i x : nth_error l i = Some x -> i < length l.
  Proof. intros H. apply nth_error_Some. congruence. Qed.
  Lemma go_frame i n s t s' : step (i, n) s = Some s' -> file s = file t -> nth_error (phases s) i = nth_error (phases t) i ->
    exists ph, s' = Race (file s') (upd (phases s) i ph) /\ step (i, n) t = Some (Race (file s') (upd (phases t) i ph)).
  Proof.
    intros H Ef Ep. unfold race_step in *. rewrite <- Ep, <- Ef. destruct (nth_error (phases s) i) as [ph|]; [|discriminate].
    destruct ph as [| |r|r pos|got|e].
    - injection H as <-. cbn [file]. eauto.
    - injection H as <-. cbn [file]. eauto.
    - injection H as <-. cbn [file]. eauto.
    - destruct (dump p r) as [bytes e]. destruct (firstn (S n) (skipn pos bytes)); [injection H as <-; cbn [file]; eauto|].
      destruct (file s); [|discriminate]. injection H as <-. cbn [file]. eauto.
    - destruct (file s); [|discriminate]. destruct (firstn (S n) (skipn (length got) l)); injection H as <-; cbn [file]; eauto.
    - discriminate.
  Qed.
  Lemma sim_step ok m s t t' : sim ok s t -> (forall i ph, m = Kill i -> nth_error (phases t) i = Some ph -> ok ph) -> kstep m t = Some t' ->
    exists s', exec step (goes [m]) s = Some s' /\ sim ok s' t'.
  Proof.
    intros (Ef & El & Ed) Hk H. destruct m as [i n|i]; cbn [kill_step goes map concat app exec] in *.
    - assert (Eq : nth_error (phases t) i = nth_error (phases s) i).
      { destruct (Ed i) as [E|(ph & E1 & E2 & _)]; [auto|]. exfalso. unfold race_step in H. rewrite E2 in H. discriminate. }
      destruct (go_frame i n t s t' H) as (ph & Et & Es); auto.
      assert (Li : i < length (phases t)). { unfold race_step in H. destruct (nth_error (phases t) i) eqn:E; [|discriminate]. eapply lt_nth; eauto. }
      rewrite Es. eexists. split; [reflexivity|]. rewrite Et. split; [auto|]. cbn [phases]. split; [rewrite !upd_len; auto|].
      intros k. rewrite !nth_upd by lia. destruct (k =? i); [left; auto|apply Ed].
    - eexists. split; [reflexivity|]. destruct (nth_error (phases t) i) as [ph|] eqn:E; [|discriminate].
      assert (Li := lt_nth _ _ _ E). assert (Hi : t' = Race (file t) (upd (phases t) i (Ended Killed)) /\ forall e, ph <> Ended e) by (destruct ph; try discriminate; injection H as <-; (split; [auto|dis])).
      destruct Hi as [-> Ne]. split; [auto|]. cbn [phases]. split; [rewrite upd_len; auto|]. intros k. rewrite nth_upd by auto. destruct (Nat.eqb_spec k i) as [->|]; [|apply Ed].
      right. destruct (Ed i) as [X|(q & X1 & X2 & _)]; [|exfalso; rewrite E in X2; injection X2 as ->; eapply Ne; eauto]. exists ph. rewrite X. split; [auto|]. split; [auto|]. eauto.
  Qed.
  Lemma goes_app a b : goes (a ++ b) = goes a ++ goes b.
  Proof. unfold goes. rewrite map_app, concat_app. auto. Qed.
  Lemma sim_refl ok s : sim ok s s.
  Proof. split; [auto|]. split; [auto|]. intros i. left. auto. Qed.
  Lemma sim_exec ok sched : forall s t t', sim ok s t ->
    (forall s1 s2 i ph t1, sched = s1 ++ Kill i :: s2 -> exec kstep s1 t = Some t1 -> nth_error (phases t1) i = Some ph -> ok ph) ->
    exec kstep sched t = Some t' -> exists s', exec step (goes sched) s = Some s' /\ sim ok s' t'.
  Proof.
    induction sched as [|m sched IH]; intros s t t' Hs Hk H; cbn [exec] in H.
    - injection H as <-. exists s. auto.
    - destruct (kstep m t) as [t1|] eqn:Em; [|discriminate]. destruct (sim_step ok m s t t1) as (s1 & E1 & S1); auto.
      { intros i ph -> Hi. eapply (Hk [] sched i ph t); eauto. }
      destruct (IH s1 t1 t' S1) as (s2 & E2 & S2); auto.
      { intros a b i ph u -> Ha Hi. eapply (Hk (m :: a) b i ph u); [reflexivity| |auto]. cbn [exec]. rewrite Em. auto. }
      exists s2. split; [|auto]. change (m :: sched) with ([m] ++ sched). rewrite goes_app. apply exec_app. eauto.
  Qed.
  Lemma kills_count sched : length sched = length (goes sched) + length (kills sched).
  Proof. unfold goes, kills. induction sched as [|[i n|i] sched IH]; cbn [map concat app length]; lia. Qed.
  Definition left (ph : phase R B) : nat := match ph with Ended _ => 0 | _ => 1 end.
  Definition total_left (l : list (phase R B)) : nat := list_sum (map left l).
  Lemma left_upd l i ph ph' : nth_error l i = Some ph -> total_left (upd l i ph') + left ph = total_left l + left ph'.
  Proof.
    unfold total_left. revert i. induction l as [|x l IH]; intros [|i] E; cbn in E; try discriminate; cbn [upd map list_sum fold_right].
    - injection E as ->. lia.
    - specialize (IH i E). unfold list_sum in IH. lia.
  Qed.
  Lemma kills_left sched : forall t t', exec kstep sched t = Some t' -> length (kills sched) + total_left (phases t') <= total_left (phases t).
  Proof.
    induction sched as [|m sched IH]; intros t t' H; cbn [exec] in H. { injection H as <-. cbn. lia. }
    destruct (kstep m t) as [t1|] eqn:Em; [|discriminate]. specialize (IH _ _ H).
    assert (X : length (kills [m]) + total_left (phases t1) <= total_left (phases t)).
    { destruct m as [i n|i]; cbn [kill_step kills map concat app length] in *.
      - destruct (go_frame i n t t t1 Em eq_refl eq_refl) as (ph & -> & _). cbn [phases]. unfold race_step in Em. destruct (nth_error (phases t) i) as [q|] eqn:E; [|discriminate].
        assert (Y := left_upd _ _ _ ph E). assert (left q = 1) by (destruct q; auto; discriminate). assert (left ph <= 1) by (destruct ph; cbn; lia). lia.
      - destruct (nth_error (phases t) i) as [q|] eqn:E; [|discriminate]. assert (Y := left_upd _ _ _ (Ended Killed) E).
        destruct q; try discriminate; injection Em as <-; cbn [phases left] in *; lia. }
    change (m :: sched) with ([m] ++ sched). unfold kills in *. rewrite map_app, concat_app, app_length. lia.
  Qed.
  Lemma left_init content n : total_left (phases (race_init content n)) = n.
  Proof. unfold total_left. cbn [race_init phases]. induction n as [|n IH]; [auto|]. cbn [repeat map list_sum fold_right left]. unfold list_sum in IH. rewrite IH. auto. Qed.

  (** the last process that opens the file *)
  Section Last.
    Variable r : R.
    Variable bytes : list B.
    Hypothesis Hf : forall i, function i = Ok r.
    Hypothesis Hd : dump p r = (bytes, None).
    Notation L := (length bytes).
    Definition lastinv (i : nat) (s : race R B) : Prop := inv zero p r bytes s /\
      (forall k ph, nth_error (phases s) k = Some ph -> ph <> Evaluating /\ forall r', ph <> Evaluated r') /\
      exists c pos, file s = Some c /\ pos <= L /\ (forall j, j < pos -> nth_error c j = nth_error bytes j) /\
        (nth_error (phases s) i = Some (Writing r pos) \/ (pos = L /\ nth_error (phases s) i = Some (Ended (Returned r)))).
    Lemma last_step i a s s' : lastinv i s -> step a s = Some s' -> lastinv i s'.
    Proof.
      intros (I & Ne & c & pos & Ef & Lp & Hc & Hi) H. split; [eapply inv_step; eauto|].
      destruct I as [I1 I2]. destruct a as [k n]. unfold race_step in H. rewrite Ef in H. destruct (nth_error (phases s) k) as [ph|] eqn:Ek; [|discriminate].
      assert (Lk := lt_nth _ _ _ Ek).
      assert (Up : forall ph' : phase R B, ph' <> Evaluating -> (forall r', ph' <> Evaluated r') -> forall m q, nth_error (upd (phases s) k ph') m = Some q -> q <> Evaluating /\ forall r', q <> Evaluated r').
      { intros ph' A1 A2 m q. rewrite nth_upd by auto. destruct (m =? k); [intros [= <-]; auto|apply Ne]. }
      assert (Oth : forall ph' : phase R B, (forall r' q, ph <> Writing r' q) -> (forall e, ph <> Ended e) -> nth_error (upd (phases s) k ph') i = nth_error (phases s) i).
      { intros ph' A1 A2. rewrite nth_upd by auto. destruct (Nat.eqb_spec i k) as [->|]; [|auto]. exfalso. rewrite Ek in Hi. destruct Hi as [Hi|[_ Hi]]; injection Hi as ->; [eapply A1; eauto|eapply A2; eauto]. }
      destruct (Ne _ _ Ek) as [N1 N2]. destruct ph as [| |r'|r' q|got|e]; try congruence; try (exfalso; eapply N2; eauto; fail).
      - injection H as <-. split; [apply Up; dis|]. exists c, pos. cbn [file phases]. rewrite Oth by dis. auto.
      - destruct (I1 _ _ Ek) as [-> Hq]. rewrite Hd in H. destruct (firstn (S n) (skipn q bytes)) as [|b0 piece0] eqn:Ep.
        + injection H as <-. split; [apply Up; dis|]. exists c, pos. cbn [file phases]. split; [auto|]. split; [auto|]. split; [auto|]. rewrite nth_upd by auto.
          destruct (Nat.eqb_spec i k) as [->|]; [|auto]. right. split; [|auto]. rewrite Ek in Hi. destruct Hi as [[= ->]|[_ X]]; [|discriminate].
          assert (Q : length (firstn (S n) (skipn pos bytes)) = 0) by (rewrite Ep; auto). rewrite firstn_length, skipn_length in Q. lia.
        + assert (Es : S (length piece0) = length (firstn (S n) (skipn q bytes))) by (rewrite Ep; auto). injection H as <-. rewrite <- Ep. cbn [length]. rewrite ?Es. clear Es. set (piece := firstn (S n) (skipn q bytes)) in *.
          assert (Hpl : length piece = Nat.min (S n) (L - q)) by (unfold piece; rewrite firstn_length, skipn_length; auto).
          assert (Hpn : forall j, q <= j < q + length piece -> nth_error piece (j - q) = nth_error bytes j).
          { intros j Hj. unfold piece. rewrite (nth_firstn function) by lia. rewrite nth_skipn. f_equal. lia. }
          split; [apply Up; dis|]. cbn [file phases].
          assert (W : forall j, j < pos \/ q <= j < q + length piece -> nth_error (write_at zero c q piece) j = nth_error bytes j).
          { intros j Hj. assert (Lj : q <= j < q + length piece \/ j < length c /\ ~ (q <= j < q + length piece) /\ j < pos).
            { destruct (Nat.lt_ge_cases j q); [|destruct (Nat.lt_ge_cases j (q + length piece)); [auto|]]; (right; destruct Hj as [Hj|Hj]; [|lia]; split; [|lia]; apply nth_None_len; rewrite Hc by auto; apply nth_error_Some; lia). }
            rewrite (write_nth zero function) by lia. destruct (Nat.ltb_spec j q) as [J1|J1].
            - destruct Lj as [?|(? & ? & ?)]; [lia|]. rewrite (proj2 (Nat.ltb_lt j (length c))) by auto. auto.
            - destruct (Nat.ltb_spec j (q + length piece)) as [J2|J2]; [apply Hpn; lia|]. destruct Lj as [?|(? & ? & ?)]; [lia|auto]. }
          destruct (Nat.eq_dec i k) as [->|Nk].
          * rewrite Ek in Hi. destruct Hi as [[= ->]|[_ X]]; [|discriminate]. exists (write_at zero c pos piece), (pos + length piece). split; [auto|]. split; [lia|]. split; [intros j Hj; apply W; lia|].
            left. rewrite nth_upd, Nat.eqb_refl by auto. auto.
          * exists (write_at zero c q piece), pos. split; [auto|]. split; [auto|]. split; [intros j Hj; apply W; auto|]. rewrite nth_upd by auto. rewrite (proj2 (Nat.eqb_neq i k)) by auto. auto.
      - destruct (firstn (S n) (skipn (length got) c)) as [|b0 piece0]; injection H as <-; (split; [apply Up; dis|]; exists c, pos; cbn [file phases]; rewrite Oth by dis; auto).
    Qed.
  End Last.
End P.

(*P C132 Processes that share a cache file *)
(** processes can be killed at any time: a call that ends returns the result of
    the function, or it ends with what it has read from an incomplete file; in
    the file each byte is right or zero *)
Lemma C132_killed_calls : forall (R B : Type) (zero : B) (p : pickle R B) function r bytes content n sched s,
  (forall i, function i = Ok r) -> dump p r = (bytes, None) -> content = None \/ content = Some bytes ->
  exec (kill_step zero p function) sched (race_init content n) = Some s ->
  (forall c, file s = Some c -> patchy zero bytes c) /\
  forall e, In (Ended e) (phases s) -> e = Killed \/ e = Returned r \/
    exists got, patchy zero bytes got /\ e = match load p got with Ok r' => Returned r' | Err x => RaisedExc x end.
Proof.
  intros R B zero p function r bytes content n sched s Hf Hd Hc H.
  destruct (sim_exec zero p function (fun _ => True) sched _ _ s (sim_refl _ (race_init content n))) as (t & Ht & Ef & El & Ed); [auto|exact H|].
  assert (I : inv zero p r bytes t) by (eapply exec_inv; [|exact Ht|apply inv_init; auto]; intros; eapply inv_step; eauto).
  split.
  - intros c Hcf. destruct I as [_ I]. rewrite Ef, Hcf in I. apply I.
  - intros e Hi. apply In_nth_error in Hi. destruct Hi as [i Hi]. destruct (Ed i) as [E|(ph & _ & E & _)]; [|left; congruence]. right. rewrite Hi in E. exact (proj1 I _ _ E).
Qed.
(** if no process is killed while it has the file open for writing, then
    whenever no call is writing, the file does not exist or is complete *)
Lemma C132_killed_file : forall (R B : Type) (zero : B) (p : pickle R B) function r bytes content n sched s,
  (forall i, function i = Ok r) -> dump p r = (bytes, None) -> content = None \/ content = Some bytes ->
  exec (kill_step zero p function) sched (race_init content n) = Some s ->
  (forall before i after t ph, sched = before ++ Kill i :: after -> exec (kill_step zero p function) before (race_init content n) = Some t ->
    nth_error (phases t) i = Some ph -> ~ writes ph) ->
  (forall ph, In ph (phases s) -> ~ writes ph) -> file s = None \/ file s = Some bytes.
Proof.
  intros R B zero p function r bytes content n sched s Hf Hd Hc H Hk Nw.
  destruct (sim_exec zero p function (fun ph => ~ writes ph) sched _ _ s (sim_refl _ (race_init content n))) as (t & Ht & Ef & El & Ed); [intros s1 s2 i ph t1 E1 E2 E3; eapply Hk; eauto|exact H|].
  rewrite <- Ef. eapply C132_file; eauto. intros ph Hi. apply In_nth_error in Hi. destruct Hi as [i Hi]. destruct (Ed i) as [E|(q & E & _ & Nq)].
  - apply Nw. rewrite Hi in E. eapply nth_error_In; eauto.
  - rewrite Hi in E. injection E as ->. auto.
Qed.
(** the file is repaired: if process [i] opens it for writing, no other call that
    missed it is about to, and [i] returns, then the file is complete, whatever
    was in it and whoever was killed *)
Lemma C132_killed_last : forall (R B : Type) (zero : B) (p : pickle R B) function r bytes content n sched s i k s1 sched' s2,
  (forall i, function i = Ok r) -> dump p r = (bytes, None) -> content = None \/ content = Some bytes ->
  exec (kill_step zero p function) sched (race_init content n) = Some s -> nth_error (phases s) i = Some (Evaluated r) ->
  (forall j ph, nth_error (phases s) j = Some ph -> j <> i -> ph <> Evaluating /\ forall r', ph <> Evaluated r') ->
  kill_step zero p function (Go i k) s = Some s1 ->
  exec (kill_step zero p function) sched' s1 = Some s2 -> nth_error (phases s2) i = Some (Ended (Returned r)) ->
  file s2 = Some bytes.
Proof.
  intros R B zero p function r bytes content n sched s i k s1 sched' s2 Hf Hd Hc H Hi Hn H1 H2 He.
  (* kill, in the simulation, only what is not about to open the file *)
  destruct (sim_exec zero p function (fun _ => True) sched _ _ s (sim_refl _ (race_init content n))) as (t & Ht & Ef & El & Ed); [auto|exact H|].
  assert (I : inv zero p r bytes t) by (eapply exec_inv; [|exact Ht|apply inv_init; auto]; intros; eapply inv_step; eauto).
  assert (Li := lt_nth _ _ _ Hi). cbn [kill_step] in H1. unfold race_step in H1. rewrite Hi in H1. injection H1 as <-.
  assert (Wi : nth_error (phases (Race (Some (@nil B)) (upd (phases s) i (Writing r 0)))) i = Some (Writing r 0)) by (cbn [phases]; rewrite nth_upd, Nat.eqb_refl by auto; auto).
  (* the state in which the dead are dead *)
  set (u := Race (Some (@nil B)) (upd (phases s) i (Writing r 0))) in *.
  assert (Iu : inv zero p r bytes (Race (file u) (map (fun ph => match ph with Ended Killed => Ended (Returned r) | _ => ph end) (phases u)))).
  { assert (Os : forall m ph, nth_error (phases u) m = Some ph -> okp zero p r bytes ph \/ ph = Ended Killed).
    { intros m ph. unfold u. cbn [phases]. rewrite nth_upd by auto. destruct (m =? i); [intros [= <-]; left; cbn; split; [auto|lia]|]. intros Hm.
      destruct (Ed m) as [E|(q & _ & E & _)]; [left; rewrite Hm in E; exact (proj1 I _ _ E)|right; congruence]. }
    split; cbn [phases file].
    - intros m ph Hm. rewrite nth_error_map in Hm. destruct (nth_error (phases u) m) as [q|] eqn:Eq; [|discriminate]. injection Hm as <-.
      destruct (Os _ _ Eq) as [O|O]; [|rewrite O; cbn; auto]. destruct q as [| |?|? ?|?|e]; auto. destruct e; auto. cbn. auto.
    - cbn [u file]. split; [apply patchy_nil|]. intros j Hj. right. exists i, 0. split; [|lia]. rewrite nth_error_map, Wi. auto. }
  set (f := fun ph : phase R B => match ph with Ended Killed => Ended (Returned r) | _ => ph end) in *.
  assert (Lu : lastinv zero p r bytes i (Race (file u) (map f (phases u)))).
  { split; [exact Iu|]. split.
    - cbn [phases]. intros m ph Hm. rewrite nth_error_map in Hm. destruct (nth_error (phases u) m) as [q|] eqn:Eq; [|discriminate]. injection Hm as <-.
      unfold u in Eq. cbn [phases] in Eq. rewrite nth_upd in Eq by auto. destruct (Nat.eqb_spec m i) as [->|Nm]; [injection Eq as <-; split; dis|].
      destruct (Hn _ _ Eq Nm) as [N1 N2]. destruct q as [| |?|? ?|?|e]; cbn [f]; try (split; dis); try congruence; try (exfalso; eapply N2; eauto; fail). destruct e; split; dis.
    - exists [], 0. cbn [file phases u]. split; [auto|]. split; [lia|]. split; [lia|]. left. rewrite nth_error_map. fold u. change (upd (phases s) i (Writing r 0)) with (phases u). rewrite Wi. auto. }
  (* go on from there *)
  assert (G : forall sched a b, exec (kill_step zero p function) sched a = Some b ->
     exists sched1 c, exec (race_step zero p function) sched1 (Race (file a) (map f (phases a))) = Some c /\ file c = file b /\ length (phases c) = length (phases b) /\
       forall m, nth_error (phases c) m = option_map f (nth_error (phases b) m) \/ nth_error (phases b) m = Some (Ended Killed)).
  { clear -Hf. intros sched a b H.
    assert (G' : forall sched a b c0, file c0 = file a -> length (phases c0) = length (phases a) ->
        (forall m, nth_error (phases c0) m = option_map f (nth_error (phases a) m) \/ nth_error (phases a) m = Some (Ended Killed)) ->
        exec (kill_step zero p function) sched a = Some b ->
        exists sched1 c, exec (race_step zero p function) sched1 c0 = Some c /\ file c = file b /\ length (phases c) = length (phases b) /\
         forall m, nth_error (phases c) m = option_map f (nth_error (phases b) m) \/ nth_error (phases b) m = Some (Ended Killed)).
    { clear -Hf. induction sched as [|m sched IH]; intros a b c0 Ef El Ed H; cbn [exec] in H. { injection H as <-. exists [], c0. auto. }
      destruct (kill_step zero p function m a) as [a1|] eqn:Em; [|discriminate]. destruct m as [i n|i]; cbn [kill_step] in Em.
      - assert (Eq : nth_error (phases a) i = nth_error (phases c0) i).
        { pose proof Em as Em'. unfold race_step in Em'. destruct (nth_error (phases a) i) as [ph|] eqn:E; [|discriminate]. destruct (Ed i) as [X|X]; rewrite E in X.
          - cbn [option_map] in X. rewrite X. destruct ph; auto. discriminate.
          - injection X as ->. discriminate. }
        destruct (go_frame zero p function i n a c0 a1 Em (eq_sym Ef) Eq) as (ph & Ea & Ec).
        assert (Li : i < length (phases a)). { unfold race_step in Em. destruct (nth_error (phases a) i) eqn:E; [|discriminate]. eapply lt_nth; eauto. }
        assert (Nk : ph <> Ended Killed).
        { intros ->. unfold race_step in Em. rewrite Ea in Em. destruct (nth_error (phases a) i) as [q|] eqn:E; [|discriminate].
          assert (X : forall fl q', Some (Race fl (upd (phases a) i q')) = Some (Race (file a1) (upd (phases a) i (Ended Killed))) -> q' = Ended Killed).
          { intros fl q' Y. injection Y as _ Y. assert (Z : nth_error (upd (phases a) i q') i = nth_error (upd (phases a) i (Ended Killed)) i) by (rewrite Y; auto). rewrite !nth_upd, Nat.eqb_refl in Z by auto. congruence. }
          destruct q as [| |r'|r' q|got|e]; try discriminate.
          - apply X in Em. destruct (file a); discriminate.
          - apply X in Em. destruct (function i); discriminate.
          - apply X in Em. discriminate.
          - destruct (dump p r') as [bs e]. destruct (firstn (S n) (skipn q bs)). { apply X in Em. destruct e; discriminate. } destruct (file a); [apply X in Em|]; discriminate.
          - destruct (file a); [|discriminate]. destruct (firstn (S n) (skipn (length got) l)); apply X in Em; [destruct (load p got); discriminate|discriminate]. }
        destruct (IH a1 b (Race (file a1) (upd (phases c0) i ph))) as (sc & c & E1 & E2); auto.
        + cbn [phases]. rewrite Ea. cbn [phases]. rewrite !upd_len. auto.
        + cbn [phases]. intros m. rewrite Ea. cbn [phases]. rewrite !nth_upd by lia. destruct (m =? i); [|apply Ed]. left. cbn [option_map]. f_equal. destruct ph as [| |?|? ?|?|e]; auto. destruct e; auto. congruence.
        + exists ((i, n) :: sc), c. split; [|auto]. cbn [exec]. rewrite Ec. auto.
      - destruct (nth_error (phases a) i) as [q|] eqn:E; [|discriminate]. assert (Li := lt_nth _ _ _ E).
        assert (Ea : a1 = Race (file a) (upd (phases a) i (Ended Killed))) by (destruct q; try discriminate; injection Em as <-; auto). subst a1.
        apply (IH _ b c0) in H; auto; cbn [file phases].
        + rewrite upd_len. auto.
        + intros m. rewrite nth_upd by auto. destruct (m =? i); auto. }
    apply (G' sched a b); auto; cbn [phases]; [apply map_length|]. intros m. left. apply nth_error_map. }
  destruct (G _ _ _ H2) as (sched1 & c & E1 & E2 & _ & E3).
  assert (Lc : lastinv zero p r bytes i c) by (eapply exec_inv; [|exact E1|exact Lu]; intros; eapply last_step; eauto).
  destruct Lc as ([_ Ic] & _ & c' & pos & Ef' & Lp & Hc' & Hi'). rewrite <- E2, Ef'. f_equal. rewrite Ef' in Ic.
  assert (pos = length bytes). { destruct (E3 i) as [X|X]; rewrite He in X; [|discriminate]. destruct Hi' as [Y|[Y _]]; [|auto]. rewrite X in Y. discriminate. }
  subst pos. apply list_eq; [apply Ic|]. auto.
Qed.
(** processes that are not killed end after finitely many steps *)
Lemma C132_killed_finishes : forall (R B : Type) (zero : B) (p : pickle R B) function r bytes content n sched s,
  (forall i, function i = Ok r) -> dump p r = (bytes, None) -> content = None \/ content = Some bytes ->
  exec (kill_step zero p function) sched (race_init content n) = Some s ->
  length sched <= n * (length bytes + 5) /\
  forall i ph, nth_error (phases s) i = Some ph -> ~ has_ended ph -> exists s', kill_step zero p function (Go i 0) s = Some s'.
Proof.
  intros R B zero p function r bytes content n sched s Hf Hd Hc H.
  destruct (sim_exec zero p function (fun _ => True) sched _ _ s (sim_refl _ (race_init content n))) as (t & Ht & Ef & El & Ed); [auto|exact H|].
  destruct (C132_finishes _ _ _ _ _ _ _ _ _ _ _ Hf Hd Hc Ht) as [F1 F2]. split.
  - rewrite (kills_count function). assert (X := kills_left _ _ _ _ _ _ H). rewrite left_init in X. lia.
  - intros i ph Hi Ne. destruct (Ed i) as [E|(q & _ & E & _)]; [|exfalso; rewrite Hi in E; injection E as ->; apply Ne; cbn; auto].
    destruct (F2 i ph) as [t' Ht']; auto. { congruence. } cbn [kill_step]. destruct (go_frame zero p function i 0 t s t' Ht' Ef E) as (q & _ & X). eauto.
Qed.
(** a process that is killed while it writes spoils the file for good: [load]
    raises in every later call *)
Lemma C132_killed_witness : exists sched s, exec (kill_step 0 counted_pickle (fun _ => Ok [7; 8])) sched (race_init None 3) = Some s /\
  phases s = [Ended Killed; Ended (RaisedExc EOFError); Ended (RaisedExc EOFError)] /\ file s = Some [2; 7].
Proof.
  exists [Go 0 0; Go 0 0; Go 0 0; Go 0 1; Kill 0; Go 1 0; Go 1 5; Go 1 0; Go 2 0; Go 2 0; Go 2 0; Go 2 0]. eexists. split; [vm_compute; reflexivity|]. split; reflexivity.
Qed.
