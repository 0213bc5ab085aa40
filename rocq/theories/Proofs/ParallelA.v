From Coq Require Import Permutation.
From Verif.Model Require Import Base ListUtils Parallel.
From Verif.Lib Require Import ListLib.

Lemma upd_length {A} (l : list A) i v : length (upd l i v) = length l.
Proof. revert i. induction l as [|a l IH]; intros [|i]; cbn; auto. Qed.
Lemma nth_upd_same {A} (l : list A) i v d : i < length l -> nth i (upd l i v) d = v.
Proof. revert i. induction l as [|a l IH]; intros [|i]; cbn; intros; auto; try lia. apply IH. lia. Qed.
Lemma nth_upd_other {A} (l : list A) i j v d : i <> j -> nth j (upd l i v) d = nth j l d.
Proof. revert i j. induction l as [|a l IH]; intros [|i] [|j]; cbn; intros; auto; try lia. Qed.
Lemma concat_upd {A} (l : list (list A)) i m rest : nth_error l i = Some (m :: rest) ->
  Permutation (m :: concat (upd l i rest)) (concat l).
Proof.
  revert i. induction l as [|a l IH]; intros [|i]; cbn [nth_error upd concat]; try discriminate.
  - intros E; injection E as ->. auto.
  - intros E. specialize (IH _ E). rewrite Permutation_middle. rewrite IH. auto.
Qed.
Lemma concat_upd_len {A} (l : list (list A)) i m rest : nth_error l i = Some (m :: rest) ->
  length (concat l) = Datatypes.S (length (concat (upd l i rest))).
Proof. intros E. apply concat_upd in E. apply Permutation_length in E. cbn in E. auto. Qed.
Lemma Forall_upd {A} (P : A -> Prop) l i v : Forall P l -> P v -> Forall P (upd l i v).
Proof. intros F Hv. revert i. induction F as [|a l Ha F IH]; intros [|i]; cbn; constructor; auto. Qed.
Lemma nth_error_nth_lt {A} (l : list A) i x d : nth_error l i = Some x -> nth i l d = x /\ i < length l.
Proof. revert i. induction l as [|a l IH]; intros [|i]; cbn; try discriminate; [intros E; injection E; auto with arith|]. intros E. apply IH in E. intuition lia. Qed.
Lemma concat_nil {A} (l : list (list A)) : concat l = [] <-> Forall (fun w => w = []) l.
Proof.
  induction l as [|a l IH]; cbn; [split; [constructor|auto]|]. split.
  - intros E. apply app_eq_nil in E. destruct E as [-> E]. constructor; [auto|]. apply IH; auto.
  - inversion 1; subst. cbn. apply IH; auto.
Qed.
Lemma exec_app {S Act} (step : Act -> S -> option S) a b s : exec step (a ++ b) s =
  match exec step a s with Some s' => exec step b s' | None => None end.
Proof. revert s. induction a as [|x a IH]; intros s; cbn; auto. destruct (step x s); auto. Qed.
(** invariants of executions *)
Lemma exec_ind {S Act} (step : Act -> S -> option S) (I : S -> Prop) : (forall a s s', I s -> step a s = Some s' -> I s') ->
  forall sched s s', I s -> exec step sched s = Some s' -> I s'.
Proof.
  intros Hs. induction sched as [|a sched IH]; cbn; intros s s' Is E; [injection E as <-; auto|].
  destruct (step a s) as [s1|] eqn:E1; [|discriminate]. apply (IH s1 s'); auto. apply (Hs a s s1); auto.
Qed.
Lemma exec_len {S Act} (step : Act -> S -> option S) (mu : S -> nat) : (forall a s s', step a s = Some s' -> mu s' < mu s) ->
  forall sched s s', exec step sched s = Some s' -> length sched + mu s' <= mu s.
Proof.
  intros Hs. induction sched as [|a sched IH]; cbn; intros s s' E; [injection E as <-; lia|].
  destruct (step a s) as [s1|] eqn:E1; [|discriminate]. apply IH in E. apply Hs in E1. lia.
Qed.

Section A.
Context {R : Type}.
Variable exc : R -> option error.
Local Notation msg := (@msg R).
Definition is_stop (m : msg) : bool := match kind exc m with Some StopIteration => true | _ => false end.
Definition is_val (m : msg) : Prop := kind exc m = None.
Definition clean (m : msg) : Prop := kind exc m = None \/ kind exc m = Some StopIteration.
Definition val_of (m : msg) : list R := match kind exc m, m with None, Val r => [r] | _, _ => [] end.
Definition stops (l : list msg) : nat := length (filter is_stop l).
Definition vals (l : list msg) : list R := flat_map val_of l.
Lemma stops_app l m : stops (l ++ m) = stops l + stops m.
Proof. unfold stops. rewrite filter_app, app_length. auto. Qed.
Lemma vals_app l m : vals (l ++ m) = vals l ++ vals m.
Proof. apply flat_map_app. Qed.
Lemma stops_perm l m : Permutation l m -> stops l = stops m.
Proof.
  unfold stops. induction 1; cbn; auto; try congruence.
  - destruct (is_stop x); cbn; auto.
  - destruct (is_stop x), (is_stop y); cbn; auto.
Qed.
Lemma vals_perm l m : Permutation l m -> Permutation (vals l) (vals m).
Proof. intros P. unfold vals. apply Permutation_flat_map; auto. Qed.
Lemma is_stop_stop : is_stop (Raised StopIteration) = true.
Proof. reflexivity. Qed.

Definition ended (w : list msg) : Prop := exists b, w = b ++ [Raised StopIteration].
Lemma ended_cons m w : ended (m :: w) -> w = [] \/ ended w.
Proof.
  intros [[|x b] E]; cbn in E; injection E as -> E; [left; auto|right]. exists b. auto.
Qed.
Lemma stops_ended ws : Forall ended ws -> length ws <= stops (concat ws).
Proof.
  induction 1 as [|w ws [b ->] F IH]; cbn [concat length]; [auto|]. rewrite !stops_app.
  assert (stops [Raised StopIteration] = 1) by reflexivity. lia.
Qed.

(** one queue *)
Section U.
Variable ws : list (list msg).
Hypothesis Hw : Forall ended ws.
Hypothesis Hn : ws <> [].
Local Notation n := (length ws).
Definition uinv (s : mp_state) : Prop := exists got,
  Permutation (got ++ queue s ++ concat (pend s)) (concat ws) /\ Forall (fun w => w = [] \/ ended w) (pend s) /\
  (queue s = [] \/ (exists q m, queue s = q ++ [m] /\ is_stop m = true) \/ concat (pend s) <> []) /\
  match main s with
  | Collect k acc => k = stops got /\ k < n /\ acc = vals got /\ Forall clean got
  | Done (Ok acc) => stops got = n /\ acc = vals got /\ Forall clean got
  | Done (Err e) => e <> StopIteration /\ exists m, In m got /\ kind exc m = Some e
  end.
Lemma n_pos : 0 < n.
Proof. destruct ws; [congruence|cbn; lia]. Qed.
Lemma uinv_init : uinv (mp_init ws).
Proof.
  pose proof n_pos. exists []. unfold mp_init, enter. cbn [pend queue main app]. split; [auto|]. split.
  - eapply Forall_impl; [|exact Hw]. auto.
  - split; [auto|]. destruct (Nat.ltb_spec 0 n); [|lia]. cbn. auto.
Qed.
Lemma uinv_step a s s' : uinv s -> mp_step exc n a s = Some s' -> uinv s'.
Proof.
  intros (got & P & F & L & M). destruct a as [i|]; cbn [mp_step].
  - destruct (nth_error (pend s) i) as [[|m rest]|] eqn:E; try discriminate. intros Q; injection Q as <-. exists got. cbn [pend queue main].
    pose proof (concat_upd _ _ _ _ E) as PC.
    assert (Fm : ended (m :: rest)).
    { apply nth_error_In in E. rewrite Forall_forall in F. destruct (F _ E) as [?|?]; [discriminate|auto]. }
    split; [|split; [|split; [|exact M]]].
    + rewrite <- P, <- PC. rewrite <- app_assoc. cbn [app]. auto.
    + apply Forall_upd; auto. apply ended_cons in Fm. auto.
    + right. destruct (ended_cons _ _ Fm) as [->|[b ->]].
      * left. exists (queue s), m. split; [auto|]. destruct Fm as [[|x b] E']; cbn in E'; [injection E' as ->; auto|].
        injection E' as _ E'. destruct b; discriminate.
      * right. intros E'. apply concat_nil in E'. 
        assert (In (b ++ [Raised StopIteration]) (upd (pend s) i (b ++ [Raised StopIteration]))).
        { destruct (nth_error_nth_lt _ _ _ [] E) as [_ Li]. rewrite <- (nth_upd_same (pend s) i (b ++ [Raised StopIteration]) [] Li) at 1.
          apply nth_In. rewrite upd_length. auto. }
        rewrite Forall_forall in E'. apply E' in H. destruct b; discriminate.
  - destruct (main s) as [k acc|] eqn:Em; [|discriminate]. destruct (queue s) as [|m q] eqn:Eq; [discriminate|].
    intros Q; injection Q as <-. destruct M as (-> & Mk & -> & Mc). exists (got ++ [m]). cbn [pend queue main].
    split; [rewrite <- app_assoc; exact P|]. split; [auto|]. split.
    { destruct L as [L|[(q' & m' & L & Ls)|L]]; [discriminate| |auto]. destruct q' as [|y q'].
      - cbn in L. injection L as <- <-. auto.
      - cbn in L. injection L as <- ->. right. left. eauto. }
    assert (Es : stops (got ++ [m]) = stops got + (if is_stop m then 1 else 0)).
    { rewrite stops_app. unfold stops at 2. cbn. destruct (is_stop m); auto. }
    assert (Ev : vals (got ++ [m]) = vals got ++ val_of m).
    { rewrite vals_app. unfold vals at 2. cbn. rewrite app_nil_r. auto. }
    unfold is_stop in Es. unfold val_of in Ev. unfold on_msg. destruct (kind exc m) as [e|] eqn:Ek.
    + destruct e; try (split; [discriminate|exists m; split; [apply in_or_app; cbn; auto|auto]]).
      rewrite app_nil_r in Ev. unfold enter. assert (Forall clean (got ++ [m])).
      { apply Forall_app. split; [auto|]. constructor; [right; auto|constructor]. }
      destruct (Nat.ltb_spec (stops got + 1) n); (split; [lia|]); auto.
    + assert (Forall clean (got ++ [m])).
      { apply Forall_app. split; [auto|]. constructor; [left; auto|constructor]. }
      unfold enter. destruct (Nat.ltb_spec (stops got) n); [|lia]. split; [lia|]. auto.
Qed.
Lemma uinv_exec sched s : exec (mp_step exc n) sched (mp_init ws) = Some s -> uinv s.
Proof. apply (exec_ind (mp_step exc n) uinv); [apply uinv_step|apply uinv_init]. Qed.
Lemma u_progress s : uinv s -> (exists r, main s = Done r) \/ exists a s', mp_step exc n a s = Some s'.
Proof.
  intros (got & P & F & L & M). destruct (main s) as [k acc|r] eqn:Em; [|eauto]. right. destruct M as (-> & Mk & _).
  destruct (queue s) as [|m q] eqn:Eq.
  - destruct (concat (pend s)) as [|m c] eqn:Ec.
    + exfalso. rewrite !app_nil_r in P. apply stops_perm in P. pose proof (stops_ended ws Hw). lia.
    + assert (exists i m rest, nth_error (pend s) i = Some (m :: rest)) as (i & m' & rest & E).
      { clear - Ec. induction (pend s) as [|[|x w] p IH]; cbn in Ec; [discriminate| |].
        - destruct (IH Ec) as (i & ? & ? & E). exists (S i). eauto.
        - exists 0. cbn. eauto. }
      exists (Put i). cbn. rewrite E. eauto.
  - exists Get. cbn. rewrite Em, Eq. eauto.
Qed.
Lemma u_len sched s : exec (mp_step exc n) sched (mp_init ws) = Some s -> length sched <= 2 * length (concat ws).
Proof.
  intros E. apply (exec_len _ (fun s => 2 * length (concat (pend s)) + length (queue s))) in E.
  - cbn in E. lia.
  - intros [i|] x y; cbn [mp_step].
    + destruct (nth_error (pend x) i) as [[|m rest]|] eqn:En; try discriminate. intros Q; injection Q as <-. cbn [pend queue].
      apply concat_upd_len in En. rewrite app_length. cbn [length]. lia.
    + destruct (main x); [|discriminate]. destruct (queue x) as [|m q]; [discriminate|]. intros Q; injection Q as <-. cbn. lia.
Qed.
Lemma u_ok s acc : uinv s -> main s = Done (Ok acc) -> stops (concat ws) = n ->
  Permutation acc (vals (concat ws)) /\ Forall clean (concat ws).
Proof.
  intros (got & P & F & L & M) Em Hs. rewrite Em in M. destruct M as (Ms & -> & Mc).
  pose proof (stops_perm _ _ P) as Q. rewrite !stops_app in Q.
  assert (Ep : concat (pend s) = []).
  { apply concat_nil. rewrite Forall_forall in *. intros w Hin. destruct (F w Hin) as [?|[b Eb]]; [auto|]. exfalso.
    apply in_split in Hin. destruct Hin as (l1 & l2 & Es). rewrite Es in Q. rewrite concat_app in Q. cbn [concat] in Q.
    rewrite !stops_app, Eb, stops_app in Q. change (stops [Raised StopIteration]) with 1 in Q. lia. }
  assert (Eq : queue s = []).
  { destruct L as [L|[(q & m & L & Lm)|L]]; [auto| |congruence]. rewrite L, stops_app in Q. unfold stops at 3 in Q. cbn in Q.
    rewrite Lm in Q. cbn in Q. lia. }
  rewrite Ep, Eq, !app_nil_r in P. split; [apply vals_perm; auto|]. eapply Permutation_Forall; eauto.
Qed.
Lemma u_err s e : uinv s -> main s = Done (Err e) -> e <> StopIteration /\ exists m, In m (concat ws) /\ kind exc m = Some e.
Proof.
  intros (got & P & F & L & M) Em. rewrite Em in M. destruct M as (Me & m & Hm & Ek). split; [auto|]. exists m. split; [|auto].
  eapply Permutation_in; [exact P|]. apply in_or_app; auto.
Qed.
End U.

(** one queue per worker *)
Section O.
Variable ws : list (list msg).
Hypothesis Hw : Forall ended ws.
Hypothesis Hn : ws <> [].
Local Notation n := (length ws).
Definition closed (w : list msg) (rs : list R) : Prop :=
  exists g st rest, w = g ++ st :: rest /\ Forall is_val g /\ is_stop st = true /\ rs = vals g.
Definition oinv (s : mpo_state) : Prop := length (pend_o s) = n /\ length (queues s) = n /\ exists got,
  (forall i, i < n -> got i ++ nth i (queues s) [] ++ nth i (pend_o s) [] = nth i ws []) /\
  match main_o s with
  | CollectO opens mapped => opens <> [] /\ NoDup opens /\ (forall i, In i opens -> i < n) /\ length mapped = n /\
      forall i, i < n -> (In i opens /\ Forall is_val (got i) /\ nth i mapped [] = vals (got i)) \/
        (~ In i opens /\ closed (nth i ws []) (nth i mapped []))
  | DoneO (Ok r) => exists mapped, r = concat mapped /\ length mapped = n /\ forall i, i < n -> closed (nth i ws []) (nth i mapped [])
  | DoneO (Err e) => e <> StopIteration /\ exists m, In m (concat ws) /\ kind exc m = Some e
  end.
Lemma nth_map_nil {X Y} (l : list X) i : nth i (map (fun _ => @nil Y) l) [] = [].
Proof. revert i. induction l as [|a l IH]; intros [|i]; cbn; auto. Qed.
Lemma oinv_init : oinv (mpo_init ws).
Proof.
  unfold oinv, mpo_init. cbn [pend_o queues main_o]. split; [auto|]. split; [apply map_length|]. exists (fun _ => []). split.
  - intros i Hi. rewrite nth_map_nil. auto.
  - unfold enter_o. assert (Hs : seq 0 n <> []) by (destruct ws; [congruence|discriminate]).
    destruct (seq 0 n) as [|i0 l0] eqn:E; [congruence|]. rewrite <- E. split; [rewrite E; auto|]. split; [apply seq_NoDup|].
    split; [intros i Hi; apply in_seq in Hi; lia|]. split; [apply map_length|]. intros i Hi. left. split; [apply in_seq; lia|].
    split; [constructor|]. rewrite nth_map_nil. auto.
Qed.
Lemma oinv_step a s s' : oinv s -> mpo_step exc a s = Some s' -> oinv s'.
Proof.
  intros (Lp & Lq & got & G & M). destruct a as [i|]; cbn [mpo_step].
  - destruct (nth_error (pend_o s) i) as [[|m rest]|] eqn:E; try discriminate. intros Q; injection Q as <-.
    destruct (nth_error_nth_lt _ _ _ [] E) as [E1 Hi]. unfold oinv. cbn [pend_o queues main_o]. rewrite !upd_length.
    split; [auto|]. split; [auto|]. exists got. split; [|exact M]. intros j Hj. rewrite <- (G j Hj).
    destruct (Nat.eq_dec i j) as [<-|Hij].
    + rewrite !nth_upd_same by lia. rewrite E1. rewrite <- !app_assoc. auto.
    + rewrite !nth_upd_other by auto. auto.
  - destruct (main_o s) as [opens mapped|] eqn:Em; [|discriminate]. destruct M as (Mn & Md & Ml & Mm & Mi).
    destruct (rev opens) as [|i rest] eqn:Er; [discriminate|]. destruct (nth i (queues s) []) as [|m q] eqn:Eq; [discriminate|].
    intros Q; injection Q as <-.
    assert (Eo : opens = rev rest ++ [i]) by (rewrite <- (rev_involutive opens), Er; auto).
    assert (Hi : In i opens) by (rewrite Eo; apply in_or_app; cbn; auto). specialize (Ml i Hi) as Hin.
    assert (Nd : NoDup (i :: rest)) by (rewrite <- Er; apply NoDup_rev; auto). inversion Nd as [|? ? Ni Nr]; subst.
    assert (Nr' : ~ In i (rev rest)) by (rewrite <- in_rev; auto).
    assert (Mem : forall j, In j (rev rest ++ [i]) <-> In j (rev rest) \/ j = i) by (intros j; rewrite in_app_iff; cbn; intuition).
    destruct (Mi i Hin) as [(_ & Gi & Vi)|(Hno & _)]; [|contradiction].
    assert (Wi : nth i ws [] = got i ++ m :: (q ++ nth i (pend_o s) [])) by (rewrite <- (G i Hin), Eq; auto).
    unfold oinv. cbn [pend_o queues main_o]. rewrite upd_length. split; [auto|]. split; [auto|].
    exists (fun j => if Nat.eq_dec i j then got i ++ [m] else got j). split.
    { intros j Hj. destruct (Nat.eq_dec i j) as [<-|Hij].
      - rewrite nth_upd_same by lia. rewrite <- app_assoc. cbn [app]. symmetry. auto.
      - rewrite nth_upd_other by auto. apply G; auto. }
    unfold on_msg_o. destruct (kind exc m) as [e|] eqn:Ek.
    + assert (Em' : In m (concat ws)).
      { apply in_concat. exists (nth i ws []). split; [apply nth_In; auto|]. rewrite Wi. apply in_or_app; cbn; auto. }
      destruct e; try (split; [discriminate|exists m; auto]).
      assert (Ci : closed (nth i ws []) (nth i mapped [])).
      { exists (got i), m, (q ++ nth i (pend_o s) []). split; [auto|]. split; [auto|]. split; [unfold is_stop; rewrite Ek; auto|auto]. }
      unfold enter_o. destruct (rev rest) as [|i0 l0] eqn:Err.
      * exists mapped. split; [auto|]. split; [auto|]. intros j Hj. destruct (Nat.eq_dec i j) as [<-|Hij]; [auto|].
        destruct (Mi j Hj) as [(H1 & _)|(_ & H1)]; [|auto]. apply Mem in H1. destruct H1 as [[]|?]; congruence.
      * rewrite <- Err in *. split; [congruence|]. split; [apply NoDup_rev; auto|]. split; [intros j Hj; apply Ml, Mem; auto|].
        split; [auto|]. intros j Hj. destruct (Nat.eq_dec i j) as [<-|Hij]; [right; auto|].
        destruct (Mi j Hj) as [(H1 & H2)|(H1 & H2)].
        -- left. split; [|auto]. apply Mem in H1. destruct H1; [auto|congruence].
        -- right. split; [|auto]. intros H3. apply H1, Mem. auto.
    + unfold enter_o. split; [discriminate|]. split; [constructor; auto; apply NoDup_rev; auto|].
      split; [intros j [<-|Hj]; [auto|apply Ml, Mem; auto]|]. split; [rewrite upd_length; auto|].
      intros j Hj. destruct (Nat.eq_dec i j) as [<-|Hij].
      * left. split; [cbn; auto|]. split; [apply Forall_app; split; [auto|constructor; [exact Ek|constructor]]|].
        rewrite nth_upd_same by lia. rewrite vals_app, Vi. f_equal. unfold vals, val_of. cbn. rewrite Ek, app_nil_r. auto.
      * rewrite nth_upd_other by auto. destruct (Mi j Hj) as [(H1 & H2)|(H1 & H2)].
        -- left. split; [|auto]. apply Mem in H1. cbn. intuition congruence.
        -- right. split; [|auto]. intros H3. apply H1, Mem. cbn in H3. intuition congruence.
Qed.
Lemma oinv_exec sched s : exec (mpo_step exc) sched (mpo_init ws) = Some s -> oinv s.
Proof. apply (exec_ind (mpo_step exc) oinv); [apply oinv_step|apply oinv_init]. Qed.
Lemma o_progress s : oinv s -> (exists r, main_o s = DoneO r) \/ exists a s', mpo_step exc a s = Some s'.
Proof.
  intros (Lp & Lq & got & G & M). destruct (main_o s) as [opens mapped|r] eqn:Em; [|eauto]. right.
  destruct M as (Mn & Md & Ml & Mm & Mi). destruct (rev opens) as [|i rest] eqn:Er.
  { exfalso. apply Mn. rewrite <- (rev_involutive opens), Er. auto. }
  assert (Hi : In i opens) by (apply in_rev; rewrite Er; cbn; auto). specialize (Ml i Hi).
  destruct (nth i (queues s) []) as [|m q] eqn:Eq.
  - destruct (nth i (pend_o s) []) as [|m rest'] eqn:Ep.
    + exfalso. specialize (G i Ml). rewrite Eq, Ep in G. cbn in G. rewrite app_nil_r in G.
      destruct (Mi i Ml) as [(_ & Gi & _)|(H1 & _)]; [|auto].
      assert (Ee : ended (nth i ws [])) by (rewrite Forall_forall in Hw; apply Hw, nth_In; auto). destruct Ee as [b Eb].
      rewrite G, Eb in Gi. apply Forall_app in Gi. destruct Gi as [_ Gi]. inversion Gi as [|? ? Q]; subst. discriminate.
    + exists (Put i). cbn. rewrite (nth_error_nth' (pend_o s) []) by lia. rewrite Ep. eauto.
  - exists Get. cbn. rewrite Em, Er, Eq. eauto.
Qed.
Lemma o_len sched s : exec (mpo_step exc) sched (mpo_init ws) = Some s -> length sched <= 2 * length (concat ws).
Proof.
  intros E.
  assert (G : length sched + (2 * length (concat (pend_o s)) + length (concat (queues s))) <= 2 * length (concat ws) /\ length (queues s) = length (pend_o s)).
  { assert (B : length (queues (mpo_init ws)) = length (pend_o (mpo_init ws))) by (cbn; apply map_length).
    assert (B2 : 2 * length (concat (pend_o (mpo_init ws))) + length (concat (queues (mpo_init ws))) = 2 * length (concat ws)).
    { cbn. assert (Z0 : concat (map (fun _ : list msg => @nil msg) ws) = []) by (clear; induction ws; cbn; auto). rewrite Z0. cbn. lia. }
    rewrite <- B2. clear B2 Hn Hw. revert E B. generalize (mpo_init ws) as x. induction sched as [|a sched IH]; cbn [exec length]; intros x E B.
    - injection E as <-. split; [lia|auto].
    - destruct (mpo_step exc a x) as [y|] eqn:Ea; [|discriminate]. specialize (IH y E).
      assert (K : 2 * length (concat (pend_o y)) + length (concat (queues y)) < 2 * length (concat (pend_o x)) + length (concat (queues x)) /\ length (queues y) = length (pend_o y)).
      { assert (UL : forall (l : list (list msg)) i v, i < length l -> length (concat (upd l i v)) + length (nth i l []) = length (concat l) + length v).
        { clear. induction l as [|a l IH]; intros [|i] v; cbn [length upd concat nth]; intros; try lia; rewrite !app_length; [lia|].
          specialize (IH i v). lia. }
        destruct a as [i|]; cbn [mpo_step] in Ea.
        - destruct (nth_error (pend_o x) i) as [[|m rest]|] eqn:En; try discriminate. injection Ea as <-. cbn [pend_o queues].
          destruct (nth_error_nth_lt _ _ _ [] En) as [_ Hi]. apply concat_upd_len in En. rewrite !upd_length. split; [|auto].
          specialize (UL (queues x) i (nth i (queues x) [] ++ [m])). rewrite app_length in UL. cbn [length] in UL. lia.
        - destruct (main_o x) as [opens mapped|]; [|discriminate]. destruct (rev opens) as [|i r]; [discriminate|].
          destruct (nth i (queues x) []) as [|m q] eqn:Eq; [discriminate|]. injection Ea as <-. cbn [pend_o queues].
          rewrite upd_length. split; [|auto]. destruct (Nat.lt_ge_cases i (length (queues x))) as [Hi|Hi].
          + specialize (UL (queues x) i q Hi). rewrite Eq in UL. cbn [length] in UL. lia.
          + rewrite nth_overflow in Eq by auto. discriminate. }
      destruct K as [K1 K2]. destruct (IH K2). split; [lia|auto]. }
  lia.
Qed.
Fixpoint before_stop (w : list msg) : list msg :=
  match w with [] => [] | m :: w' => if is_stop m then [] else m :: before_stop w' end.
Lemma closed_before w rs : closed w rs -> Forall is_val (before_stop w) /\ rs = vals (before_stop w).
Proof.
  intros (g & st & rest & -> & Hg & Hs & ->). assert (E : before_stop (g ++ st :: rest) = g); [|rewrite E; auto].
  induction Hg as [|m g Hm Hg IH]; cbn; [rewrite Hs; auto|]. unfold is_stop at 1. unfold is_val in Hm. rewrite Hm. f_equal. auto.
Qed.
Lemma o_ok s r : oinv s -> main_o s = DoneO (Ok r) -> r = concat (map (fun w => vals (before_stop w)) ws) /\
  forall w, In w ws -> Forall is_val (before_stop w).
Proof.
  intros (Lp & Lq & got & G & M) Em. rewrite Em in M. destruct M as (mapped & -> & Lm & C). split.
  - f_equal. apply (nth_ext _ _ [] (vals (before_stop []))); [rewrite map_length; auto|]. intros i Hi.
    change (vals (before_stop [])) with ((fun w => vals (before_stop w)) []). rewrite map_nth.
    rewrite Lm in Hi. apply closed_before. auto.
  - intros w Hin. apply (In_nth _ _ []) in Hin. destruct Hin as (i & Hi & <-). eapply closed_before; eauto.
Qed.
Lemma o_err s e : oinv s -> main_o s = DoneO (Err e) -> e <> StopIteration /\ exists m, In m (concat ws) /\ kind exc m = Some e.
Proof. intros (Lp & Lq & got & G & M) Em. rewrite Em in M. auto. Qed.
End O.
End A.

(** threads *)
Section T.
Context {R : Type}.
Variable shared : bool.
Variable ths : list (list R * option error).
Hypothesis Hn : ths <> [].
Local Notation n := (length ths).
Local Notation dflt := (@nil R, @None error).
Definition tinv (s : th_state) : Prop := length (threads s) = n /\ map snd (threads s) = map snd ths /\
  (if shared then length (lists s) = 1 /\ Permutation (nth 0 (lists s) [] ++ concat (map fst (threads s))) (concat (map fst ths))
   else length (lists s) = n /\ forall i, i < n -> nth i (lists s) [] ++ fst (nth i (threads s) dflt) = fst (nth i ths dflt)) /\
  match join_st s with
  | Joining i => i < n /\ forall j, j < i -> nth j (threads s) dflt = dflt
  | Joined (Ok _) => forall j, j < n -> nth j (threads s) dflt = dflt
  | Joined (Err e) => exists i, i < n /\ snd (nth i ths dflt) = Some e /\ forall j, j < i -> snd (nth j ths dflt) = None
  end.
Lemma tinv_init : tinv (th_init shared ths).
Proof.
  unfold tinv, th_init. cbn [threads lists join_st]. split; [auto|]. split; [auto|]. split.
  - destruct shared; cbn; [auto|]. split; [apply map_length|]. intros i Hi. rewrite nth_map_nil. auto.
  - destruct ths; [congruence|]. cbn. split; [lia|]. intros; lia.
Qed.
Lemma map_snd_upd (l : list (list R * option error)) i rest e r : nth_error l i = Some (r :: rest, e) -> map snd (upd l i (rest, e)) = map snd l.
Proof. revert i. induction l as [|a l IH]; intros [|i]; cbn; try discriminate; [intros E; injection E as ->; auto|]. intros E. f_equal. eauto. Qed.
Lemma map_fst_upd (l : list (list R * option error)) i rest e : map fst (upd l i (rest, e)) = upd (map fst l) i rest.
Proof. revert i. induction l as [|a l IH]; intros [|i]; cbn; auto. f_equal. auto. Qed.
Lemma snd_nth s i : tinv s -> snd (nth i (threads s) dflt) = snd (nth i ths dflt).
Proof. intros (_ & E & _). 
  assert (Q : forall l : list (list R * option error), snd (nth i l dflt) = nth i (map snd l) None) by (intros l; symmetry; apply (map_nth (@snd (list R) (option error)) l dflt i)).
  rewrite !Q, E. auto.
Qed.
Lemma tinv_step a s s' : tinv s -> th_step shared a s = Some s' -> tinv s'.
Proof.
  intros T. pose proof T as (Lt & Es & Li & J). destruct a as [i|]; cbn [th_step].
  - destruct (nth_error (threads s) i) as [[[|r rest] e]|] eqn:E; try discriminate. intros Q; injection Q as <-.
    destruct (nth_error_nth_lt _ _ _ dflt E) as [En Hi]. unfold tinv. cbn [threads lists join_st]. rewrite upd_length.
    split; [auto|]. split; [rewrite (map_snd_upd _ _ _ _ _ E); auto|]. split.
    + destruct shared; cbn [threads lists join_st].
      * destruct Li as [L1 P]. rewrite upd_length. split; [auto|]. rewrite nth_upd_same by lia. rewrite <- P, map_fst_upd.
        assert (E' : nth_error (map fst (threads s)) i = Some (r :: rest)) by (rewrite nth_error_map, E; auto).
        apply concat_upd in E'. rewrite <- E', <- app_assoc. cbn. auto.
      * destruct Li as [L1 P]. rewrite upd_length. split; [auto|]. intros j Hj. rewrite <- (P j Hj). destruct (Nat.eq_dec i j) as [<-|Hij].
        -- rewrite !nth_upd_same by lia. rewrite En. cbn [fst]. rewrite <- app_assoc. auto.
        -- rewrite !nth_upd_other by auto. auto.
    + destruct (join_st s) as [k|[u|e']]; [| |exact J].
      * destruct J as [Hk J]. split; [auto|]. intros j Hj. destruct (Nat.eq_dec i j) as [<-|Hij]; [|rewrite nth_upd_other by auto; auto].
        rewrite (J i Hj) in En. discriminate.
      * intros j Hj. destruct (Nat.eq_dec i j) as [<-|Hij]; [|rewrite nth_upd_other by auto; auto]. rewrite J in En by auto. discriminate.
  - destruct (join_st s) as [i|] eqn:Ej; [|discriminate]. destruct (nth_error (threads s) i) as [[[|r rest] e]|] eqn:E; try discriminate.
    intros Q; injection Q as <-. destruct (nth_error_nth_lt _ _ _ dflt E) as [En Hi]. unfold tinv. cbn [threads lists join_st].
    split; [auto|]. split; [auto|]. split; [exact Li|]. destruct J as [Hk J]. destruct e as [e|].
    + exists i. split; [auto|]. rewrite <- (snd_nth s i T), En. split; [auto|]. intros j Hj. rewrite <- (snd_nth s j T), (J j Hj). auto.
    + assert (J' : forall j, j < i + 1 -> nth j (threads s) dflt = dflt).
      { intros j Hj. destruct (Nat.eq_dec j i) as [->|]; [auto|]. apply J. lia. }
      destruct (Nat.ltb_spec (i + 1) (length (threads s))); [split; [lia|auto]|]. intros j Hj. apply J'. lia.
Qed.
Lemma tinv_exec sched s : exec (th_step shared) sched (th_init shared ths) = Some s -> tinv s.
Proof. apply (exec_ind (th_step shared) tinv); [apply tinv_step|apply tinv_init]. Qed.
Lemma t_progress s : tinv s -> (exists r, join_st s = Joined r) \/ exists a s', th_step shared a s = Some s'.
Proof.
  intros (Lt & Es & Li & J). destruct (join_st s) as [i|r] eqn:Ej; [|eauto]. right. destruct J as [Hi J].
  destruct (nth_error (threads s) i) as [[[|r rest] e]|] eqn:E.
  - exists Join. cbn. rewrite Ej, E. eauto.
  - exists (Append i). cbn. rewrite E. eauto.
  - apply nth_error_None in E. lia.
Qed.
Lemma t_len sched s : exec (th_step shared) sched (th_init shared ths) = Some s -> length sched <= length (concat (map fst ths)) + n.
Proof.
  intros E.
  assert (G : length sched + (length (concat (map fst (threads s))) + match join_st s with Joining i => length (threads s) - i | Joined _ => 0 end)
     <= length (concat (map fst ths)) + n).
  { apply (exec_len _ (fun s => length (concat (map fst (threads s))) + match join_st s with Joining i => length (threads s) - i | Joined _ => 0 end)) in E.
    - cbn beta in E. unfold th_init in E at 1 2 3. cbn [threads join_st] in E. etransitivity; [exact E|].
      destruct ths; cbn [length]; lia.
    - intros [i|] x y; cbn [th_step].
      + destruct (nth_error (threads x) i) as [[[|r rest] e]|] eqn:En; try discriminate. intros Q; injection Q as <-.
        cbn [threads join_st]. rewrite upd_length, map_fst_upd.
        assert (E' : nth_error (map fst (threads x)) i = Some (r :: rest)) by (rewrite nth_error_map, En; auto).
        apply concat_upd_len in E'. rewrite E'. lia.
      + destruct (join_st x) as [i|]; [|discriminate]. destruct (nth_error (threads x) i) as [[[|r rest] e]|] eqn:En; try discriminate.
        intros Q; injection Q as <-. cbn [threads join_st]. apply nth_error_nth_lt with (d := dflt) in En. destruct En as [_ En].
        destruct e; [lia|]. destruct (Nat.ltb_spec (i + 1) (length (threads x))); lia. }
  lia.
Qed.
Lemma t_ok s u : tinv s -> join_st s = Joined (Ok u) -> Forall (fun t => snd t = None) ths /\
  (if shared then Permutation (nth 0 (lists s) []) (concat (map fst ths)) else lists s = map fst ths).
Proof.
  intros T Ej. pose proof T as (Lt & Es & Li & J). rewrite Ej in J. split.
  - apply Forall_forall. intros t Ht. apply (In_nth _ _ dflt) in Ht. destruct Ht as (i & Hi & <-). rewrite <- (snd_nth s i T), (J i Hi). auto.
  - destruct shared.
    + destruct Li as [_ P]. assert (Z0 : concat (map fst (threads s)) = []).
      { apply concat_nil. apply Forall_forall. intros w Hin. apply in_map_iff in Hin. destruct Hin as (t & <- & Ht).
        apply (In_nth _ _ dflt) in Ht. destruct Ht as (i & Hi & <-). rewrite J by lia. auto. }
      rewrite Z0, app_nil_r in P. auto.
    + destruct Li as [L1 P]. apply (nth_ext _ _ [] (fst dflt)); [rewrite map_length; auto|]. intros i Hi. rewrite map_nth.
      rewrite <- (P i) by lia. rewrite J by lia. cbn. rewrite app_nil_r. auto.
Qed.
Lemma t_err s e : tinv s -> join_st s = Joined (Err e) -> exists l1 t l2, ths = l1 ++ t :: l2 /\ snd t = Some e /\ Forall (fun t => snd t = None) l1.
Proof.
  intros T Ej. pose proof T as (Lt & Es & Li & J). rewrite Ej in J. destruct J as (i & Hi & Si & Sj).
  destruct (nth_split ths dflt Hi) as (l1 & l2 & E & L1). exists l1, (nth i ths dflt), l2. split; [auto|]. split; [auto|].
  apply Forall_forall. intros t Ht. apply (In_nth _ _ dflt) in Ht. destruct Ht as (j & Hj & <-).
  specialize (Sj j ltac:(lia)). rewrite E in Sj. rewrite app_nth1 in Sj by auto. auto.
Qed.
End T.
