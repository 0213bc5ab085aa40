(** Proofs about log noise *)
From Coq Require Import Permutation QArith Lqa.
From Verif.Model Require Import Base EventLog LogNoise.
From Verif.Spec Require Import Lists Logs.
From Verif.Lib Require Import ListLib.
From Verif.Proofs Require Import Selection EventLogA.
Open Scope nat_scope.

Lemma Qlt_bool_iff x y : Qlt_bool x y = true <-> (x < y)%Q.
Proof.
  unfold Qlt_bool. rewrite negb_true_iff. split.
  - intros E. apply Qnot_le_lt. intros Hle. apply Qle_bool_iff in Hle. congruence.
  - intros Hl. destruct (Qle_bool y x) eqn:E; auto. apply Qle_bool_iff in E. lra.
Qed.
Lemma Qlt_bool_false x y : Qlt_bool x y = false <-> (y <= x)%Q.
Proof.
  unfold Qlt_bool. rewrite negb_false_iff. apply Qle_bool_iff.
Qed.

Lemma check_probability_ok p :
  check_probability p = if Qle_bool 0 p && Qlt_bool p 1 then Ok p else Err ValueError.
Proof.
  unfold check_probability, Qlt_bool. destruct (Qle_bool 0 p), (Qle_bool 1 p); reflexivity.
Qed.

Section N.
  Context {A V I : Type}.
  Notation trace := (trace A V I).
  Notation log := (log A V I).
  Notation event := (event A V).

  (** the numbers used for trace [i]: those after the ones of the earlier traces *)
  Definition offset (draws : list event -> nat) (l : log) (i : nat) : nat :=
    list_sum (map (fun t => draws (events t)) (firstn i l)).
  Lemma on_traces_ok rand draws f (l : log) : forall k,
    length (on_traces rand k draws f l) = length l /\
    forall i t, nth_error l i = Some t ->
      nth_error (on_traces rand k draws f l) i =
      Some (with_events t (f (draw rand (k + offset draws l i) (draws (events t))) (events t))).
  Proof.
    induction l as [|t l IH]; intros k; cbn [on_traces length].
    - split; auto. intros [|i]; discriminate.
    - destruct (IH (k + draws (events t))) as [El Hn]. split; [auto|].
      intros [|i] u Eu; cbn in Eu |- *.
      + injection Eu as <-. unfold offset; cbn. rewrite Nat.add_0_r. auto.
      + rewrite (Hn i u Eu). unfold offset. cbn. rewrite Nat.add_assoc. auto.
  Qed.
  Lemma draw_nth rand k n j : j < n -> nth_error (draw rand k n) j = Some (rand (k + j)).
  Proof.
    intros Hj. unfold draw. rewrite nth_error_map. rewrite (nth_error_nth' _ 0) by (rewrite seq_length; auto).
    rewrite seq_nth by auto. auto.
  Qed.
  Lemma draw_length rand k n : length (draw rand k n) = n.
  Proof. unfold draw. rewrite map_length, seq_length. auto. Qed.

  (** AddActivity on one trace: behind event [j] a new event iff its number is
      below [p] *)
  Lemma add_on_trace_ok a p rand k (es : list event) :
    exists bs, length bs = length es /\ concat bs = add_on_trace a p (draw rand k (length es)) es /\
      forall j e, nth_error es j = Some e ->
        ((rand (k + j)%nat < p)%Q /\ nth_error bs j = Some [e; new_event a]) \/
        ((p <= rand (k + j)%nat)%Q /\ nth_error bs j = Some [e]).
  Proof.
    unfold add_on_trace. set (f := fun '(e, u) => if Qlt_bool u p then [e; new_event a] else [e]).
    exists (map f (combine es (draw rand k (length es)))).
    split; [rewrite map_length, combine_length, draw_length; lia|]. split; [symmetry; apply flat_map_concat_map|].
    revert k. induction es as [|x es IH]; intros k [|j] e Ej; try discriminate; cbn in Ej.
    - injection Ej as ->. cbn [length draw seq map combine nth_error]. rewrite Nat.add_0_r. unfold f.
      destruct (Qlt_bool (rand k) p) eqn:E.
      + left. apply Qlt_bool_iff in E. auto.
      + right. apply Qlt_bool_false in E. auto.
    - cbn [length draw seq map combine nth_error]. replace (k + S j) with (S k + j) by lia. apply IH; auto.
  Qed.
  (** RemoveEvents on one trace *)
  Lemma remove_on_trace_ok p rand k (es : list event) :
    selection es (remove_on_trace p (draw rand k (length es)) es) (fun j _ => (p <= rand (k + j)%nat)%Q).
  Proof.
    unfold remove_on_trace. induction es as [|e es IH] using rev_ind; [apply selection_nil|].
    assert (Ed : draw rand k (length (es ++ [e])) = draw rand k (length es) ++ [rand (k + length es)]).
    { unfold draw. rewrite app_length. cbn. rewrite Nat.add_1_r, seq_S, map_app. auto. }
    rewrite Ed. assert (Ec : combine (es ++ [e]) (draw rand k (length es) ++ [rand (k + length es)]) =
      combine es (draw rand k (length es)) ++ [(e, rand (k + length es))]).
    { generalize (rand (k + length es)). intros q. generalize (draw_length rand k (length es)). generalize (draw rand k (length es)). clear.
      induction es as [|x es IH]; intros [|y d] Hl; try discriminate; auto. cbn. f_equal. apply IH. auto. }
    rewrite Ec, filter_app, map_app. cbn [filter].
    destruct (selection_snoc es _ _ e IH) as [H1 H2].
    destruct (Qle_bool p (rand (k + length es))) eqn:E.
    - apply H1. apply Qle_bool_iff; auto.
    - cbn. rewrite app_nil_r. apply H2. intros Hx. apply Qle_bool_iff in Hx. congruence.
  Qed.
  (** SwapEvents on one trace *)
  Lemma swap_at_perm {X} (l : list X) i : Permutation (swap_at l i) l.
  Proof.
    unfold swap_at. rewrite <- (firstn_skipn i l) at 3. apply Permutation_app_head.
    destruct (skipn i l) as [|x [|y r]]; auto. apply perm_swap.
  Qed.
  Lemma swap_at_length {X} (l : list X) i : length (swap_at l i) = length l.
  Proof. apply Permutation_length, swap_at_perm. Qed.
  Lemma swap_loop_perm {X} p us : forall i (l : list X), Permutation (swap_loop p us i l) l.
  Proof.
    induction us as [|u us IH]; intros i l; cbn; auto.
    rewrite IH. destruct (Qlt_bool u p); auto using swap_at_perm.
  Qed.
  Lemma swap_on_trace_perm {X} p us (l : list X) : Permutation (swap_on_trace p us l) l.
  Proof. apply swap_loop_perm. Qed.
  Lemma swap_at_nth {X} (l : list X) i j : S i < length l ->
    nth_error (swap_at l i) j =
      nth_error l (if j =? i then S i else if j =? S i then i else j).
  Proof.
    intros Hi. unfold swap_at.
    assert (Es : exists x y r, skipn i l = x :: y :: r).
    { pose proof (skipn_length i l). destruct (skipn i l) as [|x [|y r]]; cbn in *; try lia. eauto. }
    destruct Es as (x & y & r & Es). rewrite Es.
    assert (Hs : forall m, nth_error l (i + m) = nth_error (x :: y :: r) m) by (intros m; rewrite <- Es; symmetry; apply nth_error_skipn).
    assert (Hf : length (firstn i l) = i) by (rewrite firstn_length; lia).
    destruct (Nat.ltb_spec j i).
    - rewrite nth_error_app1 by lia. destruct (Nat.eqb_spec j i); [lia|]. destruct (Nat.eqb_spec j (S i)); [lia|].
      rewrite nth_error_firstn. destruct (Nat.ltb_spec j i); [auto|lia].
    - rewrite nth_error_app2 by lia. rewrite Hf. destruct (Nat.eqb_spec j i).
      + subst. rewrite Nat.sub_diag. replace (S i) with (i + 1) by lia. rewrite Hs. auto.
      + destruct (Nat.eqb_spec j (S i)).
        * subst. replace (S i - i) with 1 by lia. specialize (Hs 0). rewrite Nat.add_0_r in Hs. rewrite Hs. auto.
        * replace j with (i + (j - i)) at 2 by lia. rewrite Hs. destruct (j - i) as [|[|m]] eqn:Em; [lia|lia|auto].
  Qed.
  (** closed form: the element at position i travels while numbers are below p *)
  Lemma swap_loop_nth {X} p us : forall i (l : list X), i + length us < length l ->
    forall j, j < i -> nth_error (swap_loop p us i l) j = nth_error l j.
  Proof.
    induction us as [|u us IH]; intros i l Hl j Hj; cbn in *; auto.
    rewrite IH; [|destruct (Qlt_bool u p); rewrite ?swap_at_length; lia|lia].
    destruct (Qlt_bool u p); auto. rewrite swap_at_nth by lia.
    destruct (Nat.eqb_spec j i); [lia|]. destruct (Nat.eqb_spec j (S i)); [lia|]. auto.
  Qed.
  (** an event moves at most one place to the front, and the event at position
      [j] of the result was at [j] or later... or was carried along *)
  Lemma swap_displacement {X} p us : forall i (l : list X), i + length us < length l ->
    exists pi : nat -> nat, (forall j, j < length l -> pi j < length l) /\
      (forall j j', j < length l -> j' < length l -> pi j = pi j' -> j = j') /\
      (forall j, j < length l -> nth_error (swap_loop p us i l) (pi j) = nth_error l j) /\
      (forall j, j < length l -> j <= pi j + 1) /\ (forall j, j < i -> pi j = j).
  Proof.
    induction us as [|u us IH]; intros i l Hl; cbn [swap_loop length] in *.
    - exists (fun j => j). repeat split; intros; auto; lia.
    - set (l' := if Qlt_bool u p then swap_at l i else l).
      assert (El : length l' = length l) by (unfold l'; destruct (Qlt_bool u p); auto using swap_at_length).
      destruct (IH (S i) l') as (pi & P1 & P2 & P3 & P4 & P5); [lia|]. rewrite El in *.
      destruct (Qlt_bool u p); unfold l' in *.
      + pose (s := fun j => if j =? i then S i else if j =? S i then i else j).
        assert (Hs : forall j, j < length l -> s j < length l).
        { intros j Hj. unfold s. destruct (Nat.eqb_spec j i); [lia|]. destruct (Nat.eqb_spec j (S i)); lia. }
        assert (Hss : forall j, s (s j) = j).
        { intros j. unfold s. destruct (Nat.eqb_spec j i); [subst; rewrite Nat.eqb_refl; destruct (Nat.eqb_spec (S i) i); lia|].
          destruct (Nat.eqb_spec j (S i)); [subst; rewrite Nat.eqb_refl; auto|].
          destruct (Nat.eqb_spec j i); [lia|]. destruct (Nat.eqb_spec j (S i)); lia. }
        exists (fun j => pi (s j)). split; [|split; [|split; [|split]]].
        * intros j Hj. apply P1, Hs; auto.
        * intros j j' Hj Hj' E. apply P2 in E; auto. apply (f_equal s) in E. rewrite !Hss in E. auto.
        * intros j Hj. rewrite P3 by auto. rewrite swap_at_nth by lia. fold (s (s j)). rewrite Hss. auto.
        * intros j Hj. specialize (P4 (s j) (Hs j Hj)). unfold s in *. destruct (Nat.eqb_spec j i); [lia|].
          destruct (Nat.eqb_spec j (S i)); [|lia]. rewrite (P5 i) by lia. lia.
        * intros j Hj. unfold s. destruct (Nat.eqb_spec j i); [lia|]. destruct (Nat.eqb_spec j (S i)); [lia|]. apply P5. lia.
      + exists pi. split; [auto|]. split; [auto|]. split; [auto|]. split; [auto|].
        intros j Hj. apply P5. lia.
  Qed.
  Lemma swap_on_trace_ok {X} p us (l : list X) : length us = length l - 1 ->
    exists pi : nat -> nat, (forall j, j < length l -> pi j < length l) /\
      (forall j j', j < length l -> j' < length l -> pi j = pi j' -> j = j') /\
      (forall j, j < length l -> nth_error (swap_on_trace p us l) (pi j) = nth_error l j) /\
      (forall j, j < length l -> j <= pi j + 1).
  Proof.
    intros Hu. destruct l as [|x l].
    - exists (fun j => j). repeat split; intros; cbn in *; auto; lia.
    - destruct (swap_displacement p us 0 (x :: l)) as (pi & P1 & P2 & P3 & P4 & _); [cbn in *; lia|].
      exists pi. auto.
  Qed.
  (** a single draw below [p] swaps exactly that pair *)
  Lemma swap_loop_none {X} p us : (forall u, In u us -> (p <= u)%Q) -> forall i (l : list X), swap_loop p us i l = l.
  Proof.
    induction us as [|u us IH]; intros Hu i l; cbn; auto.
    rewrite (proj2 (Qlt_bool_false u p)) by (apply Hu; cbn; auto). apply IH. intros; apply Hu; cbn; auto.
  Qed.

  Lemma apply_zero_add a rand (l : log) p : (p == 0)%Q -> apply (AddActivity a p rand) l = l.
  Proof. intros E. cbn [apply]. rewrite (proj2 (Qlt_bool_false 0 p)); auto. rewrite E. apply Qle_refl. Qed.
  Lemma apply_zero_remove rand (l : log) p : (p == 0)%Q -> apply (RemoveEvents p rand) l = l.
  Proof. intros E. cbn [apply]. rewrite (proj2 (Qlt_bool_false 0 p)); auto. rewrite E. apply Qle_refl. Qed.
  Lemma apply_zero_swap rand (l : log) p : (p == 0)%Q -> apply (SwapEvents p rand) l = l.
  Proof. intros E. cbn [apply]. rewrite (proj2 (Qlt_bool_false 0 p)); auto. rewrite E. apply Qle_refl. Qed.

  Lemma apply_add a p rand (l : log) : (0 < p)%Q ->
    length (apply (AddActivity a p rand) l) = length l /\
    forall i t, nth_error l i = Some t -> exists t' bs, nth_error (apply (AddActivity a p rand) l) i = Some t' /\
      tid t' = tid t /\ tr_attrs t' = tr_attrs t /\ concat bs = events t' /\ length bs = length (events t) /\
      forall j e, nth_error (events t) j = Some e ->
        let u := rand (list_sum (map (fun t => length (events t)) (firstn i l)) + j) in
        ((u < p)%Q /\ nth_error bs j = Some [e; new_event a]) \/ ((p <= u)%Q /\ nth_error bs j = Some [e]).
  Proof.
    intros Hp. cbn [apply]. rewrite (proj2 (Qlt_bool_iff 0 p)) by auto.
    destruct (on_traces_ok rand (@length event) (add_on_trace a p) l 0) as [El Hn]. split; [auto|].
    intros i t Et. destruct (add_on_trace_ok a p rand (offset (@length event) l i) (events t)) as (bs & Hl & Hc & Hb).
    exists (with_events t (add_on_trace a p (draw rand (offset (@length event) l i) (length (events t))) (events t))), bs.
    split; [apply (Hn i t Et)|]. cbn. auto.
  Qed.
  Lemma apply_remove p rand (l : log) : (0 < p)%Q ->
    exists mid, length mid = length l /\
      selection mid (apply (RemoveEvents p rand) l) (fun _ t => events t <> []) /\
      forall i t, nth_error l i = Some t -> exists t', nth_error mid i = Some t' /\
        tid t' = tid t /\ tr_attrs t' = tr_attrs t /\
        selection (events t) (events t') (fun j _ =>
          (p <= rand (list_sum (map (fun t => length (events t)) (firstn i l)) + j)%nat)%Q).
  Proof.
    intros Hp. cbn [apply]. rewrite (proj2 (Qlt_bool_iff 0 p)) by auto.
    destruct (on_traces_ok rand (@length event) (remove_on_trace p) l 0) as [El Hn].
    eexists. split; [exact El|]. split; [apply filter_non_empty|].
    intros i t Et. eexists. split; [apply (Hn i t Et)|]. cbn. split; [auto|]. split; [auto|].
    apply remove_on_trace_ok.
  Qed.
  Lemma apply_swap p rand (l : log) : (0 < p)%Q ->
    length (apply (SwapEvents p rand) l) = length l /\
    forall i t, nth_error l i = Some t -> exists t', nth_error (apply (SwapEvents p rand) l) i = Some t' /\
      tid t' = tid t /\ tr_attrs t' = tr_attrs t /\ Permutation (events t) (events t') /\
      exists pi : nat -> nat, (forall j, j < length (events t) -> pi j < length (events t)) /\
        (forall j j', j < length (events t) -> j' < length (events t) -> pi j = pi j' -> j = j') /\
        (forall j, j < length (events t) -> nth_error (events t') (pi j) = nth_error (events t) j) /\
        (forall j, j < length (events t) -> j <= pi j + 1).
  Proof.
    intros Hp. cbn [apply]. rewrite (proj2 (Qlt_bool_iff 0 p)) by auto.
    destruct (on_traces_ok rand (fun es => length es - 1) (swap_on_trace p) l 0) as [El Hn]. split; [auto|].
    intros i t Et. eexists. split; [apply (Hn i t Et)|]. cbn. split; [auto|]. split; [auto|]. split.
    - symmetry. apply swap_on_trace_perm.
    - apply swap_on_trace_ok. apply draw_length.
  Qed.
  (** if every number is at least [p], nothing is swapped; two traces differ in
      draws only *)
  Lemma apply_swap_none p rand (l : log) : (forall k, (p <= rand k)%Q) -> apply (SwapEvents p rand) l = l.
  Proof.
    intros Hr. cbn [apply]. destruct (Qlt_bool 0 p); auto.
    assert (Hk : forall k, on_traces rand k (fun es => length es - 1) (swap_on_trace p) l = l); [|apply Hk].
    induction l as [|t l IH]; intros k; cbn [on_traces]; auto. rewrite IH. f_equal.
    unfold swap_on_trace. rewrite swap_loop_none; [destruct t; auto|].
    intros u Hu. unfold draw in Hu. apply in_map_iff in Hu. destruct Hu as (x & <- & _). auto.
  Qed.
  Lemma apply_combined ns (l : log) : apply (CombinedNoise ns) l = fold_left (fun l n => apply n l) ns l.
  Proof. reflexivity. Qed.

  (** the states a trace runs through *)
  Lemma swap_loop_states {X} p us : forall i (l : list X), i + length us < length l ->
    exists st : nat -> list X, st 0 = l /\ st (length us) = swap_loop p us i l /\
      forall j u, nth_error us j = Some u ->
        ((u < p)%Q /\ forall k, nth_error (st (S j)) k =
            nth_error (st j) (if k =? i + j then S (i + j) else if k =? S (i + j) then i + j else k)) \/
        ((p <= u)%Q /\ st (S j) = st j).
  Proof.
    induction us as [|u us IH]; intros i l Hl; cbn [length swap_loop] in *.
    - exists (fun _ => l). split; [auto|]. split; [auto|]. intros [|j]; discriminate.
    - set (l' := if Qlt_bool u p then swap_at l i else l).
      assert (El : length l' = length l) by (unfold l'; destruct (Qlt_bool u p); auto using swap_at_length).
      destruct (IH (S i) l') as (st & S0 & S1 & S2); [lia|].
      exists (fun j => match j with 0 => l | S j' => st j' end). split; [auto|]. split; [auto|].
      intros [|j] v Ev; cbn in Ev.
      + injection Ev as <-. rewrite S0. unfold l'. rewrite Nat.add_0_r. destruct (Qlt_bool u p) eqn:E.
        * apply Qlt_bool_iff in E. left. split; auto. intros k. apply swap_at_nth. lia.
        * apply Qlt_bool_false in E. auto.
      + specialize (S2 j v Ev). replace (i + S j) with (S i + j) by lia. exact S2.
  Qed.
  Lemma apply_swap_states p rand (l : log) i t : (0 < p)%Q -> nth_error l i = Some t ->
    exists t' (st : nat -> list event), nth_error (apply (SwapEvents p rand) l) i = Some t' /\
      st 0 = events t /\ st (length (events t) - 1) = events t' /\
      forall j, S j < length (events t) ->
        let u := rand (list_sum (map (fun t => length (events t) - 1) (firstn i l)) + j) in
        ((u < p)%Q /\ forall k, nth_error (st (S j)) k =
            nth_error (st j) (if k =? j then S j else if k =? S j then j else k)) \/
        ((p <= u)%Q /\ st (S j) = st j).
  Proof.
    intros Hp Et. cbn [apply]. rewrite (proj2 (Qlt_bool_iff 0 p)) by auto.
    destruct (on_traces_ok rand (fun es => length es - 1) (swap_on_trace p) l 0) as [El Hn].
    set (us := draw rand (offset (fun es => length es - 1) l i) (length (events t) - 1)).
    destruct (events t) as [|e es] eqn:Ee.
    - exists (with_events t (swap_on_trace p us [])), (fun _ => []).
      split; [rewrite (Hn i t Et), Ee; auto|]. split; [auto|]. split; [unfold us; reflexivity|]. cbn. lia.
    - assert (Hu : length us = length (e :: es) - 1) by apply draw_length.
      destruct (swap_loop_states p us 0 (e :: es)) as (st & S0 & S1 & S2); [cbn in *; lia|].
      exists (with_events t (swap_on_trace p us (e :: es))), st.
      split; [rewrite (Hn i t Et), Ee; auto|]. split; [auto|]. split; [rewrite <- Hu; auto|].
      intros j Hj. apply (S2 j). apply draw_nth. lia.
  Qed.
End N.
