From Coq Require Import String Permutation.
From Verif.Model Require Import Base Sort EventLog Lts.
From Verif.Spec Require Import Lists Logs TreeSpec.
From Verif.Lib Require Import ListLib SortLib DictLib StrLib.
From Verif.Proofs Require Import Selection.

Section Lts.
Context {A S : Type} `{Eq A} `{Eq S}.
Variable f : list A -> S.
Implicit Types (m : lts A S) (l : list A).

Definition body (l : list A) : lts A S * S -> nat -> lts A S * S :=
  fun '(m, last) i =>
        let s := f (firstn i l) in
        let m1 := add_state s false (i =? length l) m in
        match nth_error l (i - 1) with
        | Some e => (add_transition last e s m1, s)
        | None => (m1, s)
        end.
Definition upto l m k := fold_left (body l) (seq 1 k) (add_state (f []) true (length l =? 0) m, f []).
Lemma add_sequence_upto m l : add_sequence f m l = fst (upto l m (length l)).
Proof. reflexivity. Qed.
Lemma upto_S l m k : upto l m (Datatypes.S k) = body l (upto l m k) (Datatypes.S k).
Proof. unfold upto. rewrite seq_S, fold_left_app. reflexivity. Qed.
Lemma upto_last l m k : k <= length l -> snd (upto l m k) = f (firstn k l).
Proof.
  destruct k as [|k]; intros Hk; [reflexivity|]. rewrite upto_S. unfold body. destruct (upto l m k).
  destruct (nth_error l (Datatypes.S k - 1)); auto.
Qed.
(** one more step *)
Lemma upto_step l m k x : nth_error l k = Some x ->
  upto l m (Datatypes.S k) = (add_transition (f (firstn k l)) x (f (firstn (k + 1) l))
    (add_state (f (firstn (k + 1) l)) false (k + 1 =? length l) (fst (upto l m k))), f (firstn (k + 1) l)).
Proof.
  intros E. rewrite upto_S. pose proof (nth_error_Some_lt _ _ _ E). pose proof (upto_last l m k ltac:(lia)) as El.
  unfold body. destruct (upto l m k) as [m1 last]. cbn in El. subst last. cbn [fst]. replace (Datatypes.S k - 1) with k by lia.
  rewrite E, Nat.add_1_r. reflexivity.
Qed.

Definition get m q x := dict_get x (row m q).
Lemma get_add_transition m q x q' p y :
  get (add_transition q x q' m) p y = if eqb p q then if eqb y x then Some q' else get m p y else get m p y.
Proof.
  unfold get, row, add_transition. cbn. rewrite dict_get_set. destruct (eqb_ok p q) as [->|]; auto.
  rewrite dict_get_set. auto.
Qed.
Lemma get_add_state s a b m p y : get (add_state s a b m) p y = get m p y.
Proof. reflexivity. Qed.

(** the last step of one sequence, among the first [k] *)
Lemma upto_get l m k q x : k <= length l ->
  match get (fst (upto l m k)) q x with
  | Some q' => (exists j, j < k /\ step_at f l j q x q' /\ forall j' q'', j < j' < k -> ~ step_at f l j' q x q'') \/
               (get m q x = Some q' /\ forall j' q'', j' < k -> ~ step_at f l j' q x q'')
  | None => get m q x = None /\ forall j' q'', j' < k -> ~ step_at f l j' q x q''
  end.
Proof.
  induction k as [|k IH]; intros Hk.
  - unfold upto. cbn. rewrite get_add_state. destruct (get m q x) eqn:E; [right|]; (split; [auto|intros; lia]).
  - specialize (IH ltac:(lia)). destruct (nth_error_lt l k) as [y Ey]; [lia|]. rewrite (upto_step l m k y Ey). cbn [fst].
    rewrite get_add_transition, get_add_state.
    assert (Hstep : forall q'', step_at f l k q x q'' -> q = f (firstn k l) /\ x = y).
    { intros q'' (E1 & E2 & _). split; [auto|congruence]. }
    assert (Hskip : ~ (q = f (firstn k l) /\ x = y) ->
      match get (fst (upto l m k)) q x with
      | Some q' => (exists j, j < Datatypes.S k /\ step_at f l j q x q' /\ forall j' q'', j < j' < Datatypes.S k -> ~ step_at f l j' q x q'') \/
               (get m q x = Some q' /\ forall j' q'', j' < Datatypes.S k -> ~ step_at f l j' q x q'')
      | None => get m q x = None /\ forall j' q'', j' < Datatypes.S k -> ~ step_at f l j' q x q''
      end).
    { intros Hno. assert (Hk' : forall q'', ~ step_at f l k q x q'') by (intros q'' Hs; apply Hno; eauto).
      destruct (get (fst (upto l m k)) q x) as [q'|].
      - destruct IH as [(j & Hj & Hs & Hl)|(Hg & Hl)]; [left|right].
        + exists j. split; [lia|]. split; [auto|]. intros j' q'' Hj'. destruct (Nat.eq_dec j' k) as [->|]; auto. apply Hl; lia.
        + split; [auto|]. intros j' q'' Hj'. destruct (Nat.eq_dec j' k) as [->|]; auto. apply Hl; lia.
      - destruct IH as [Hg Hl]. split; [auto|]. intros j' q'' Hj'. destruct (Nat.eq_dec j' k) as [->|]; auto. apply Hl; lia. }
    destruct (eqb_ok q (f (firstn k l))) as [Eq|Nq]; [destruct (eqb_ok x y) as [Ex|Nx]|]; [|apply Hskip; tauto|apply Hskip; tauto].
    left. exists k. split; [lia|]. split; [|intros; lia]. split; [congruence|]. auto.
Qed.
Lemma add_sequence_get l m q x :
  match get (add_sequence f m l) q x with
  | Some q' => (exists j, step_at f l j q x q' /\ forall j' q'', j < j' -> ~ step_at f l j' q x q'') \/
               (get m q x = Some q' /\ forall j' q'', ~ step_at f l j' q x q'')
  | None => get m q x = None /\ forall j' q'', ~ step_at f l j' q x q''
  end.
Proof.
  rewrite add_sequence_upto. pose proof (upto_get l m (length l) q x (le_n _)) as U.
  assert (Hout : forall j' q'', step_at f l j' q x q'' -> j' < length l).
  { intros j' q'' (E & _). eapply nth_error_Some_lt; eauto. }
  destruct (get (fst (upto l m (length l))) q x) as [q'|].
  - destruct U as [(j & Hj & Hs & Hl)|(Hg & Hl)]; [left|right].
    + exists j. split; [auto|]. intros j' q'' Hj' Hs'. eapply Hl; eauto.
    + split; [auto|]. intros j' q'' Hs. eapply Hl; eauto.
  - destruct U as [Hg Hl]. split; [auto|]. intros j' q'' Hs. eapply Hl; eauto.
Qed.
Definition no_step ls q x := forall j l k q', nth_error ls j = Some l -> ~ step_at f l k q x q'.
Lemma add_all_snoc ls l : add_all f (ls ++ [l]) = add_sequence f (add_all f ls) l.
Proof. unfold add_all. rewrite fold_left_app. reflexivity. Qed.
Lemma nth_error_snoc {X} (l : list X) a j x : nth_error (l ++ [a]) j = Some x ->
  (j < length l /\ nth_error l j = Some x) \/ (j = length l /\ x = a).
Proof.
  intros E. destruct (Nat.lt_ge_cases j (length l)) as [Hj|Hj].
  - rewrite nth_error_app1 in E by auto. auto.
  - rewrite nth_error_app2 in E by auto. pose proof (nth_error_Some_lt _ _ _ E) as Hl. cbn in Hl.
    assert (j = length l) by lia. subst j. rewrite Nat.sub_diag in E. cbn in E. injection E as <-. auto.
Qed.
Lemma nth_error_snoc_r {X} (l : list X) a : nth_error (l ++ [a]) (length l) = Some a.
Proof. rewrite nth_error_app2, Nat.sub_diag by auto. auto. Qed.
Lemma add_all_get ls q x :
  match get (add_all f ls) q x with
  | Some q' => last_step f ls q x q'
  | None => no_step ls q x
  end.
Proof.
  induction ls as [|l ls IH] using rev_ind.
  - intros j l k q' E. destruct j; discriminate.
  - rewrite add_all_snoc. pose proof (add_sequence_get l (add_all f ls) q x) as U.
    destruct (get (add_sequence f (add_all f ls) l) q x) as [q'|].
    + destruct U as [(k & Hs & Hl)|(Hg & Hl)].
      * exists (length ls), l, k. split; [apply nth_error_snoc_r|]. split; [auto|].
        intros j' l' k' q'' E Hlt. apply nth_error_snoc in E. destruct E as [[Hj E]|[-> ->]]; [lia|]. apply Hl. lia.
      * rewrite Hg in IH. destruct IH as (j & l0 & k & E & Hs & Hlast). exists j, l0, k.
        pose proof (nth_error_Some_lt _ _ _ E). split; [rewrite nth_error_app1; auto|]. split; [auto|].
        intros j' l' k' q'' E' Hlt. apply nth_error_snoc in E'. destruct E' as [[Hj E']|[-> ->]]; [eapply Hlast; eauto|apply Hl].
    + destruct U as [Hg Hl]. rewrite Hg in IH. intros j l' k q' E. apply nth_error_snoc in E.
      destruct E as [[Hj E]|[-> ->]]; [eapply IH; eauto|apply Hl].
Qed.

(** the sets of states *)
Record sets_ok (m : lts A S) (St Be En : S -> Prop) : Prop := {
  so_states : forall s, In s (states m) <-> St s;
  so_start : forall s, In s (start_states m) <-> Be s;
  so_end : forall s, In s (end_states m) <-> En s;
  so_nd1 : NoDup (states m); so_nd2 : NoDup (start_states m); so_nd3 : NoDup (end_states m);
  so_rows : NoDup (keys (transitions m));
  so_row : forall s r, In (s, r) (transitions m) -> NoDup (keys r) }.
Lemma row_get m s : (forall s r, In (s, r) (transitions m) -> NoDup (keys r)) -> NoDup (keys (row m s)).
Proof.
  intros R. unfold row. destruct (dict_get s (transitions m)) as [r|] eqn:E; [|constructor].
  apply dict_get_In in E. eauto.
Qed.
Lemma In_dict_set {K V} `{Eq K} k (v : V) d k' v' : NoDup (keys d) -> In (k', v') (dict_set k v d) -> (k' = k /\ v' = v) \/ In (k', v') d.
Proof.
  intros N Hin. apply (dict_In_get _ _ _ (keys_dict_set_NoDup _ k v N)) in Hin. rewrite dict_get_set in Hin.
  destruct (eqb_ok k' k); [left; split; congruence|]. right. apply dict_get_In. auto.
Qed.
Lemma add_state_ok m St Be En s a b : sets_ok m St Be En ->
  sets_ok (add_state s a b m) (fun q => St q \/ q = s) (fun q => Be q \/ (a = true /\ q = s)) (fun q => En q \/ (b = true /\ q = s)).
Proof.
  intros [H1 H2 H3 N1 N2 N3 R1 R2]. constructor; cbn; auto.
  - intros q. rewrite set_add_In, H1. tauto.
  - intros q. destruct a; [rewrite set_add_In|]; rewrite H2; intuition congruence.
  - intros q. destruct b; [rewrite set_add_In|]; rewrite H3; intuition congruence.
  - apply set_add_NoDup; auto.
  - destruct a; [apply set_add_NoDup|]; auto.
  - destruct b; [apply set_add_NoDup|]; auto.
Qed.
Lemma add_transition_ok m St Be En s x s' : sets_ok m St Be En -> sets_ok (add_transition s x s' m) St Be En.
Proof.
  intros [H1 H2 H3 N1 N2 N3 R1 R2]. constructor; cbn; auto.
  - apply keys_dict_set_NoDup; auto.
  - intros q r Hin. apply In_dict_set in Hin; [|auto]. destruct Hin as [[-> ->]|Hin]; eauto.
    apply keys_dict_set_NoDup. apply row_get. auto.
Qed.
Lemma sets_ok_ext m St Be En St' Be' En' : (forall s, St s <-> St' s) -> (forall s, Be s <-> Be' s) -> (forall s, En s <-> En' s) ->
  sets_ok m St Be En -> sets_ok m St' Be' En'.
Proof.
  intros E1 E2 E3 [H1 H2 H3 N1 N2 N3 R1 R2]. constructor; auto; intros s; [rewrite H1|rewrite H2|rewrite H3]; auto.
Qed.
Lemma upto_sets l m St Be En k : sets_ok m St Be En -> k <= length l ->
  sets_ok (fst (upto l m k)) (fun q => St q \/ exists j, j <= k /\ q = f (firstn j l)) (fun q => Be q \/ q = f [])
    (fun q => En q \/ (k = length l /\ q = f l)).
Proof.
  intros G. induction k as [|k IH]; intros Hk.
  - eapply sets_ok_ext; [| | |apply (add_state_ok m St Be En (f []) true (length l =? 0) G)]; intros q; cbn.
    + split; intros [?|E]; auto.
      * right. exists 0. split; [auto|]. subst; auto.
      * right. destruct E as (j & Hj & ->). assert (j = 0) by lia. subst. auto.
    + intuition congruence.
    + split; (intros [?|[E1 E2]]; [auto|right]).
      * apply Nat.eqb_eq in E1. destruct l; [|discriminate]. auto.
      * destruct l; [|discriminate]. auto.
  - specialize (IH ltac:(lia)). destruct (nth_error_lt l k) as [y Ey]; [lia|]. rewrite (upto_step l m k y Ey). cbn [fst].
    apply add_transition_ok.
    eapply sets_ok_ext; [| | |apply (add_state_ok _ _ _ _ (f (firstn (k + 1) l)) false (k + 1 =? length l) IH)]; intros q; cbn beta.
    + split.
      * intros [[Hq|(j & Hj & E)]|E]; [auto|right; exists j; split; [lia|auto]|right; exists (k + 1); split; [lia|auto]].
      * intros [Hq|(j & Hj & E)]; [auto|]. destruct (Nat.eq_dec j (Datatypes.S k)) as [->|].
        -- right. rewrite Nat.add_1_r. auto.
        -- left. right. exists j. split; [lia|auto].
    + intuition congruence.
    + rewrite Nat.eqb_eq. split.
      * intros [[Hq|[E _]]|[E ->]]; [auto|lia|]. right. split; [lia|]. rewrite E, firstn_all. auto.
      * intros [Hq|[E ->]]; [auto|]. right. split; [lia|]. rewrite Nat.add_1_r, E, firstn_all. auto.
Qed.
Lemma add_all_sets ls : sets_ok (add_all f ls)
  (fun q => exists l p r, In l ls /\ l = p ++ r /\ q = f p) (fun q => ls <> [] /\ q = f []) (fun q => exists l, In l ls /\ q = f l).
Proof.
  induction ls as [|l ls IH] using rev_ind.
  - constructor; cbn; try constructor; try tauto.
    + intros (l & p & r & [] & _).
    + intros (l & [] & _).
  - rewrite add_all_snoc, add_sequence_upto.
    eapply sets_ok_ext; [| | |apply (upto_sets l _ _ _ _ (length l) IH (le_n _))]; intros q; cbn beta.
    + split.
      * intros [(l' & p & r & Hl & E)|(j & Hj & ->)].
        -- exists l', p, r. split; [apply in_or_app; auto|auto].
        -- exists l, (firstn j l), (skipn j l). split; [apply in_or_app; cbn; auto|]. rewrite firstn_skipn. auto.
      * intros (l' & p & r & Hl & E & ->). apply in_app_or in Hl. destruct Hl as [Hl|[<-|[]]]; [left; eauto 6|].
        right. exists (length p). rewrite E, app_length, firstn_app, Nat.sub_diag, firstn_all. cbn. rewrite app_nil_r. split; [lia|auto].
    + split; [intros [[_ E]|E]; (split; [destruct ls; discriminate|auto])|tauto].
    + split.
      * intros [(l' & Hl & E)|[_ ->]]; [exists l'|exists l]; (split; [apply in_or_app; cbn; auto|auto]).
      * intros (l' & Hl & ->). apply in_app_or in Hl. destruct Hl as [Hl|[<-|[]]]; [left; eauto|auto].
Qed.
Lemma transition_list_In m q x q' : NoDup (keys (transitions m)) ->
  (forall s r, In (s, r) (transitions m) -> NoDup (keys r)) ->
  In (q, x, q') (transition_list m) <-> get m q x = Some q'.
Proof.
  intros N R. unfold transition_list. rewrite in_flat_map. split.
  - intros ([s r] & Hr & Hin). apply in_map_iff in Hin. destruct Hin as ([e s'] & E & Hin). injection E as -> -> ->.
    unfold get, row. rewrite (dict_In_get _ _ _ N Hr). apply dict_In_get; eauto.
  - unfold get, row. intros E. destruct (dict_get q (transitions m)) as [r|] eqn:Er; [|discriminate].
    exists (q, r). split; [apply dict_get_In; auto|]. apply in_map_iff. exists (x, q'). split; [auto|]. apply dict_get_In; auto.
Qed.
Lemma transition_list_NoDup m : NoDup (keys (transitions m)) ->
  (forall s r, In (s, r) (transitions m) -> NoDup (keys r)) -> NoDup (transition_list m).
Proof.
  unfold transition_list. generalize (transitions m). intros d. induction d as [|[s r] d IH]; cbn; intros N R; [constructor|].
  inversion N as [|? ? N1 N2]; subst. apply NoDup_app_disjoint.
  - assert (Nr : NoDup (keys r)) by eauto. clear - Nr. induction r as [|[e s'] r IH]; cbn; constructor.
    + inversion Nr as [|? ? N1 N2]; subst. intros Hin. apply in_map_iff in Hin. destruct Hin as ([e' s''] & E & Hin). injection E as -> ->.
      apply N1. apply (in_map fst) in Hin. auto.
    + inversion Nr; auto.
  - apply IH; auto. intros s' r' Hin. apply (R s'). auto.
  - intros [[q x] q'] H1 H2. apply in_map_iff in H1. destruct H1 as ([e s'] & E & _). injection E as -> _ _.
    apply in_flat_map in H2. destruct H2 as ([s2 r2] & Hin & H2). apply in_map_iff in H2. destruct H2 as ([e' s''] & E & _).
    injection E as -> _ _. apply N1. apply (in_map fst) in Hin. auto.
Qed.
Lemma nr_transitions m : get_nr_of_transitions m = length (transition_list m).
Proof.
  unfold get_nr_of_transitions, transition_list, values. generalize (transitions m). intros d.
  enough (G : forall n, fold_left (fun n (r : dict A S) => n + length r) (map snd d) n =
    n + length (flat_map (fun '(s, r) => map (fun '(e, s') => (s, e, s')) r) d)) by (apply (G 0)).
  induction d as [|[s r] d IH]; intros n; cbn; [lia|]. rewrite IH, app_length, map_length. lia.
Qed.
Lemma stepwise_all : stepwise f -> forall p q r, f p = f q -> f (p ++ r) = f (q ++ r).
Proof.
  intros D p q r. induction r as [|x r IH] using rev_ind; intros E; [rewrite !app_nil_r; auto|].
  rewrite !app_assoc. apply D. auto.
Qed.
Lemma step_at_app l k q x q' : step_at f l k q x q' <-> exists p r, length p = k /\ l = p ++ x :: r /\ q = f p /\ q' = f (p ++ [x]).
Proof.
  split.
  - intros (E & -> & ->). pose proof (nth_error_Some_lt _ _ _ E). exists (firstn k l), (skipn (k + 1) l).
    split; [rewrite firstn_length; lia|]. 
    assert (Es : skipn k l = x :: skipn (k + 1) l).
    { clear - E. revert l E. induction k as [|k IH]; intros [|y l] E; try discriminate; cbn in E.
      - injection E as ->. auto.
      - cbn. rewrite (IH l E). auto. }
    split; [rewrite <- Es; symmetry; apply firstn_skipn|]. split; [auto|]. f_equal.
    rewrite <- (firstn_skipn k l) at 1. rewrite Es. rewrite firstn_app, firstn_length, Nat.min_l by lia.
    replace (k + 1 - k) with 1 by lia. cbn [firstn]. f_equal. rewrite firstn_firstn. f_equal. lia.
  - intros (p & r & <- & -> & -> & ->). split; [|split].
    + rewrite nth_error_app2, Nat.sub_diag by auto. auto.
    + rewrite firstn_app, Nat.sub_diag, firstn_all. cbn. rewrite app_nil_r. auto.
    + f_equal. rewrite firstn_app. replace (length p + 1 - length p) with 1 by lia. cbn [firstn]. f_equal.
      symmetry. apply firstn_all2. lia.
Qed.
Lemma det_get ls q x q' : stepwise f ->
  get (add_all f ls) q x = Some q' <-> exists l p r, In l ls /\ l = p ++ x :: r /\ q = f p /\ q' = f (p ++ [x]).
Proof.
  intros D. pose proof (add_all_get ls q x) as G. split.
  - intros E. rewrite E in G. destruct G as (j & l & k & El & Hs & _). apply step_at_app in Hs.
    destruct Hs as (p & r & _ & -> & -> & ->). exists (p ++ x :: r), p, r. split; [eapply nth_error_In; eauto|auto].
  - intros (l & p & r & Hl & -> & -> & ->). apply In_nth_error in Hl. destruct Hl as [j Ej].
    assert (Hs : step_at f (p ++ x :: r) (length p) (f p) x (f (p ++ [x]))) by (apply step_at_app; eauto 6).
    destruct (get (add_all f ls) (f p) x) as [q''|].
    + destruct G as (j' & l' & k' & El & Hs' & _). apply step_at_app in Hs'. destruct Hs' as (p' & r' & _ & -> & E1 & ->).
      f_equal. symmetry. apply D. auto.
    + exfalso. eapply G; eauto.
Qed.
End Lts.

(*P C49 Transition systems *)
Lemma C49_states : forall (A S : Type) `(Eq A) `(Eq S) (f : list A -> S) (ls : list (list A)),
  let m := add_all f ls in
  (forall q, In q (states m) <-> exists l p r, In l ls /\ l = p ++ r /\ q = f p) /\
  (forall q, In q (start_states m) <-> ls <> [] /\ q = f []) /\
  (forall q, In q (end_states m) <-> exists l, In l ls /\ q = f l) /\
  NoDup (states m) /\ get_nr_of_states m = length (states m).
Proof.
  intros A S HA HS f ls m. destruct (add_all_sets f ls) as [H1 H2 H3 N1 N2 N3 R1 R2].
  split; [exact H1|]. split; [exact H2|]. split; [exact H3|]. split; [exact N1|]. reflexivity.
Qed.
(** whatever the representation function: the transition kept for a state and
    an event is the one seen last *)
Lemma C49_last_step_wins : forall (A S : Type) `(Eq A) `(Eq S) (f : list A -> S) (ls : list (list A)) q x,
  (forall q', get_next_state (add_all f ls) q x = Ok q' <-> last_step f ls q x q') /\
  (get_next_state (add_all f ls) q x = Err KeyError <->
     forall j l k q', nth_error ls j = Some l -> ~ step_at f l k q x q').
Proof.
  intros A S HA HS f ls q x. pose proof (add_all_get f ls q x) as G.
  assert (U : forall a b, last_step f ls q x a -> last_step f ls q x b -> a = b).
  { intros a b (j & l & k & El & Hs & Hl) (j' & l' & k' & El' & Hs' & Hl').
    destruct (Nat.lt_trichotomy j j') as [Hj|[->|Hj]]; [exfalso; apply (Hl j' l' k' b); auto| |exfalso; apply (Hl' j l k a); auto].
    rewrite El in El'. injection El' as <-. destruct (Nat.lt_trichotomy k k') as [Hk|[->|Hk]]; [exfalso; apply (Hl j' l k' b); auto| |exfalso; apply (Hl' j' l k a); auto].
    destruct Hs as (_ & _ & ->). destruct Hs' as (_ & _ & ->). auto. }
  unfold get_next_state. fold (get (add_all f ls) q x). destruct (get (add_all f ls) q x) as [q0|]; cbn [of_option].
  - split.
    + intros q'. split; [intros E; injection E as <-; auto|]. intros Hq. f_equal. apply U; auto.
    + split; [discriminate|]. intros Hn. destruct G as (j & l & k & El & Hs & _). exfalso. eapply Hn; eauto.
  - split.
    + intros q'. split; [discriminate|]. intros (j & l & k & El & Hs & _). exfalso. eapply G; eauto.
    + split; [intros _; exact G|auto].
Qed.
(** without overwriting: exactly the steps of the added sequences *)
Lemma C49_transitions : forall (A S : Type) `(Eq A) `(Eq S) (f : list A -> S) (ls : list (list A)), stepwise f ->
  let m := add_all f ls in
  (forall q x q', In (q, x, q') (transition_list m) <->
    exists l p r, In l ls /\ l = p ++ x :: r /\ q = f p /\ q' = f (p ++ [x])) /\
  (forall q p x q', In (p, x, q') (outgoing_transitions m q) <-> p = q /\ In (q, x, q') (transition_list m)) /\
  NoDup (transition_list m) /\ get_nr_of_transitions m = length (transition_list m).
Proof.
  intros A S HA HS f ls D m. destruct (add_all_sets f ls) as [H1 H2 H3 N1 N2 N3 R1 R2].
  split; [|split; [|split]].
  - intros q x q'. unfold m. rewrite transition_list_In by auto. apply det_get. auto.
  - intros q p x q'. rewrite (transition_list_In m) by auto. unfold outgoing_transitions, get. rewrite in_map_iff. split.
    + intros ([e s] & E & Hin). injection E as -> -> ->. split; [auto|]. apply dict_In_get; auto. apply row_get. auto.
    + intros [-> E]. exists (x, q'). split; [auto|]. apply dict_get_In; auto.
  - apply transition_list_NoDup; auto.
  - apply nr_transitions.
Qed.
(** every added sequence can be replayed from the start state to an end state *)
Lemma C49_replay : forall (A S : Type) `(Eq A) `(Eq S) (f : list A -> S) (ls : list (list A)) l, stepwise f -> In l ls ->
  let m := add_all f ls in
  In (f []) (start_states m) /\ foldM (get_next_state m) l (f []) = Ok (f l) /\ In (f l) (end_states m).
Proof.
  intros A S HA HS f ls l D Hl m. destruct (add_all_sets f ls) as [H1 H2 H3 N1 N2 N3 R1 R2].
  split; [apply H2; split; [destruct ls; [contradiction|discriminate]|auto]|]. split; [|apply H3; eauto].
  assert (G : forall r p, l = p ++ r -> foldM (get_next_state m) r (f p) = Ok (f l)).
  { induction r as [|x r IH]; intros p E; cbn [foldM]; [rewrite E, app_nil_r; auto|].
    unfold get_next_state at 1. fold (get m (f p) x). unfold m at 1. rewrite (proj2 (det_get f ls (f p) x (f (p ++ [x])) D)); [|eauto 7].
    cbn [of_option bind]. apply IH. rewrite <- app_assoc. auto. }
  apply (G l []). auto.
Qed.
(** the four representation functions qualify *)
Lemma C49_representations : stepwise set_abstraction /\
  forall A, stepwise (@list_abstraction A) /\ stepwise (@last_abstraction A) /\ forall n, stepwise (@last_n_abstraction A n).
Proof.
  split.
  - intros p q x E. unfold set_abstraction in *. apply sort_str_ext.
    apply NoDup_Permutation; try apply set_of_NoDup. intros y. rewrite !set_of_In, !in_app_iff.
    assert (Hy : In y p <-> In y q); [|rewrite Hy; tauto].
    assert (G : forall l, In y (stable_sort String.leb (set_of l)) <-> In y l).
    { intros l. rewrite <- (set_of_In l y). split; apply Permutation_in; [apply sort_perm|symmetry; apply sort_perm]. }
    rewrite <- (G p), <- (G q), E. tauto.
  - intros A. split; [|split].
    + intros p q x E. unfold list_abstraction in *. congruence.
    + intros p q x _. unfold last_abstraction. rewrite !rev_app_distr. auto.
    + intros n p q x E. unfold last_n_abstraction in *. destruct (Nat.eqb_spec n 0) as [->|Hn]; [congruence|].
      rewrite !app_length. cbn [length].
      assert (G : forall l : list A, skipn (length l + 1 - n) (l ++ [x]) =
        (if length (skipn (length l - n) l) <? n then skipn (length l - n) l else tl (skipn (length l - n) l)) ++ [x]).
      { intros l. rewrite skipn_length. rewrite skipn_app. replace (length l + 1 - n - length l) with 0 by lia. cbn [skipn]. f_equal.
        destruct (Nat.ltb_spec (length l - (length l - n)) n).
        - replace (length l + 1 - n) with 0 by lia. replace (length l - n) with 0 by lia. auto.
        - replace (length l + 1 - n) with (Datatypes.S (length l - n)) by lia. generalize (length l - n). clear. intros k.
          revert k. induction l as [|y l IH]; intros [|k]; auto. cbn [skipn]. rewrite <- IH. auto. }
      rewrite !G, E. auto.
Qed.
