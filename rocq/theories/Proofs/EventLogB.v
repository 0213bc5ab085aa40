(** Proofs about count_follows_directly_or_indirectly and the splits of a log *)
From Coq Require Import Permutation QArith Qround Qabs Lqa.
From Verif.Model Require Import Base ListUtils EventLog.
From Verif.Spec Require Import Lists Logs EventLogSpec.
From Verif.Lib Require Import ListLib DictLib.
From Verif.Proofs Require Import Selection EventLogA.
Open Scope nat_scope.

Definition val {K} `{Eq K} (c : dict K nat) (k : K) : nat :=
  match dict_get k c with Some n => n | None => 0 end.

Section C.
  Context {K Y : Type} `{Eq K}.
  Lemma val_incs (f : Y -> K) xs c k :
    val (fold_left (fun c y => counter_inc (f y) c) xs c) k =
    count_occ eq_dec_of (map f xs) k + val c k.
  Proof.
    unfold val. rewrite counter_incs.
    destruct (count_occ eq_dec_of (map f xs) k); destruct (dict_get k c); cbn; try lia.
  Qed.
  Lemma keys_incs (f : Y -> K) xs c k :
    In k (keys (fold_left (fun c y => counter_inc (f y) c) xs c)) <-> In k (keys c) \/ In k (map f xs).
  Proof.
    revert c; induction xs as [|y xs IH]; intros c; cbn [fold_left map].
    - cbn; tauto.
    - rewrite IH. unfold counter_inc. rewrite keys_dict_set_In. cbn. intuition congruence.
  Qed.
End C.

Section EL.
  Context {A V I : Type} `{Eq A}.
  Notation event := (event A V).
  Notation trace := (trace A V I).
  Notation log := (log A V I).
  Variable ord : list A -> list A.
  Hypothesis ord_perm : forall s, Permutation (ord s) s.

  Lemma act_app1 (es : list event) e i : i < length es -> act (es ++ [e]) i = act es i.
  Proof. intros Hi. unfold act. rewrite nth_error_app1; auto. Qed.
  Lemma act_app2 (es : list event) e : act (es ++ [e]) (length es) = Some (activity e).
  Proof. unfold act. rewrite nth_error_app2, Nat.sub_diag; auto. Qed.
  Lemma act_lt (es : list event) i a : act es i = Some a -> i < length es.
  Proof. unfold act. destruct (nth_error es i) eqn:E; [|discriminate]. intros _. eapply nth_error_Some_lt; eauto. Qed.
  Lemma last_act (es : list event) a : In a (map activity es) ->
    exists i, act es i = Some a /\ forall k, i < k -> act es k <> Some a.
  Proof.
    induction es as [|e es IH] using rev_ind; [intros []|].
    intros Hin. destruct (eq_dec_of (activity e) a) as [E|Hne].
    - exists (length es). rewrite act_app2, E. split; auto. intros k Hk Ek. apply act_lt in Ek. rewrite app_length in Ek. cbn in Ek. lia.
    - rewrite map_app, in_app_iff in Hin. destruct Hin as [Hin|[E|[]]]; [|contradiction].
      destruct (IH Hin) as (i & Ei & Hi). exists i. pose proof (act_lt _ _ _ Ei). rewrite act_app1 by auto. split; auto.
      intros k Hk Ek. pose proof (act_lt _ _ _ Ek) as Hl. rewrite app_length in Hl; cbn in Hl.
      destruct (Nat.eq_dec k (length es)) as [->|]; [rewrite act_app2 in Ek; congruence|].
      rewrite act_app1 in Ek by lia. eapply Hi; eauto.
  Qed.
  Lemma act_In (es : list event) a : In a (map activity es) <-> exists i, act es i = Some a.
  Proof.
    split.
    - intros Hin. destruct (last_act es a Hin) as (i & E & _). eauto.
    - intros (i & E). unfold act in E. destruct (nth_error es i) eqn:En; [|discriminate]. cbn in E. injection E as <-.
      apply in_map. eapply nth_error_In; eauto.
  Qed.

  Lemma pairs_snoc (es : list event) e a b n :
    has_size (pairs es a b) n ->
    has_size (pairs (es ++ [e]) a b)
      (n + if eq_dec_of (activity e) b then if mem a (map activity es) then 1 else 0 else 0).
  Proof.
    intros Hn.
    eapply has_size_ext; [|apply has_size_or with (Q := fun '(i, j) => j = length es /\ pairs (es ++ [e]) a b (i, j)); [exact Hn| |]].
    - intros [i j]. split.
      + intros [(Hij & Ei & Ej & Hk)|(-> & Hx)]; [|exact Hx].
        pose proof (act_lt _ _ _ Ej). split; [auto|]. rewrite !act_app1 by lia. split; [auto|]. split; [auto|].
        intros k Hk'. rewrite act_app1 by lia. auto.
      + intros Hx. destruct (Nat.eq_dec j (length es)) as [->|Hne]; [right; auto|left].
        destruct Hx as (Hij & Ei & Ej & Hk). pose proof (act_lt _ _ _ Ej) as Hl. rewrite app_length in Hl; cbn in Hl.
        rewrite act_app1 in Ei, Ej by lia. split; [auto|]. split; [auto|]. split; [auto|].
        intros k Hk'. rewrite <- (act_app1 es e) by lia. auto.
    - destruct (eq_dec_of (activity e) b) as [Eb|Hne]; [destruct (mem a (map activity es)) eqn:Em|].
      + apply mem_In in Em. destruct (last_act es a Em) as (i & Ei & Hi). pose proof (act_lt _ _ _ Ei).
        exists [(i, length es)]. split; [repeat constructor; auto|]. split; [|auto].
        intros [i' j']. split.
        * intros [E|[]]. injection E as <- <-. split; [auto|]. split; [auto|]. rewrite act_app1 by auto.
          rewrite act_app2. split; [auto|]. split; [congruence|].
          intros k Hk. rewrite act_app1 by lia. apply Hi. lia.
        * intros (-> & Hij & Ei' & Ej & Hk). left. f_equal. rewrite act_app1 in Ei' by lia.
          destruct (Nat.lt_trichotomy i i') as [Hlt|[E|Hgt]]; auto.
          -- exfalso. eapply Hi; eauto.
          -- exfalso. apply (Hk i); [lia|]. rewrite act_app1 by lia. auto.
      + apply has_size_empty. intros [i j] (-> & Hij & Ei & Ej & Hk). apply mem_not_In in Em. apply Em.
        apply act_In. exists i. rewrite act_app1 in Ei by lia. auto.
      + apply has_size_empty. intros [i j] (-> & Hij & Ei & Ej & Hk). rewrite act_app2 in Ej. congruence.
    - intros [i j] (Hij & Ei & Ej & Hk) (-> & _). apply act_lt in Ej. lia.
  Qed.

  Lemma count_occ_NoDup_map {X Y} `{Eq X} `{Eq Y} (f : X -> Y) l y :
    NoDup l -> (forall x x', f x = f x' -> x = x') ->
    count_occ eq_dec_of (map f l) y = if mem y (map f l) then 1 else 0.
  Proof.
    intros Hl Hinj. assert (Hn : NoDup (map f l)).
    { induction Hl; cbn; constructor; auto. intros Hin. apply in_map_iff in Hin. destruct Hin as (x' & E & Hx').
      apply Hinj in E. congruence. }
    destruct (mem y (map f l)) eqn:E.
    - apply NoDup_count_occ'; auto. apply mem_In; auto.
    - apply count_occ_not_In. apply mem_not_In; auto.
  Qed.

  Lemma follows_events_inv c (es : list event) :
    let sc := fold_left (follows_event ord) es ([], c) in
    NoDup (fst sc) /\ (forall a, In a (fst sc) <-> In a (map activity es)) /\
    (forall a b, exists n, val (snd sc) (a, b) = val c (a, b) + n /\ has_size (pairs es a b) n) /\
    (forall k, In k (keys (snd sc)) -> In k (keys c) \/
               (In (fst k) (map activity es) /\ In (snd k) (map activity es))) /\
    (NoDup (keys c) -> NoDup (keys (snd sc))).
  Proof.
    induction es as [|e es IH] using rev_ind.
    - cbn. split; [constructor|]. split; [tauto|]. split; [|split; auto].
      intros a b. exists 0. split; [lia|]. apply has_size_empty. intros [i j] (_ & E & _). destruct i; discriminate.
    - rewrite fold_left_app; cbn [fold_left]. destruct (fold_left (follows_event ord) es ([], c)) as [seen d].
      cbn in IH. destruct IH as (Hnd & Hseen & Hval & Hkeys & Hkn). unfold follows_event. cbn [fst snd].
      split; [apply set_add_NoDup; auto|]. split; [|split; [|split]].
      + intros a. rewrite set_add_In, Hseen, map_app, in_app_iff. cbn. intuition congruence.
      + intros a b. destruct (Hval a b) as (n & Ev & Hn).
        eexists. split; [|apply pairs_snoc; exact Hn].
        rewrite val_incs, Ev. rewrite count_occ_NoDup_map.
        * destruct (eq_dec_of (activity e) b) as [<-|Hne].
          -- assert (Em : mem (a, activity e) (map (fun a0 => (a0, activity e)) (ord seen)) = mem a (map activity es)).
             { destruct (mem a (map activity es)) eqn:Em.
               - apply mem_In in Em. apply mem_In. apply in_map_iff. exists a. split; auto.
                 apply (Permutation_in _ (Permutation_sym (ord_perm seen))). apply Hseen; auto.
               - apply mem_not_In in Em. apply mem_not_In. intros Hin. apply in_map_iff in Hin. destruct Hin as (x & E & Hx).
                 injection E as ->. apply Em, Hseen. apply (Permutation_in _ (ord_perm seen)); auto. }
             rewrite Em. lia.
          -- assert (Em : mem (a, b) (map (fun a0 => (a0, activity e)) (ord seen)) = false).
             { apply mem_not_In. intros Hin. apply in_map_iff in Hin. destruct Hin as (x & E & Hx). congruence. }
             rewrite Em. lia.
        * apply (Permutation_NoDup (Permutation_sym (ord_perm seen))); auto.
        * intros x x' E. congruence.
      + intros k Hk. apply keys_incs in Hk. rewrite map_app, !in_app_iff. destruct Hk as [Hk|Hk].
        * destruct (Hkeys k Hk) as [|[]]; auto.
        * right. apply in_map_iff in Hk. destruct Hk as (x & <- & Hx). cbn. split; [|auto].
          left. apply Hseen. apply (Permutation_in _ (ord_perm seen)); auto.
      + intros Hc. apply counter_incs_NoDup. auto.
  Qed.

  Lemma follows_log_inv (l : log) :
    let c := fold_left (follows_trace ord) l [] in
    (forall a b, has_size (log_pairs l a b) (val c (a, b))) /\
    (forall k, In k (keys c) -> occurs l (fst k) /\ occurs l (snd k)) /\ NoDup (keys c).
  Proof.
    induction l as [|t l IH] using rev_ind.
    - cbn. split; [|split; [tauto|constructor]]. intros a b. apply has_size_empty.
      intros [[k i] j] (t & E & _). destruct k; discriminate.
    - rewrite fold_left_app; cbn [fold_left]. set (c := fold_left (follows_trace ord) l []) in *. cbn in IH.
      destruct IH as (Hval & Hk & Hn). unfold follows_trace.
      destruct (follows_events_inv c (events t)) as (_ & _ & Hv & Hks & Hkn). split; [|split].
      + intros a b. destruct (Hv a b) as (n & -> & Hs).
        eapply has_size_ext; [|apply has_size_or with (Q := fun '(k, i, j) => k = length l /\ pairs (events t) a b (i, j)); [apply Hval| |]].
        * intros [[k i] j]. split.
          -- intros [(t' & E & Hp)|(-> & Hp)].
             ++ exists t'. rewrite nth_error_app1 by (eapply nth_error_Some_lt; eauto). auto.
             ++ exists t. rewrite nth_error_app2, Nat.sub_diag by lia. auto.
          -- intros (t' & E & Hp). pose proof (nth_error_Some_lt _ _ _ E) as Hl. rewrite app_length in Hl; cbn in Hl.
             destruct (Nat.eq_dec k (length l)) as [->|Hne].
             ++ right. rewrite nth_error_app2, Nat.sub_diag in E by lia. injection E as <-. auto.
             ++ left. rewrite nth_error_app1 in E by lia. exists t'. auto.
        * apply (has_size_image _ _ (fun ij => (length l, fst ij, snd ij)) _ Hs).
          -- intros [i j] [i' j'] _ _ E. cbn in E. congruence.
          -- intros [[k i] j]. split.
             ++ intros (-> & Hp). exists (i, j). auto.
             ++ intros ([i' j'] & Hp & E). cbn in E. injection E as <- <- <-. auto.
        * intros [[k i] j] (t' & E & _) (-> & _). apply nth_error_Some_lt in E. lia.
      + intros k Hin.
        assert (Hmono : forall a, occurs l a -> occurs (l ++ [t]) a).
        { intros a (t' & e & Ht & He & Ea). exists t', e. rewrite in_app_iff. auto. }
        assert (Hnew : forall a, In a (map activity (events t)) -> occurs (l ++ [t]) a).
        { intros a Ha. apply in_map_iff in Ha. destruct Ha as (e & Ea & He). exists t, e. rewrite in_app_iff. cbn. auto. }
        destruct (Hks k Hin) as [Hc|[H1 H2]].
        * destruct (Hk k Hc). auto.
        * auto.
      + auto.
  Qed.

  Lemma fill_row a s (c : dict (A * A) nat) :
    let r := fold_left (fun c b => if dict_has (a, b) c then c else dict_set (a, b) 0 c) s c in
    (forall k, val r k = val c k) /\
    (forall k, In k (keys r) <-> In k (keys c) \/ (fst k = a /\ In (snd k) s)) /\
    (NoDup (keys c) -> NoDup (keys r)).
  Proof.
    revert c; induction s as [|b s IH]; intros c; cbn [fold_left].
    - split; [auto|]. split; [|auto]. intros k; cbn. tauto.
    - set (c' := if dict_has (a, b) c then c else dict_set (a, b) 0 c).
      assert (Hc' : (forall k, val c' k = val c k) /\ (forall k, In k (keys c') <-> In k (keys c) \/ k = (a, b)) /\
                    (NoDup (keys c) -> NoDup (keys c'))).
      { unfold c'. destruct (dict_has (a, b) c) eqn:Eh.
        - apply dict_has_In in Eh. split; [auto|]. split; [|auto]. intros k. split; [auto|]. intros [|Ek]; [auto|]. rewrite Ek; auto.
        - split; [|split].
          + intros k. unfold val. rewrite dict_get_set. destruct (eqb_ok k (a, b)) as [->|]; auto.
            unfold dict_has in Eh. destruct (dict_get (a, b) c); congruence.
          + intros k. rewrite keys_dict_set_In. tauto.
          + apply keys_dict_set_NoDup. }
      destruct Hc' as (Hv & Hk & Hn). destruct (IH c') as (Hv' & Hk' & Hn'). split; [|split].
      + intros k. rewrite Hv', Hv. auto.
      + intros [k1 k2]. rewrite Hk', Hk. cbn. split.
        * intros [[|E]|[-> ]]; auto. injection E as -> ->. auto.
        * intros [|[-> [->|]]]; auto.
      + auto.
  Qed.
  Lemma fill_all s1 s (c : dict (A * A) nat) :
    let r := fold_left (fun c a => fold_left (fun c b => if dict_has (a, b) c then c else dict_set (a, b) 0 c) s c) s1 c in
    (forall k, val r k = val c k) /\
    (forall k, In k (keys r) <-> In k (keys c) \/ (In (fst k) s1 /\ In (snd k) s)) /\
    (NoDup (keys c) -> NoDup (keys r)).
  Proof.
    revert c; induction s1 as [|a s1 IH]; intros c; cbn [fold_left].
    - split; [auto|]. split; [|auto]. intros k; cbn. tauto.
    - match goal with |- context [fold_left ?f s1 ?c'] => set (c1 := c') end.
      destruct (fill_row a s c) as (Hv & Hk & Hn). fold c1 in Hv, Hk, Hn.
      destruct (IH c1) as (Hv' & Hk' & Hn'). split; [|split].
      + intros k. rewrite Hv', Hv. auto.
      + intros k. rewrite Hk', Hk. cbn. intuition.
      + auto.
  Qed.

  Lemma count_follows_ok (l : log) :
    NoDup (keys (count_follows ord l)) /\
    forall a b n, dict_get (a, b) (count_follows ord l) = Some n <->
      occurs l a /\ occurs l b /\ has_size (log_pairs l a b) n.
  Proof.
    unfold count_follows. set (c := fold_left (follows_trace ord) l []).
    destruct (follows_log_inv l) as (Hv & Hk & Hn). fold c in Hv, Hk, Hn.
    destruct (fill_all (ord (compute_activity_set l)) (ord (compute_activity_set l)) c) as (Hv' & Hk' & Hn').
    match goal with |- NoDup (keys ?r0) /\ _ => set (r := r0) in * end.
    assert (Hocc : forall a, In a (ord (compute_activity_set l)) <-> occurs l a).
    { intros a. destruct (activity_set_ok l) as [_ Hs]. unfold occurs. rewrite <- Hs.
      split; apply Permutation_in; [|symmetry]; apply ord_perm. }
    split; [auto|]. intros a b n.
    assert (Hin : In (a, b) (keys r) <-> occurs l a /\ occurs l b).
    { rewrite Hk'. cbn. rewrite !Hocc. split; [|auto]. intros [Hin|]; auto. apply (Hk (a, b)); auto. }
    specialize (Hv a b). rewrite <- Hv' in Hv. unfold val in Hv.
    destruct (dict_get (a, b) r) as [m|] eqn:E.
    - pose proof (dict_get_Some_key _ _ _ E) as Hkey. apply Hin in Hkey. split.
      + intros Em. injection Em as <-. tauto.
      + intros (_ & _ & Hs). f_equal. exact (has_size_unique _ _ _ Hv Hs).
    - apply dict_get_None in E. split; [discriminate|]. intros (Ha & Hb & _). exfalso. apply E, Hin. auto.
  Qed.
End EL.

(** ** splits *)
Section Split.
  Context {A V I : Type}.
  Notation trace := (trace A V I).
  Notation log := (log A V I).

  Lemma train_test_ok (rnd : Q -> Q) (shuffle : list trace -> list trace) (p : Q) (l : log) :
    (forall x y, (x <= y)%Q -> (rnd x <= rnd y)%Q) ->
    (forall n, (Z.abs n <= Z.max 1 (Z.of_nat (length l)))%Z -> (rnd (inject_Z n) == inject_Z n)%Q) ->
    (forall l, Permutation (shuffle l) l) ->
    (0 <= p)%Q -> (p <= 1)%Q ->
    exists train test, train_test_split rnd shuffle p l = Ok (train, test) /\
      train ++ test = shuffle l /\ Permutation (train ++ test) l /\
      Z.of_nat (length train) = Qfloor (rnd (inject_Z (Z.of_nat (length l)) * rnd (1 - p))%Q).
  Proof.
    intros Hmono Hint Hsh H0 H1. unfold train_test_split.
    rewrite (proj2 (Qle_bool_iff 0 p)), (proj2 (Qle_bool_iff p 1)) by auto. cbn [negb andb].
    assert (El : length (shuffle l) = length l) by (apply Permutation_length, Hsh). rewrite El.
    set (n := length l) in *.
    set (q := rnd (inject_Z (Z.of_nat n) * rnd (1 - p))%Q).
    assert (Hr1 : (rnd (1 - p) <= 1)%Q).
    { apply Qle_trans with (rnd (inject_Z 1)); [apply Hmono; change (inject_Z 1) with 1%Q; lra|].
      rewrite (Hint 1%Z) by lia. apply Qle_refl. }
    assert (Hr0 : (0 <= rnd (1 - p))%Q).
    { apply Qle_trans with (rnd (inject_Z 0)); [rewrite (Hint 0%Z) by lia; apply Qle_refl|].
      apply Hmono. change (inject_Z 0) with 0%Q. lra. }
    assert (Hn0 : (0 <= inject_Z (Z.of_nat n))%Q).
    { change 0%Q with (inject_Z 0). rewrite <- Zle_Qle. lia. }
    assert (Hq0 : (0 <= q)%Q).
    { apply Qle_trans with (rnd (inject_Z 0)); [rewrite (Hint 0%Z) by lia; apply Qle_refl|].
      apply Hmono. change (inject_Z 0) with 0%Q. apply Qmult_le_0_compat; auto. }
    assert (Hqn : (q <= inject_Z (Z.of_nat n))%Q).
    { apply Qle_trans with (rnd (inject_Z (Z.of_nat n))); [|rewrite (Hint (Z.of_nat n)) by lia; apply Qle_refl].
      apply Hmono. apply Qle_trans with (1 * inject_Z (Z.of_nat n))%Q; [|rewrite Qmult_1_l; apply Qle_refl].
      rewrite (Qmult_comm (inject_Z (Z.of_nat n))). apply Qmult_le_compat_r; auto. }
    assert (Hf0 : (0 <= Qfloor q)%Z) by (change 0%Z with (Qfloor 0); apply Qfloor_resp_le; auto).
    assert (Hfn : (Qfloor q <= Z.of_nat n)%Z).
    { rewrite <- (Qfloor_Z (Z.of_nat n)). apply Qfloor_resp_le; auto. }
    eexists _, _. split; [reflexivity|]. unfold slice_to, slice_from.
    destruct (Z.ltb_spec (Qfloor q) 0); [lia|]. rewrite firstn_skipn.
    split; [auto|]. split; [apply Hsh|]. rewrite firstn_length, El. fold n. lia.
  Qed.
  Lemma train_test_range (rnd : Q -> Q) (shuffle : list trace -> list trace) (p : Q) (l : log) :
    (p < 0 \/ 1 < p)%Q -> train_test_split rnd shuffle p l = Err ValueError.
  Proof.
    intros Hp. unfold train_test_split.
    destruct (Qle_bool 0 p) eqn:E0; [|reflexivity]. destruct (Qle_bool p 1) eqn:E1; [|reflexivity].
    apply Qle_bool_iff in E0, E1. lra.
  Qed.
  (** exact arithmetic: the test part has at least the demanded proportion, and
      not a whole trace more *)
  Lemma train_test_size (shuffle : list trace -> list trace) (p : Q) (l : log) train test :
    (forall l, Permutation (shuffle l) l) -> (0 <= p)%Q -> (p <= 1)%Q ->
    train_test_split (fun x => x) shuffle p l = Ok (train, test) ->
    let n := inject_Z (Z.of_nat (length l)) in
    (p * n <= inject_Z (Z.of_nat (length test)) < p * n + 1)%Q.
  Proof.
    intros Hsh H0 H1 E n.
    destruct (train_test_ok (fun x => x) shuffle p l) as (tr & te & E' & _ & Hp & Hl); auto; [reflexivity|].
    rewrite E in E'. injection E' as <- <-. apply Permutation_length in Hp. rewrite app_length in Hp.
    pose proof (Qfloor_le (n * (1 - p))) as Hfl. pose proof (Qlt_floor (n * (1 - p))) as Hfu.
    unfold n in *. rewrite <- Hl in *.
    assert (En : (inject_Z (Z.of_nat (length l)) == inject_Z (Z.of_nat (length train)) + inject_Z (Z.of_nat (length test)))%Q).
    { rewrite <- inject_Z_plus, <- Hp. rewrite Nat2Z.inj_add. reflexivity. }
    rewrite inject_Z_plus in Hfu. cbn in Hfu. change (inject_Z 1) with 1%Q in Hfu. split; nra.
  Qed.

  (** k_folds *)
  Lemma kfold_sizes_sum n k : 0 < k -> list_sum (kfold_sizes n k) = n.
  Proof.
    intros Hk. unfold kfold_sizes.
    assert (Hg : forall m a c, list_sum (map (fun i => a + if i <? c then 1 else 0) (seq 0 m)) = m * a + Nat.min m c).
    { induction m as [|m IH]; intros a c; [reflexivity|]. rewrite seq_S, map_app. unfold list_sum in *.
      rewrite fold_right_app. cbn [map fold_right]. 
      assert (Hf : forall l x, fold_right Nat.add x l = fold_right Nat.add 0 l + x) by (induction l as [|y l IHl]; intros x; cbn; auto; rewrite IHl; lia).
      rewrite Hf, IH. cbn [Nat.add Nat.mul]. destruct (Nat.ltb_spec m c); lia. }
    rewrite Hg. pose proof (Nat.div_mod n k ltac:(lia)). pose proof (Nat.mod_upper_bound n k ltac:(lia)).
    rewrite Nat.min_r by lia. lia.
  Qed.
  Lemma kfold_tests_concat start sizes : concat (kfold_tests start sizes) = seq start (list_sum sizes).
  Proof.
    revert start; induction sizes as [|s sizes IH]; intros start; cbn; auto.
    rewrite IH, seq_app. reflexivity.
  Qed.
  Lemma kfold_tests_length start sizes : length (kfold_tests start sizes) = length sizes.
  Proof. revert start; induction sizes; intros; cbn; auto. Qed.
  Lemma kfold_tests_sizes start sizes : map (@length nat) (kfold_tests start sizes) = sizes.
  Proof. revert start; induction sizes; intros; cbn; auto. rewrite seq_length. f_equal; auto. Qed.

  Lemma pick_ok (l : log) is : (forall i, In i is -> i < length l) ->
    exists ts, pick_traces l is = Ok ts /\ map Some ts = map (nth_error l) is.
  Proof.
    induction is as [|i is IH]; intros Hi; cbn.
    - exists []. auto.
    - destruct (nth_error_lt l i) as [t Et]; [apply Hi; cbn; auto|].
      destruct IH as (ts & E & Em); [intros; apply Hi; cbn; auto|].
      unfold pick_traces in E. rewrite Et, E. exists (t :: ts). split; [reflexivity|]. cbn [map]. congruence.
  Qed.
  Lemma map_Some_inj {X} (l m : list X) : map Some l = map Some m -> l = m.
  Proof. revert m; induction l as [|x l IH]; intros [|y m] E; try discriminate; auto. cbn in E. injection E as -> E. f_equal; auto. Qed.
  Lemma map_nth_error_seq {X} (l : list X) : map (nth_error l) (seq 0 (length l)) = map Some l.
  Proof.
    induction l as [|x l IH]; cbn; auto. f_equal. rewrite <- IH, <- seq_shift, map_map. auto.
  Qed.

  Lemma filter_all_true {X} (f : X -> bool) l : (forall x, In x l -> f x = true) -> filter f l = l.
  Proof. induction l as [|x l IH]; cbn; intros Hf; auto. rewrite Hf by auto. f_equal; auto. Qed.
  Lemma filter_all_false {X} (f : X -> bool) l : (forall x, In x l -> f x = false) -> filter f l = [].
  Proof. induction l as [|x l IH]; cbn; intros Hf; auto. rewrite Hf by auto. auto. Qed.
  Lemma NoDup_app_inv {X} (u v : list X) : NoDup (u ++ v) -> NoDup v /\ forall x, In x u -> ~ In x v.
  Proof.
    induction u as [|y u IH]; cbn; intros Hn; [split; [auto|intros ? []]|].
    inversion Hn as [|? ? Hni Hn']; subst. destruct (IH Hn') as [Hv Hd]. split; auto.
    intros x [->|Hx]; auto. intros Hx. apply Hni, in_or_app; auto.
  Qed.
  Lemma filter_others {X} `{Eq X} (bs : list (list X)) i b : NoDup (concat bs) -> nth_error bs i = Some b ->
    filter (fun x => negb (mem x b)) (concat bs) = others bs i.
  Proof.
    intros Hn Hi. unfold others. destruct (nth_error_split bs i Hi) as (l1 & l2 & -> & <-).
    rewrite concat_app in *; cbn [concat] in *.
    rewrite firstn_app, firstn_all, Nat.sub_diag. cbn [firstn]. rewrite app_nil_r.
    replace (skipn (S (length l1)) (l1 ++ b :: l2)) with l2.
    2:{ rewrite skipn_app, skipn_all2 by lia. replace (S (length l1) - length l1) with 1 by lia. reflexivity. }
    destruct (NoDup_app_inv _ _ Hn) as [Hn2 Hd]. destruct (NoDup_app_inv _ _ Hn2) as [_ Hd'].
    assert (Hd1 : forall x, In x (concat l1) -> ~ In x b) by (intros x Hx Hb; apply (Hd x Hx), in_or_app; auto).
    assert (Hd2 : forall x, In x (concat l2) -> ~ In x b) by (intros x Hx Hb; apply (Hd' x Hb); auto).
    rewrite !filter_app. rewrite (filter_all_true _ (concat l1)), (filter_all_false _ b), (filter_all_true _ (concat l2)); auto.
    - intros x Hx. rewrite (proj2 (mem_not_In _ _) (Hd2 x Hx)). auto.
    - intros x Hx. rewrite (proj2 (mem_In _ _) Hx). auto.
    - intros x Hx. rewrite (proj2 (mem_not_In _ _) (Hd1 x Hx)). auto.
  Qed.
  Lemma mapM_Forall2 {X Y} (f : X -> result Y) l r : mapM f l = Ok r -> Forall2 (fun x y => f x = Ok y) l r.
  Proof.
    revert r; induction l as [|x l IH]; intros r; cbn.
    - intros E; injection E as <-; constructor.
    - destruct (f x) as [y|] eqn:Ef; [|discriminate]. cbn. destruct (mapM f l) as [ys|]; [|discriminate].
      cbn. intros E; injection E as <-. constructor; auto.
  Qed.
  Lemma mapM_total {X Y} (f : X -> result Y) l : (forall x, In x l -> exists y, f x = Ok y) -> exists r, mapM f l = Ok r.
  Proof.
    induction l as [|x l IH]; intros Hf; cbn; eauto.
    destruct (Hf x) as [y Ey]; [cbn; auto|]. destruct IH as [r Er]; [intros; apply Hf; cbn; auto|].
    rewrite Ey, Er. cbn. eauto.
  Qed.
  Lemma concat_map_map {X Y} (f : X -> Y) (bs : list (list X)) : concat (map (map f) bs) = map f (concat bs).
  Proof. symmetry. apply concat_map. Qed.

  Lemma k_folds_ok (k : Z) (l : log) : (2 <= k <= Z.of_nat (length l))%Z ->
    exists folds, k_folds k l = Ok folds /\ Z.of_nat (length folds) = k /\
      concat (map snd folds) = l /\
      (forall i train test, nth_error folds i = Some (train, test) ->
         train = others (map snd folds) i) /\
      (forall f, In f folds -> length l / Z.to_nat k <= length (snd f) <= length l / Z.to_nat k + 1).
  Proof.
    intros Hk. unfold k_folds. destruct (Z.ltb_spec k 2); [lia|].
    unfold kfold_split. destruct (Nat.ltb_spec (length l) (Z.to_nat k)); [lia|]. cbn [bind].
    set (kk := Z.to_nat k) in *. set (n := length l) in *.
    set (tests := kfold_tests 0 (kfold_sizes n kk)).
    assert (Hc : concat tests = seq 0 n).
    { unfold tests. rewrite kfold_tests_concat, kfold_sizes_sum; auto; lia. }
    assert (Hlen : length tests = kk).
    { unfold tests. rewrite kfold_tests_length. unfold kfold_sizes. rewrite map_length, seq_length. auto. }
    set (ixs := map (fun test => (filter (fun i => negb (mem i test)) (seq 0 n), test)) tests).
    set (g := fun f : list nat * list nat => do train <- pick_traces l (fst f); do test <- pick_traces l (snd f); Ok (train, test)).
    assert (Hin : forall test i, In test tests -> In i test -> i < n).
    { intros test i Ht Hi. assert (Hs : In i (seq 0 n)) by (rewrite <- Hc; apply in_concat; eauto). apply in_seq in Hs. lia. }
    destruct (mapM_total g ixs) as [folds E].
    { intros f Hf. unfold ixs in Hf. apply in_map_iff in Hf. destruct Hf as (test & <- & Ht). unfold g. cbn [fst snd].
      destruct (pick_ok l (filter (fun i => negb (mem i test)) (seq 0 n))) as (a & Ea & _).
      { intros i Hi. apply filter_In in Hi. destruct Hi as [Hi _]. apply in_seq in Hi. fold n. lia. }
      destruct (pick_ok l test) as (b & Eb & _); [intros; eapply Hin; eauto|].
      rewrite Ea, Eb. cbn. eauto. }
    rewrite E. exists folds. split; [reflexivity|].
    apply mapM_Forall2 in E. assert (El : length ixs = length folds) by (clear - E; induction E; cbn; auto).
    assert (Hixl : length ixs = kk) by (unfold ixs; rewrite map_length; auto).
    split; [unfold kk in *; lia|].
    assert (Hf : forall i fold, nth_error folds i = Some fold -> exists test, nth_error tests i = Some test /\
       map Some (snd fold) = map (nth_error l) test /\ map Some (fst fold) = map (nth_error l) (others tests i)).
    { intros i [train test'] Ei. cbn [fst snd].
      assert (Hx : exists ix, nth_error ixs i = Some ix /\ g ix = Ok (train, test')).
      { clear - E Ei. revert i Ei. induction E; intros [|i] Ei; try discriminate; cbn in *; eauto. injection Ei as ->. eauto. }
      destruct Hx as (ix & Eix & Eg). unfold ixs in Eix. rewrite nth_error_map in Eix.
      destruct (nth_error tests i) as [test|] eqn:Et; [|discriminate]. cbn in Eix. injection Eix as <-.
      exists test. split; auto. unfold g in Eg. cbn [fst snd] in Eg. rewrite <- Hc in Eg.
      rewrite (filter_others tests i test) in Eg; [|rewrite Hc; apply seq_NoDup|auto].
      destruct (pick_ok l (others tests i)) as (a & Ea & Ha).
      { intros j Hj. unfold others in Hj. rewrite in_app_iff, !in_concat in Hj.
        destruct Hj as [(b & Hb & Hj)|(b & Hb & Hj)]; apply (Hin b j); auto.
        - rewrite <- (firstn_skipn i tests). apply in_or_app; auto.
        - rewrite <- (firstn_skipn (S i) tests). apply in_or_app; auto. }
      destruct (pick_ok l test) as (b & Eb & Hb).
      { intros j Hj. apply (Hin test j); auto. eapply nth_error_In; eauto. }
      rewrite Ea, Eb in Eg. cbn in Eg. injection Eg as <- <-. auto. }
    assert (Hsnd : map (map Some) (map snd folds) = map (map (nth_error l)) tests).
    { apply nth_error_ext. intros i. rewrite !nth_error_map.
      destruct (nth_error folds i) as [fold|] eqn:Ei.
      - destruct (Hf i fold Ei) as (test & Et & Es & _). rewrite Et. cbn. rewrite Es. auto.
      - apply nth_error_None in Ei. assert (Et : nth_error tests i = None) by (apply nth_error_None; lia). rewrite Et. auto. }
    split; [|split].
    - apply map_Some_inj. rewrite <- concat_map_map, Hsnd, concat_map_map, Hc. apply map_nth_error_seq.
    - intros i train test Ei. destruct (Hf i _ Ei) as (tt & Et & _ & Eo). cbn in Eo.
      apply map_Some_inj. rewrite Eo. unfold others. rewrite !map_app, <- !concat_map_map, <- !firstn_map, <- !skipn_map, Hsnd. auto.
    - intros f Hfi. apply In_nth_error in Hfi. destruct Hfi as [i Ei]. destruct (Hf i f Ei) as (test & Et & Es & _).
      assert (Els : length (snd f) = length test) by (apply (f_equal (@length _)) in Es; rewrite !map_length in Es; auto).
      rewrite Els. assert (Hs : nth_error (kfold_sizes n kk) i = Some (length test)).
      { unfold tests in Et. rewrite <- (kfold_tests_sizes 0 (kfold_sizes n kk)), nth_error_map, Et. auto. }
      unfold kfold_sizes in Hs. apply nth_error_In, in_map_iff in Hs. destruct Hs as (j & <- & _).
      destruct (j <? n mod kk); lia.
  Qed.
  Lemma k_folds_range (k : Z) (l : log) : (k < 2 \/ Z.of_nat (length l) < k)%Z -> k_folds k l = Err ValueError.
  Proof.
    intros Hk. unfold k_folds. destruct (Z.ltb_spec k 2); [auto|].
    unfold kfold_split. destruct (Nat.ltb_spec (length l) (Z.to_nat k)); [auto|lia].
  Qed.
End Split.
