(** Transaction databases (C64) *)
From Coq Require Import Sorted Permutation String.
From Verif.Model Require Import Base Sort Transactions.
From Verif.Spec Require Import Logs TransactionSpec.
From Verif.Lib Require Import ListLib DictLib SortLib.
From Verif.Proofs Require Import Selection PrefixTree PetriC ClusteringA ParallelB DatasetC.
Open Scope list_scope.
Open Scope nat_scope.

Lemma dict_of_id {K V} `{Eq K} (l : list (K * V)) : NoDup (keys l) -> dict_of l = l.
Proof.
  intros Hn. unfold dict_of. change l with ([] ++ l) at 2. assert (Hd : NoDup (keys ([] ++ l))) by auto. clear Hn. revert Hd.
  generalize (@nil (K * V)). induction l as [|[k v] l IH]; intros d Hd; cbn [fold_left]; [rewrite app_nil_r; auto|].
  rewrite set_fresh.
  - change ((k, v) :: l) with ([(k, v)] ++ l) in *. rewrite app_assoc in *. apply IH. auto.
  - rewrite keys_app in Hd. cbn [keys map fst] in Hd. apply NoDup_remove_2 in Hd. intros Hk. apply Hd. apply in_or_app. auto.
Qed.
Lemma sort_unique {X} (R : X -> X -> Prop) (l m : list X) :
  (forall a b, In a l -> In b l -> R a b -> R b a -> a = b) ->
  StronglySorted R l -> StronglySorted R m -> Permutation l m -> l = m.
Proof.
  intros Ha Hl. revert m. induction Hl as [|a l Hl IH Hal]; intros m Hm Hp.
  - apply Permutation_nil in Hp. auto.
  - destruct Hm as [|b m Hm Hbm]; [symmetry in Hp; apply Permutation_nil in Hp; discriminate|].
    assert (a = b).
    { assert (Hb : In b (a :: l)) by (eapply Permutation_in; [symmetry; exact Hp|cbn; auto]).
      assert (Hin : In a (b :: m)) by (eapply Permutation_in; [exact Hp|cbn; auto]).
      destruct Hb as [|Hb]; [auto|]. destruct Hin as [|Hin]; [auto|].
      rewrite Forall_forall in Hal, Hbm. apply Ha; cbn; auto. }
    subst b. f_equal. apply IH; [intros; apply Ha; cbn; auto|auto|]. eapply Permutation_cons_inv; eauto.
Qed.
Lemma keys_combine {K V} (k : list K) (v : list V) : length k = length v -> keys (combine k v) = k.
Proof. revert v; induction k as [|a k IH]; intros [|b v]; cbn; try discriminate; auto. intros E. f_equal. apply IH. congruence. Qed.
Lemma values_combine {K V} (k : list K) (v : list V) : length k = length v -> values (combine k v) = v.
Proof. revert v; induction k as [|a k IH]; intros [|b v]; cbn; try discriminate; auto. intros E. f_equal. apply IH. congruence. Qed.
Lemma seq_sorted n : forall s, StronglySorted (fun a b => (a <=? b) = true) (seq s n).
Proof.
  induction n as [|n IH]; intros s; cbn [seq]; constructor; auto. apply Forall_forall. intros x Hx. apply in_seq in Hx. apply Nat.leb_le. lia.
Qed.
Lemma swap_combine {K V} (k : list K) (v : list V) : map (fun '(a, b) => (b, a)) (combine k v) = combine v k.
Proof. revert v; induction k as [|a k IH]; intros [|b v]; cbn; auto. f_equal. auto. Qed.
Lemma sorted_snoc {X} (R : X -> X -> Prop) l x : StronglySorted R l -> Forall (fun y => R y x) l -> StronglySorted R (l ++ [x]).
Proof.
  induction 1 as [|a l Hl IH Ha]; cbn; intros Hx; [repeat constructor|]. inversion Hx; subst. constructor; auto.
  apply Forall_app. split; auto.
Qed.
Lemma sorted_rev {X} (R : X -> X -> Prop) l : StronglySorted R l -> StronglySorted (fun a b => R b a) (rev l).
Proof.
  induction 1 as [|a l Hl IH Ha]; cbn; [constructor|]. apply sorted_snoc; auto. apply Forall_rev. auto.
Qed.
Lemma combine_sorted {K} (k : list K) : forall s, StronglySorted (fun a b => (snd a <=? snd b) = true) (combine k (seq s (length k))).
Proof.
  induction k as [|a k IH]; intros s; cbn [length seq combine]; constructor; auto.
  apply Forall_forall. intros [x i] Hx. apply in_combine_r in Hx. apply in_seq in Hx. apply Nat.leb_le. cbn. lia.
Qed.
Lemma combine_seq_inj {K} (k : list K) : forall s a b i, In (a, i) (combine k (seq s (length k))) -> In (b, i) (combine k (seq s (length k))) -> a = b.
Proof.
  induction k as [|x k IH]; intros s a b i; cbn [length seq combine In]; [tauto|].
  intros [Q|Ha] [Q'|Hb]; try congruence.
  - injection Q as -> <-. apply in_combine_r, in_seq in Hb. lia.
  - injection Q' as -> <-. apply in_combine_r, in_seq in Ha. lia.
  - eapply IH; eauto.
Qed.
Lemma get_combine {K V} `{Eq K} (k : list K) : forall (v : list V) j n, NoDup k -> length v = length k ->
  nth_error k j = Some n -> dict_get n (combine k v) = nth_error v j.
Proof.
  induction k as [|c k IH]; intros [|x v] j n Hn Hl Ej; try discriminate; [destruct j; discriminate|].
  inversion Hn; subst. destruct j; cbn [nth_error combine dict_get] in *.
  - injection Ej as ->. rewrite eqb_refl. auto.
  - destruct (eqb_ok n c) as [->|]; [|apply IH; auto]. apply nth_error_In in Ej. contradiction.
Qed.
Lemma Forall2_rev {X Y} (R : X -> Y -> Prop) l m : Forall2 R l m -> Forall2 R (rev l) (rev m).
Proof. induction 1; cbn; [constructor|]. apply Forall2_app; auto. Qed.
Lemma fold_concat {X Y} (f : Y -> X -> Y) (l : list (list X)) : forall y,
  fold_left (fun y t => fold_left f t y) l y = fold_left f (concat l) y.
Proof. induction l as [|t l IH]; intros y; cbn [fold_left concat]; auto. rewrite fold_left_app. auto. Qed.

Section T.
  Context {I : Type} `{HI : Eq I}.
  Implicit Types db : list (list I).

  Lemma itemset_eq db : get_itemset db = set_of (concat db).
  Proof. unfold get_itemset, set_of. rewrite (fold_concat (fun s item => set_add item s)). auto. Qed.
  Lemma occurs_concat db i : occurs db i <-> In i (concat db).
  Proof. unfold occurs. rewrite in_concat. split; intros (t & ? & ?); eauto. Qed.
  Lemma itemset_In db i : In i (get_itemset db) <-> occurs db i.
  Proof. rewrite itemset_eq, set_of_In, occurs_concat. tauto. Qed.
  Lemma itemset_NoDup db : NoDup (get_itemset db).
  Proof. rewrite itemset_eq. apply set_of_NoDup. Qed.

  Let step (c : dict I nat) item := dict_set item (match dict_get item c with Some n => S n | None => 1 end) c.
  Lemma counts_keys_flat l : forall c, keys (fold_left step l c) = fold_left (fun s x => set_add x s) l (keys c).
  Proof.
    induction l as [|x l IH]; intros c; cbn [fold_left]; auto. rewrite IH. unfold step. rewrite keys_dict_set. auto.
  Qed.
  Lemma counts_keys db : keys (count_item_occurence db) = get_itemset db.
  Proof. unfold count_item_occurence. rewrite (fold_concat step), counts_keys_flat, itemset_eq. auto. Qed.
  Lemma counts_flat l : forall c i, match dict_get i (fold_left step l c) with Some n => n | None => 0 end =
    length (filter (eqb i) l) + match dict_get i c with Some n => n | None => 0 end.
  Proof.
    induction l as [|x l IH]; intros c i; cbn [fold_left filter]; auto. rewrite IH. unfold step. rewrite dict_get_set.
    destruct (eqb_ok i x) as [->|Hne]; cbn [length]; [destruct (dict_get x c); lia|]. auto.
  Qed.
  Lemma filter_eqb_NoDup (t : list I) i : NoDup t -> length (filter (eqb i) t) = if mem i t then 1 else 0.
  Proof.
    induction 1 as [|x t Hx Ht IH]; cbn [filter mem existsb]; auto. fold (mem i t). destruct (eqb_ok i x) as [->|Hne]; cbn [length orb]; auto.
    rewrite IH. rewrite (proj2 (mem_not_In x t)); auto.
  Qed.
  Lemma counts_get db i n : Forall (@NoDup I) db ->
    dict_get i (count_item_occurence db) = Some n <-> occurs db i /\ n = length (filter (mem i) db).
  Proof.
    intros Hn. pose proof (counts_flat (concat db) [] i) as E. cbn [dict_get] in E. rewrite Nat.add_0_r in E.
    assert (E2 : length (filter (eqb i) (concat db)) = length (filter (mem i) db)).
    { clear E. induction Hn as [|t db Ht Hn IH]; cbn [concat filter]; auto. rewrite filter_app, app_length, IH, filter_eqb_NoDup by auto.
      destruct (mem i t); cbn [length]; lia. }
    rewrite E2 in E. assert (Ek : occurs db i <-> In i (keys (count_item_occurence db))) by (rewrite counts_keys, itemset_In; tauto).
    rewrite Ek. unfold count_item_occurence in *. rewrite (fold_concat step) in *. split.
    - intros Q. rewrite Q in E. split; auto. eapply dict_get_Some_key; eauto.
    - intros [Hk ->]. destruct (dict_get_key _ _ Hk) as [m Q]. rewrite Q in *. congruence.
  Qed.

  Lemma same_items_ok (t u : list I) : same_items t u = true <-> same_set t u.
  Proof.
    unfold same_items, same_set. rewrite andb_true_iff, !forallb_forall. split.
    - intros [H1 H2] i. split; intros Hi; apply mem_In; auto.
    - intros Hs. split; intros i Hi; apply mem_In; apply Hs; auto.
  Qed.
  Lemma unique_ok db : distinct_transactions db (get_nr_of_unique_transactions db).
  Proof.
    unfold get_nr_of_unique_transactions, distinct_transactions. eexists. split; [reflexivity|].
    assert (G : forall l s, (forall i j t u, nth_error s i = Some t -> nth_error s j = Some u -> same_set t u -> i = j) ->
      let s' := fold_left (fun s t => if existsb (same_items t) s then s else s ++ [t]) l s in
      (forall t, In t s' -> In t s \/ In t l) /\ (forall t, In t s \/ In t l -> exists u, In u s' /\ same_set t u) /\
      (forall i j t u, nth_error s' i = Some t -> nth_error s' j = Some u -> same_set t u -> i = j)).
    { clear db. induction l as [|t l IH]; intros s Hs; cbn [fold_left].
      - split; [auto|]. split; [|auto]. intros t [Ht|[]]. exists t. split; auto. intros i; tauto.
      - destruct (existsb (same_items t) s) eqn:E.
        + destruct (IH s Hs) as (H1 & H2 & H3). split; [intros u Hu; destruct (H1 u Hu); cbn; auto|]. split; [|auto].
          intros u [Hu|[<-|Hu]]; [auto| |auto]. apply existsb_exists in E. destruct E as (v & Hv & E). apply same_items_ok in E.
          destruct (H2 v (or_introl Hv)) as (w & Hw & Ew). exists w. split; auto. intros i. rewrite (E i), (Ew i). tauto.
        + destruct (IH (s ++ [t])) as (H1 & H2 & H3).
          { assert (Hno : forall u, In u s -> ~ same_set t u).
            { intros u Hu Q. apply same_items_ok in Q. rewrite (proj2 (existsb_exists _ s)) in E; [discriminate|eauto]. }
            assert (Hcase : forall i u, nth_error (s ++ [t]) i = Some u -> (i < length s /\ nth_error s i = Some u) \/ (i = length s /\ u = t)).
            { intros i u Q. destruct (Nat.lt_ge_cases i (length s)); [left; rewrite nth_error_app1 in Q; auto|].
              rewrite nth_error_app2 in Q by auto. destruct (i - length s) eqn:Ei; cbn in Q; [injection Q as <-; right; split; [lia|auto]|destruct n; discriminate]. }
            intros i j u v Eu Ev Q. apply Hcase in Eu, Ev. destruct Eu as [[Hi Eu]|[-> ->]], Ev as [[Hj Ev]|[-> ->]]; auto.
            - eapply Hs; eauto.
            - exfalso. apply (Hno u); [eapply nth_error_In; eauto|]. intros x. symmetry. apply Q.
            - exfalso. apply (Hno v); [eapply nth_error_In; eauto|]. auto. }
          split; [|split; [|auto]].
          * intros u Hu. destruct (H1 u Hu) as [Hu'|]; [|cbn; auto]. rewrite in_app_iff in Hu'. cbn in *. tauto.
          * intros u Hu. apply H2. rewrite in_app_iff. cbn in *. tauto. }
    destruct (G db []) as (H1 & H2 & H3); [intros [|]; discriminate|]. split; [intros t Ht; destruct (H1 t Ht) as [[]|]; auto|]. split; auto.
  Qed.
  Lemma nr_items_ok db : get_nr_of_items_in_transactions db = length (concat db).
  Proof.
    unfold get_nr_of_items_in_transactions. change (length (concat db)) with (0 + length (concat db)). generalize 0.
    induction db as [|t db IH]; intros n; cbn [fold_left concat length]; [lia|]. rewrite IH, app_length. lia.
  Qed.
  Lemma max_len_ok db : db <> [] -> exists m, get_maximum_transaction_length db = Ok m /\ maximum (map (@length I) db) m.
  Proof.
    destruct db as [|t db]; [congruence|]. intros _. cbn [get_maximum_transaction_length]. eexists. split; [reflexivity|]. cbn [map].
    generalize (length t). induction db as [|u db IH]; intros n; cbn [fold_left map].
    - split; [cbn; auto|]. intros m [<-|[]]. auto.
    - destruct (IH (Nat.max n (length u))) as [H1 H2]. split.
      + destruct H1 as [H1|H1]; [|cbn; auto]. cbn [In]. destruct (Nat.max_spec n (length u)) as [[_ Q]|[_ Q]]; rewrite Q in *; auto.
      + intros z [<-|[<-|Hz]]; [specialize (H2 (Nat.max n (length u))); cbn in H2; lia|specialize (H2 (Nat.max n (length u))); cbn in H2; lia|apply H2; cbn; auto].
  Qed.

  Lemma ids_eq db : item_to_id (count_item_occurence db) = combine (get_itemset db) (seq 0 (length (get_itemset db))).
  Proof. unfold item_to_id. rewrite counts_keys. apply dict_of_id. rewrite keys_combine by (rewrite seq_length; auto). apply itemset_NoDup. Qed.
  Lemma fic_eq db : db <> [] -> exists mL ac rs,
    let K := get_itemset db in let n := length K in
    save_to_fic_file db =
      ([Version; Info (length db) (get_nr_of_unique_transactions db) (length (concat db)) n mL;
        Ab (seq 0 n); Ac ac; It (seq 0 n)] ++ rs, Ok (combine (seq 0 n) K)) /\
    maximum (map (@length I) db) mL /\
    Forall2 (fun i c => dict_get i (count_item_occurence db) = Some c) (rev K) ac /\
    Forall2 (fun t row => exists ids, row = Row (length t) ids /\ Forall2 (fun i k => dict_get k (combine (seq 0 n) K) = Some i) t ids) db rs.
  Proof.
    intros Hne. destruct (max_len_ok db Hne) as (mL & Em & HmL). unfold save_to_fic_file. rewrite Em, ids_eq, nr_items_ok.
    set (K := get_itemset db). set (n := length K). cbv zeta. pose proof (itemset_NoDup db : NoDup K) as HK.
    assert (Ev : stable_sort Nat.leb (values (combine K (seq 0 n))) = seq 0 n).
    { rewrite values_combine by (rewrite seq_length; auto). apply sort_id. apply (seq_sorted n). }
    assert (Es : stable_sort (fun a b : I * nat => snd b <=? snd a) (combine K (seq 0 n)) = rev (combine K (seq 0 n))).
    { apply (sort_unique (fun a b : I * nat => (snd b <=? snd a) = true)).
      - intros [a i] [b j] Ha Hb. cbn. rewrite sort_In in Ha, Hb. intros H1%Nat.leb_le H2%Nat.leb_le. assert (i = j) by lia. subst j.
        f_equal. eapply combine_seq_inj; eauto.
      - apply sort_sorted.
        + intros a b. rewrite !Nat.leb_le. lia.
        + intros a b c. rewrite !Nat.leb_le. lia.
      - apply (sorted_rev (fun a b : I * nat => (snd a <=? snd b) = true)). apply combine_sorted.
      - rewrite sort_perm. apply Permutation_rev. }
    rewrite Ev, Es.
    destruct (mapM_some (fun '(item, _) => of_option KeyError (dict_get item (count_item_occurence db))) (rev (combine K (seq 0 n)))) as (ac & Eac & Fac).
    { intros [i k] Hi. apply in_rev in Hi. apply in_combine_l in Hi. subst K. rewrite <- counts_keys in Hi. destruct (dict_get_key _ _ Hi) as [c Q].
      rewrite Q. cbn. eauto. }
    rewrite Eac.
    destruct (mapM_some (fun t => do r <- mapM (fun item => of_option KeyError (dict_get item (combine K (seq 0 n)))) t ; Ok (Row (length t) r)) db) as (rs & Ers & Frs).
    { intros t Ht. destruct (mapM_some (fun item => of_option KeyError (dict_get item (combine K (seq 0 n)))) t) as (ys & Ey & _).
      - intros i Hi. assert (Hk : In i K) by (apply itemset_In; exists t; auto). apply In_nth_error in Hk. destruct Hk as [j Hj].
        rewrite (get_combine K _ j) by (auto; apply seq_length). rewrite nth_error_seq; [cbn; eauto|]. eapply nth_error_Some_lt; eauto.
      - rewrite Ey. cbn. eauto. }
    unfold rows. rewrite Ers. rewrite swap_combine, dict_of_id by (rewrite keys_combine by (apply seq_length); apply seq_NoDup).
    exists mL, ac, rs. split.
    { replace (length (combine K (seq 0 n))) with n by (rewrite combine_length, seq_length; unfold n; lia). reflexivity. }
    split; [auto|]. split.
    - assert (E1 : rev K = map fst (rev (combine K (seq 0 n)))).
      { rewrite map_rev. f_equal. symmetry. apply (keys_combine K (seq 0 n)). rewrite seq_length; auto. }
      rewrite E1. clear - Fac. clearbody K n. induction Fac as [|[i k] c l l' E F IH]; cbn [map]; constructor; auto.
      cbn [fst]. destruct (dict_get i (count_item_occurence db)); cbn in E; congruence.
    - assert (Hgo : forall i k, dict_get i (combine K (seq 0 n)) = Some k -> dict_get k (combine (seq 0 n) K) = Some i).
      { intros i k Q. assert (Hk : In i K). { apply dict_get_In in Q. eapply in_combine_l; eauto. }
        apply In_nth_error in Hk. destruct Hk as [j Hj]. pose proof (nth_error_Some_lt _ _ _ Hj).
        rewrite (get_combine K _ j) in Q by (auto; apply seq_length). rewrite nth_error_seq in Q by auto. injection Q as <-.
        rewrite (get_combine _ _ j); [auto|apply seq_NoDup|rewrite seq_length; auto|apply nth_error_seq; auto]. }
      clear - Frs Hgo. clearbody K n. induction Frs as [|t r l l' E F IH]; constructor; auto.
      destruct (mapM _ t) as [ids|] eqn:Em; cbn in E; [|discriminate]. injection E as <-. exists ids. split; auto.
      apply ParallelB.mapM_Ok in Em. clear - Em Hgo. induction Em as [|i k q q' E F' IH']; constructor; auto.
      apply Hgo. destruct (dict_get i (combine K (seq 0 n))); cbn in E; congruence.
  Qed.
End T.

Section D.
  Context {I : Type} `{HI : Eq I}.
  Variable leb : I -> I -> bool.
  Hypothesis Hleb : total_order leb.
  Variable order : list I -> list I.
  Hypothesis Horder : forall l, Permutation (order l) l.
  Implicit Types db : list (list I).

  Lemma dat_eq db offset : exists lines,
    let S := stable_sort leb (order (get_itemset db)) in
    let N := map (fun i => (Z.of_nat i + offset)%Z) (seq 0 (length S)) in
    save_to_dat_file leb order db offset = Ok (lines, combine N S) /\
    NoDup S /\ (forall i, In i S <-> occurs db i) /\ StronglySorted (fun a b => leb a b = true) S /\
    Forall2 (Forall2 (fun i k => dict_get k (combine N S) = Some i)) db lines.
  Proof.
    set (S := stable_sort leb (order (get_itemset db))). set (N := map (fun i => (Z.of_nat i + offset)%Z) (seq 0 (length S))). cbv zeta.
    assert (Hp : Permutation S (get_itemset db)) by (unfold S; rewrite sort_perm; apply Horder).
    assert (HS : NoDup S) by (eapply Permutation_NoDup; [symmetry; exact Hp|apply itemset_NoDup]).
    assert (Hin : forall i, In i S <-> occurs db i).
    { intros i. rewrite <- itemset_In. split; apply Permutation_in; [|symmetry]; auto. }
    assert (HlN : length N = length S) by (unfold N; rewrite map_length, seq_length; auto).
    assert (HN : NoDup N).
    { unfold N. apply FinFun.Injective_map_NoDup; [intros a b; lia|apply seq_NoDup]. }
    unfold save_to_dat_file. fold S. fold N. rewrite dict_of_id by (rewrite keys_combine by auto; auto).
    rewrite swap_combine, dict_of_id by (rewrite keys_combine by auto; auto).
    destruct (mapM_some (mapM (fun item => of_option KeyError (dict_get item (combine S N)))) db) as (lines & El & Fl).
    { intros t Ht. destruct (mapM_some (fun item => of_option KeyError (dict_get item (combine S N))) t) as (ys & Ey & _); [|eauto].
      intros i Hi. assert (Hk : In i S) by (apply Hin; exists t; auto). apply In_nth_error in Hk. destruct Hk as [j Hj].
      rewrite (get_combine S _ j) by auto. destruct (nth_error N j) eqn:Ej; [cbn; eauto|].
      apply nth_error_None in Ej. apply nth_error_Some_lt in Hj. lia. }
    rewrite El. cbn [bind]. exists lines. split; [auto|]. split; [auto|]. split; [auto|]. split.
    { apply sort_sorted.
      - intros a b. destruct Hleb as (Ht & _). destruct (Ht a b); auto.
      - apply Hleb. }
    assert (Hgo : forall i k, dict_get i (combine S N) = Some k -> dict_get k (combine N S) = Some i).
    { intros i k Q. assert (Hk : In i S). { apply dict_get_In in Q. eapply in_combine_l; eauto. }
      apply In_nth_error in Hk. destruct Hk as [j Hj].
      rewrite (get_combine S _ j) in Q by auto. rewrite (get_combine _ _ j); auto. }
    clear - Fl Hgo. clearbody S N. induction Fl as [|t r l l' E F IH]; constructor; auto.
    apply ParallelB.mapM_Ok in E. clear - E Hgo. induction E as [|i k q q' E F' IH']; constructor; auto.
    apply Hgo. destruct (dict_get i (combine S N)); cbn in E; congruence.
  Qed.
End D.

(*P C64 Transaction database export *)

(** The statistics are what their names say. *)
Lemma C64_statistics : forall (I : Type) (HI : Eq I) (db : list (list I)),
  (forall i, In i (get_itemset db) <-> occurs db i) /\ NoDup (get_itemset db) /\
  has_size (occurs db) (get_nr_of_different_items db) /\
  get_nr_of_items_in_transactions db = length (concat db) /\
  distinct_transactions db (get_nr_of_unique_transactions db) /\
  (db = [] -> get_maximum_transaction_length db = Err ValueError) /\
  (db <> [] -> exists m, get_maximum_transaction_length db = Ok m /\ maximum (map (@length I) db) m).
Proof.
  intros I HI db. split; [apply itemset_In|]. split; [apply itemset_NoDup|]. split.
  { exists (get_itemset db). split; [apply itemset_NoDup|]. split; [apply itemset_In|reflexivity]. }
  split; [apply nr_items_ok|]. split; [apply unique_ok|]. split; [intros ->; auto|apply max_len_ok].
Qed.

(** The count of an item is the number of transactions that contain it. *)
Lemma C64_counts : forall (I : Type) (HI : Eq I) (db : list (list I)) i n, Forall (@NoDup I) db ->
  dict_get i (count_item_occurence db) = Some n <->
    n <> 0 /\ has_size (fun k => exists t, nth_error db k = Some t /\ In i t) n.
Proof.
  intros I HI db i n Hn. rewrite counts_get by auto.
  assert (G : has_size (fun k => exists t, nth_error db k = Some t /\ In i t) (length (filter (mem i) db))).
  { eapply Selection.has_size_ext; [|apply PrefixTree.has_size_filter]. intros k. split; intros (t & E & Hi); exists t; (split; [auto|]); apply (mem_In i t); auto. }
  split.
  - intros [(t & Ht & Hi) ->]. split; [|auto]. intros E. assert (Hf : In t (filter (mem i) db)) by (apply filter_In; split; auto; apply (mem_In i t); auto).
    destruct (filter (mem i) db); [destruct Hf|discriminate].
  - intros [Hn0 Hs]. assert (n = length (filter (mem i) db)) by (eapply Selection.has_size_unique; eauto). split; [|auto].
    destruct (filter (mem i) db) as [|t l] eqn:E; [subst; cbn in Hn0; congruence|]. exists t.
    assert (Hf : In t (filter (mem i) db)) by (rewrite E; cbn; auto). apply filter_In in Hf. destruct Hf as [Hf Hm]. split; auto. apply (mem_In i t); auto.
Qed.

(** The fic file of a non-empty database: the header has the right numbers,
    items are numbered 0, 1, ..., the returned dictionary is a bijection
    between these numbers and the items of the database, and with it the
    lines of the file decode to the transactions. *)
Lemma C64_fic_file : forall (I : Type) (HI : Eq I) (db : list (list I)), db <> [] ->
  exists m n u mL ac rs,
    save_to_fic_file db =
      ([Version; Info (length db) u (length (concat db)) n mL; Ab (seq 0 n); Ac ac; It (seq 0 n)] ++ rs, Ok m) /\
    distinct_transactions db u /\ maximum (map (@length I) db) mL /\
    keys m = seq 0 n /\ NoDup (values m) /\ (forall i, In i (values m) <-> occurs db i) /\
    Forall2 (fun t row => exists ids, row = Row (length t) ids /\ Forall2 (fun i k => dict_get k m = Some i) t ids) db rs.
Proof.
  intros I HI db Hne. destruct (fic_eq db Hne) as (mL & ac & rs & E & HmL & _ & Hrs). cbv zeta in *.
  exists (combine (seq 0 (length (get_itemset db))) (get_itemset db)), (length (get_itemset db)), (get_nr_of_unique_transactions db), mL, ac, rs.
  split; [auto|]. split; [apply unique_ok|]. split; [auto|].
  rewrite keys_combine, values_combine by apply seq_length. split; [auto|]. split; [apply itemset_NoDup|]. split; [apply itemset_In|auto].
Qed.

(** But the counts in the "ac" line are in the reverse order of the item
    numbers in the "ab" line: the count of item [k] is the [k]-th from the end. *)
Lemma C64_fic_counts_reversed : forall (I : Type) (HI : Eq I) (db : list (list I)) lines m ac,
  Forall (@NoDup I) db -> save_to_fic_file db = (lines, Ok m) -> In (Ac ac) lines ->
  length ac = length m /\
  forall k i, dict_get k m = Some i ->
    exists c, nth_error (rev ac) k = Some c /\ has_size (fun j => exists t, nth_error db j = Some t /\ In i t) c.
Proof.
  intros I HI db lines m ac Hn E Hac. assert (Hne : db <> []) by (intros ->; discriminate).
  destruct (fic_eq db Hne) as (mL & ac' & rs & E' & _ & Hc & Hrs). cbv zeta in *. rewrite E' in E. injection E as <- <-.
  set (K := get_itemset db) in *.
  assert (ac' = ac).
  { cbn [app In] in Hac. destruct Hac as [Q|[Q|[Q|[Q|[Q|Q]]]]]; try congruence.
    exfalso. clear - Q Hrs. induction Hrs as [|t r l l' (ids & -> & _) F IH]; [destruct Q|]. destruct Q; [discriminate|auto]. }
  subst ac'. assert (Hl : length (rev K) = length ac) by (clear - Hc; induction Hc; cbn; auto). rewrite rev_length in Hl. split.
  { rewrite combine_length, seq_length. lia. }
  intros k i Q.
  assert (Hk : nth_error K k = Some i).
  { assert (Hk : In k (seq 0 (length K))) by (apply dict_get_In in Q; eapply in_combine_l; eauto). apply in_seq in Hk.
    rewrite (get_combine _ _ k) in Q; [auto|apply seq_NoDup|rewrite seq_length; auto|apply nth_error_seq; lia]. }
  assert (Hr : Forall2 (fun i c => dict_get i (count_item_occurence db) = Some c) K (rev ac)).
  { apply Forall2_rev in Hc. rewrite rev_involutive in Hc. auto. }
  destruct (nth_error (rev ac) k) as [c|] eqn:Ec.
  2:{ apply nth_error_None in Ec. rewrite rev_length in Ec. apply nth_error_Some_lt in Hk. lia. }
  exists c. split; [auto|]. apply (C64_counts I HI db i c Hn).
  clear - Hr Hk Ec. clearbody K. revert k Hk Ec. induction Hr as [|x c' l l' E F IH]; intros [|k] Hk Ec; cbn in *; try discriminate; [congruence|eauto].
Qed.
Lemma C64_fic_counts_witness : exists (db : list (list string)) ac m, Forall (@NoDup string) db /\
  In (Ab [0; 1]) (fst (save_to_fic_file db)) /\ In (Ac ac) (fst (save_to_fic_file db)) /\ snd (save_to_fic_file db) = Ok m /\
  exists i, dict_get 0 m = Some i /\ nth_error ac 0 = Some 1 /\ has_size (fun j => exists t, nth_error db j = Some t /\ In i t) 2.
Proof.
  exists [["a"; "b"]; ["a"]]%string, [1; 2], [(0, "a"%string); (1, "b"%string)].
  assert (Hn : Forall (@NoDup string) [["a"; "b"]; ["a"]]%string).
  { repeat constructor; cbn; intuition discriminate. }
  split; [auto|]. split; [cbn; auto|]. split; [cbn; auto|]. split; [reflexivity|]. exists "a"%string. split; [reflexivity|]. split; [reflexivity|].
  apply (proj1 (C64_counts string _ [["a"; "b"]; ["a"]]%string "a"%string 2 Hn)). reflexivity.
Qed.

(** For an empty database the function raises ValueError, and leaves a file
    behind that ends after the first line. *)
Lemma C64_fic_empty : forall (I : Type) (HI : Eq I), save_to_fic_file (I:=I) [] = ([Version], Err ValueError).
Proof. reflexivity. Qed.

(** The dat file: items are numbered from the offset upwards in ascending
    order, the returned dictionary is a bijection between these numbers and the
    items, with it the lines decode to the transactions, and it depends only
    on which items occur. *)
Lemma C64_dat_file : forall (I : Type) (HI : Eq I) (leb : I -> I -> bool) (order : list I -> list I) (db : list (list I)) offset,
  total_order leb -> (forall l, Permutation (order l) l) ->
  exists lines m,
    save_to_dat_file leb order db offset = Ok (lines, m) /\
    (forall k, In k (keys m) <-> (offset <= k < offset + Z.of_nat (length m))%Z) /\
    StronglySorted Z.lt (keys m) /\ StronglySorted (fun a b => leb a b = true) (values m) /\ NoDup (values m) /\
    (forall i, In i (values m) <-> occurs db i) /\
    Forall2 (Forall2 (fun i k => dict_get k m = Some i)) db lines.
Proof.
  intros I HI leb order db offset Hl Ho. destruct (dat_eq leb Hl order Ho db offset) as (lines & E & Hn & Hin & Hs & Hd). cbv zeta in *.
  set (S := stable_sort leb (order (get_itemset db))) in *. set (N := map (fun i => (Z.of_nat i + offset)%Z) (seq 0 (length S))) in *.
  assert (HlN : length N = length S) by (unfold N; rewrite map_length, seq_length; auto).
  exists lines, (combine N S). split; [auto|]. rewrite keys_combine, values_combine, combine_length, HlN, Nat.min_id by auto. split; [|split].
  - intros k. unfold N. rewrite in_map_iff. split.
    + intros (i & <- & Hi). apply in_seq in Hi. lia.
    + intros Hk. exists (Z.to_nat (k - offset)). split; [lia|]. apply in_seq. lia.
  - unfold N. generalize (length S). clear. intros n. generalize 0. induction n as [|n IH]; intros s; cbn [seq map]; constructor; [apply IH|].
    apply Forall_forall. intros z Hz. apply in_map_iff in Hz. destruct Hz as (i & <- & Hi). apply in_seq in Hi. lia.
  - auto.
Qed.
Lemma C64_dat_same_code : forall (I : Type) (HI : Eq I) (leb : I -> I -> bool) (order order' : list I -> list I) (db db' : list (list I)) offset lines m lines' m',
  total_order leb -> (forall l, Permutation (order l) l) -> (forall l, Permutation (order' l) l) ->
  (forall i, occurs db i <-> occurs db' i) ->
  save_to_dat_file leb order db offset = Ok (lines, m) -> save_to_dat_file leb order' db' offset = Ok (lines', m') -> m = m'.
Proof.
  intros I HI leb order order' db db' offset lines m lines' m' Hl Ho Ho' Hdb E E'.
  destruct (dat_eq leb Hl order Ho db offset) as (l1 & E1 & Hn & Hin & Hs & _). cbv zeta in *. rewrite E1 in E. injection E as _ <-.
  destruct (dat_eq leb Hl order' Ho' db' offset) as (l2 & E2 & Hn' & Hin' & Hs' & _). cbv zeta in *. rewrite E2 in E'. injection E' as _ <-.
  replace (stable_sort leb (order' (get_itemset db'))) with (stable_sort leb (order (get_itemset db))); auto.
  apply (sort_unique (fun a b => leb a b = true)); auto.
  - intros a b _ _. apply Hl.
  - apply NoDup_Permutation; auto. intros i. rewrite Hin, Hin', Hdb. tauto.
Qed.
