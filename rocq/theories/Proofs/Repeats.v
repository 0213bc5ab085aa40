From Verif.Model Require Import Base Sort ListUtils Patterns SuffixTree.
From Verif.Spec Require Import Lists Words.
From Verif.Lib Require Import ListLib SortLib.
From Verif.Proofs Require Import SuffixTree.
From Verif.Proofs Require ListUtils Patterns.
From Coq Require Import Sorted Permutation.
Open Scope nat_scope.

Section R.
  Context {A : Type} `{Eq A} (dollar : A).

  Lemma dict_add_perm (k : nat) (w : list A) (d : list (nat * list (list A))) :
    match dict_get k d with
    | None => Permutation (concat (map snd (dict_set k [w] d))) (w :: concat (map snd d))
    | Some ws => Permutation (concat (map snd (dict_set k (ws ++ [w]) d))) (w :: concat (map snd d))
    end.
  Proof.
    induction d as [|[k0 v0] d IH]; cbn [dict_get].
    - cbn. auto.
    - destruct (eqb_ok k k0) as [->|Hn].
      + cbn [dict_set]. rewrite eqb_refl. cbn [map snd concat]. rewrite <- app_assoc. cbn [app].
        symmetry. apply Permutation_middle.
      + destruct (dict_get k d); cbn [dict_set]; destruct (eqb_ok k k0); try contradiction;
          cbn [map snd concat]; rewrite IH; symmetry; apply Permutation_middle.
  Qed.

  Definition wanted (m : Z) (x : nat * list A * nat) : bool :=
    let '(_, w, k) := x in (2 <=? k) && (m <=? Z.of_nat (length w))%Z.
  Lemma group_perm m ns : forall d,
    Permutation (concat (map snd (fold_left (group m) ns d)))
                (concat (map snd d) ++ map (fun x => snd (fst x)) (filter (wanted m) ns)).
  Proof.
    induction ns as [|[[k0 w] k] ns IH]; intros d; cbn [fold_left filter].
    - cbn. rewrite app_nil_r. auto.
    - rewrite IH. unfold group at 1, wanted at 2. destruct ((2 <=? k) && (m <=? Z.of_nat (length w))%Z); auto.
      cbn [map fst snd]. pose proof (dict_add_perm k w d) as Hd.
      rewrite <- Permutation_middle. destruct (dict_get k d); rewrite Hd; auto.
  Qed.

  Lemma keep_values_ok (values : list (list A)) : NoDup values -> keep_values values = Ok values.
  Proof.
    intros Hn. unfold keep_values. destruct values as [|a [|b r]]; auto.
    assert (Hg : forall l, (forall v, In v l -> existsb (fun word => negb (eqb word v)) (a :: b :: r) = true) ->
      mapM (fun v => if existsb (fun word => negb (eqb word v)) (a :: b :: r) then Ok v else Err TypeError) l = Ok l).
    { induction l as [|v l IH]; intros Hl; cbn [mapM]; auto. rewrite Hl by (left; auto). cbn [bind].
      rewrite IH by (intros; apply Hl; right; auto). auto. }
    apply Hg. intros v _. apply existsb_exists. inversion Hn as [|? ? Ha _]; subst.
    destruct (eqb_ok a v) as [->|Hne].
    - exists b. split; [right; left; auto|]. destruct (eqb_ok b v) as [->|]; auto. exfalso. apply Ha. left; auto.
    - exists a. split; [left; auto|]. destruct (eqb_ok a v); auto.
  Qed.
  Lemma mapM_keep (vs : list (list (list A))) : NoDup (concat vs) -> mapM keep_values vs = Ok vs.
  Proof.
    induction vs as [|v vs IH]; intros Hn; cbn [mapM]; auto. cbn [concat] in Hn.
    rewrite keep_values_ok.
    - cbn [bind]. rewrite IH; auto. clear IH. induction v as [|x v IHv]; auto. inversion Hn; auto.
    - clear IH. induction v as [|x v IHv]; constructor; inversion Hn; subst; auto.
      intros Hx. apply H2. apply in_or_app; auto.
  Qed.

  Theorem find_maximal_repeats_ok (s : list A) (m : Z) : s <> [] -> ~ In dollar s ->
    exists r, find_maximal_repeats dollar s m = Ok r /\ NoDup r /\
      forall u, In u r <-> u <> [] /\ (m <= Z.of_nat (length u))%Z /\ right_branching s u.
  Proof.
    intros Hs Hd. unfold find_maximal_repeats, suffix_tree.
    assert (Et : terminated dollar s = Ok (s ++ [dollar])).
    { unfold terminated. destruct (rev s) as [|x r] eqn:E.
      - exfalso. apply Hs. rewrite <- (rev_involutive s), E. auto.
      - destruct (eqb_ok x dollar) as [->|]; auto. exfalso. apply Hd. apply in_rev. rewrite E. left; auto. }
    rewrite Et. cbn [bind]. set (W := s ++ [dollar]).
    destruct (tree_ok W dollar s eq_refl Hd) as (cs & -> & Hwf & Hb). cbn [bind fst snd].
    set (leb := fun a b : nat * list A * nat => fst (fst a) <=? fst (fst b)).
    set (ns := stable_sort leb (nodes dollar W [] (Node 0 cs))).
    inversion Hwf as [? ? Hch Hnd]; subst.
    (* an inner node keeps its word *)
    assert (Hkeep : forall k q d, In (k, q, d) (nodes0 W [] (Node 0 cs)) -> 2 <= d ->
              strip dollar q = q /\ q <> [] /\ right_branching s q).
    { intros k q d Hin Hd2. apply (nodes0_In W (Node 0 cs) 0 cs) in Hin as (ccs & Hi & ->); auto.
      destruct (inode_ok W _ _ _ _ Hi Hch) as (Har & _ & (v & Hv & Eq) & _).
      apply descendants_arity in Hd2; auto.
      destruct (inode_branch W _ _ _ _ Hi Hch Hd2) as (a & b & x & y & Hab & Hx & Hy).
      split; [|split].
      - apply Hb in Hx as (j & _ & E). eapply strip_inner; eauto.
      - rewrite Eq. auto.
      - apply (branching_iff W dollar s eq_refl Hd q cs Hb). exists a, b, x, y. auto. }
    assert (Hperm : Permutation (map (fun x => snd (fst x)) (filter (wanted m) ns))
                       (map (fun x => snd (fst x)) (filter (wanted m) (nodes0 W [] (Node 0 cs))))).
    { unfold ns. transitivity (map (fun x => snd (fst x)) (filter (wanted m) (nodes dollar W [] (Node 0 cs)))).
      - apply Permutation_map. generalize (sort_perm leb (nodes dollar W [] (Node 0 cs))). generalize (stable_sort leb (nodes dollar W [] (Node 0 cs))).
        generalize (nodes dollar W [] (Node 0 cs)). clear. intros l' l Hp.
        induction Hp as [|x l l' Hp IH|x y l|l l' l'' H1 IH1 H2 IH2]; cbn [filter]; auto.
        + destruct (wanted m x); auto.
        + destruct (wanted m x), (wanted m y); auto. apply perm_swap.
        + etransitivity; eauto.
      - rewrite nodes_nodes0. clear - Hkeep. induction (nodes0 W [] (Node 0 cs)) as [|[[k q] d] l IH]; auto.
        assert (IH' := IH ltac:(intros; eapply Hkeep; [right; eauto|auto])). clear IH.
        cbn [map filter].
        assert (Ew : forall q, wanted m (k, q, d) = (2 <=? d) && (m <=? Z.of_nat (length q))%Z) by reflexivity.
        rewrite !Ew. destruct (Nat.leb_spec 2 d) as [L|L]; cbn [andb]; auto.
        destruct (Hkeep k q d (or_introl eq_refl) L) as (Es & _). rewrite Es.
        destruct (m <=? Z.of_nat (length q))%Z; cbn [map fst snd]; auto. }
    set (d := fold_left (group m) ns []).
    assert (Hd2 : Permutation (concat (map snd d))
                     (map (fun x => snd (fst x)) (filter (wanted m) (nodes0 W [] (Node 0 cs))))).
    { unfold d. rewrite group_perm. cbn [map concat app]. exact Hperm. }
    assert (HN : NoDup (concat (map snd d))).
    { eapply Permutation_NoDup; [symmetry; exact Hd2|].
      pose proof (nodes0_NoDup W (Node 0 cs) [] Hwf) as Hn. clear - Hn.
      induction (nodes0 W [] (Node 0 cs)) as [|x l IH]; cbn [filter map] in *; [constructor|].
      inversion Hn; subst. destruct (wanted m x); auto. cbn [map]. constructor; auto.
      intros Hin. apply H1. apply in_map_iff in Hin as (y & E & Hy). apply filter_In in Hy as [Hy _].
      rewrite <- E. apply (in_map (fun x => snd (fst x))); auto. }
    rewrite mapM_keep by auto. cbn [bind]. eexists; split; [reflexivity|]. split; auto.
    intros u. split.
    - intros Hu. apply (Permutation_in _ Hd2) in Hu. apply in_map_iff in Hu as (((k & q) & e) & E & Hin).
      cbn in E; subst q. apply filter_In in Hin as [Hin Hw]. unfold wanted in Hw. apply andb_prop in Hw as [W1 W2].
      apply Nat.leb_le in W1. apply Z.leb_le in W2. destruct (Hkeep k u e Hin W1) as (_ & H2 & H3). auto.
    - intros (Hu & Hm & Hbr). apply (Permutation_in _ (Permutation_sym Hd2)).
      apply (branching_iff W dollar s eq_refl Hd u cs Hb) in Hbr as (a & b & x & y & Hab & Hx & Hy).
      destruct (branch_inode W (Node 0 cs) 0 cs [] u a b x y eq_refl Hwf Hu Hab Hx Hy) as ([k ccs] & Hi & Har).
      apply in_map_iff. exists (k, u, total_descendants (Node k ccs)). split; auto. apply filter_In. split.
      + apply (nodes0_In W (Node 0 cs) 0 cs); auto. exists ccs. auto.
      + unfold wanted. apply andb_true_intro. split; [apply Nat.leb_le|apply Z.leb_le; auto].
        apply descendants_arity; auto. destruct (inode_ok W _ _ _ _ Hi Hch); auto.
  Qed.

  Theorem maximal_pairs_found (s u : list A) : maximal_pair_word s u -> right_branching s u.
  Proof. intros (p & q & _ & H1 & H2 & _ & H3). exists p, q. auto. Qed.

  Lemma branching_twice (s u : list A) : right_branching s u -> exists p q, p <> q /\ occurs_at u s p /\ occurs_at u s q.
  Proof. intros (p & q & H1 & H2 & H3). exists p, q. split; [|auto]. intros E. apply H3. rewrite E. reflexivity. Qed.

  (** ** super maximal repeats of a sequence *)
  Definition repeat_of (s : list A) (m : Z) (u : list A) : Prop :=
    u <> [] /\ (m <= Z.of_nat (length u))%Z /\ right_branching s u.

  Theorem find_super_ok (s : list A) (m : Z) : s <> [] -> ~ In dollar s ->
    exists r, find_super_maximal_repeats dollar s m = Ok r /\ NoDup r /\
      forall u, In u r <-> inclusion_maximal
         (fun v => v <> [] /\ (m <= Z.of_nat (length v))%Z /\ right_branching s v) u.
  Proof.
    intros Hs Hd. unfold find_super_maximal_repeats.
    destruct (find_maximal_repeats_ok s m Hs Hd) as (ms & -> & _ & Hms). cbn [bind].
    destruct (Patterns.super_maximal_ok ms) as (r & -> & Hn & _ & Hr). exists r. split; auto. split; auto.
    intros u. rewrite Hr. unfold inclusion_maximal. rewrite <- Hms. split.
    - intros [H1 H2]. split; auto. intros v Hv. apply H2. apply Hms; auto.
    - intros [H1 H2]. split; auto. intros v Hv. apply H2. apply Hms; auto.
  Qed.

  (** ** near super maximal repeats *)
  Lemma mark_ok mask o len : o + len <= length mask ->
    exists mask', mark mask o len = Ok mask' /\ length mask' = length mask /\
      forall i, nth_error mask' i = if (o <=? i) && (i <? o + len) then Some true else nth_error mask i.
  Proof.
    unfold mark. revert o mask. induction len as [|len IH]; intros o mask Hl; cbn [seq foldM].
    - exists mask. split; auto. split; auto. intros i.
      destruct (Nat.leb_spec o i), (Nat.ltb_spec i (o + 0)); cbn; auto; lia.
    - destruct (list_set_spec mask o true) as (m1 & -> & L1 & N1); [lia|]. cbn [of_option bind].
      destruct (IH (S o) m1) as (m2 & -> & L2 & N2); [lia|]. exists m2. split; auto. split; [lia|].
      intros i. rewrite N2, N1.
      destruct (Nat.leb_spec (S o) i), (Nat.ltb_spec i (S o + len)), (Nat.leb_spec o i), (Nat.ltb_spec i (o + S len)),
        (Nat.eqb_spec i o); cbn; auto; lia.
  Qed.
  Lemma marks_ok len : forall os mask, (forall o, In o os -> o + len <= length mask) ->
    exists mask', foldM (fun m o => mark m o len) os mask = Ok mask' /\ length mask' = length mask /\
      forall i, i < length mask ->
        (nth_error mask' i = Some true <->
         nth_error mask i = Some true \/ exists o, In o os /\ o <= i < o + len).
  Proof.
    induction os as [|o os IH]; intros mask Hos; cbn [foldM].
    - exists mask. split; auto. split; auto. intros i Hi. split; auto. intros [|(o & [] & _)]; auto.
    - destruct (mark_ok mask o len) as (m1 & -> & L1 & N1); [apply Hos; left; auto|]. cbn [bind].
      destruct (IH m1) as (m2 & -> & L2 & N2); [intros; rewrite L1; apply Hos; right; auto|].
      exists m2. split; auto. split; [lia|]. intros i Hi. rewrite N2, N1 by lia.
      destruct (Nat.leb_spec o i), (Nat.ltb_spec i (o + len)); cbn [andb].
      + split; auto. intros _. right. exists o. split; [left; auto|lia].
      + split; [intros [|(o' & Ho' & ?)]; auto; right; exists o'; split; auto; right; auto|].
        intros [|(o' & [->|Ho'] & ?)]; auto; [lia|]. right. exists o'. auto.
      + split; [intros [|(o' & Ho' & ?)]; auto; right; exists o'; split; auto; right; auto|].
        intros [|(o' & [->|Ho'] & ?)]; auto; [lia|]. right. exists o'. auto.
      + split; [intros [|(o' & Ho' & ?)]; auto; right; exists o'; split; auto; right; auto|].
        intros [|(o' & [->|Ho'] & ?)]; auto; [lia|]. right. exists o'. auto.
  Qed.
  Lemma build_mask_ok (s : list A) supers :
    exists mask, build_mask s supers = Ok mask /\ length mask = length s /\
      forall i, i < length s ->
        (nth_error mask i = Some true <->
         exists w o, In w supers /\ occurs_at w s o /\ o <= i < o + length w).
  Proof.
    unfold build_mask.
    assert (Hg : forall supers mask0, length mask0 = length s ->
      exists mask, foldM (fun mask w => do os <- search_all s w ; foldM (fun m o => mark m o (length w)) os mask)
                         supers mask0 = Ok mask /\ length mask = length s /\
        forall i, i < length s -> (nth_error mask i = Some true <-> nth_error mask0 i = Some true \/
           exists w o, In w supers /\ occurs_at w s o /\ o <= i < o + length w)).
    { clear supers. induction supers as [|w supers IH]; intros mask0 L0; cbn [foldM].
      - exists mask0. split; auto. split; auto. intros i Hi. split; auto. intros [|(w & o & [] & _)]; auto.
      - destruct (ListUtils.search_all_ok s w) as (os & -> & _ & Hos). cbn [bind].
        destruct (marks_ok (length w) os mask0) as (m1 & -> & L1 & N1).
        { intros o Ho. rewrite L0. apply Hos in Ho. apply occurs_at_bound in Ho. lia. }
        cbn [bind]. destruct (IH m1) as (m2 & -> & L2 & N2); [lia|].
        exists m2. split; auto. split; auto. intros i Hi. rewrite N2, N1 by lia. split.
        + intros [[|(o & Ho & Hi2)]|(w' & o & Hw & Ho & Hi2)]; auto; right.
          * exists w, o. split; [left; auto|]. split; auto. apply Hos; auto.
          * exists w', o. split; [right; auto|auto].
        + intros [|(w' & o & [<-|Hw] & Ho & Hi2)]; auto; [|right; exists w', o; auto].
          left. right. exists o. split; auto. apply Hos; auto. }
    destruct (Hg supers (repeat false (length s))) as (mask & E & L & N); [apply repeat_length|].
    exists mask. split; auto. split; auto. intros i Hi. rewrite N by auto.
    split; auto. intros [Hf|]; auto. exfalso.
    apply nth_error_In in Hf. apply repeat_spec in Hf. discriminate.
  Qed.

  Lemma free_once_ok s w mask supers : length mask = length s ->
    (forall i, i < length s -> (nth_error mask i = Some true <->
         exists v o, In v supers /\ occurs_at v s o /\ o <= i < o + length v)) ->
    exists b, free_once s w mask = Ok b /\
      (b = true <-> exists p, occurs_at w s p /\
         forall v q, In v supers -> occurs_at v s q -> ~ overlap p (length w) q (length v)).
  Proof.
    intros Hl Hm. unfold free_once. destruct (ListUtils.search_all_ok s w) as (os & -> & _ & Hos). cbn [bind].
    eexists; split; [reflexivity|]. rewrite existsb_exists.
    assert (Hx : forall p, occurs_at w s p ->
       (negb (existsb (fun b : bool => b) (slice mask p (p + length w))) = true <->
        forall v q, In v supers -> occurs_at v s q -> ~ overlap p (length w) q (length v))).
    { intros p Hp. apply occurs_at_bound in Hp.
      rewrite negb_true_iff, <- not_true_iff_false, existsb_exists. split.
      - intros Hn v q Hv Hq (i & H1 & H2). apply Hn. exists true. split; auto.
        apply (nth_error_In _ (i - p)). unfold slice. rewrite nth_error_firstn, nth_error_skipn.
        destruct (Nat.ltb_spec (i - p) (p + length w - p)); [|lia]. replace (p + (i - p)) with i by lia.
        apply Hm; [lia|]. exists v, q. auto.
      - intros Hn (b & Hb & ->). apply In_nth_error in Hb as (k & Hk). unfold slice in Hk.
        rewrite nth_error_firstn, nth_error_skipn in Hk.
        destruct (Nat.ltb_spec k (p + length w - p)); [|discriminate].
        apply Hm in Hk; [|lia]. destruct Hk as (v & q & Hv & Hq & Hi). apply (Hn v q Hv Hq).
        exists (p + k). split; auto. lia. }
    split.
    - intros (p & Hp & Hb). apply Hos in Hp. exists p. split; auto. apply Hx; auto.
    - intros (p & Hp & Hb). exists p. split; [apply Hos; auto|]. apply Hx; auto.
  Qed.

  Lemma near_loop_ok s supers mask : length mask = length s ->
    (forall i, i < length s -> (nth_error mask i = Some true <->
         exists v o, In v supers /\ occurs_at v s o /\ o <= i < o + length v)) ->
    forall ms, exists r, near_loop s supers mask ms = Ok r /\ subseq r ms /\
      forall w, In w r <-> In w ms /\ ~ In w supers /\ exists p, occurs_at w s p /\
         forall v q, In v supers -> occurs_at v s q -> ~ overlap p (length w) q (length v).
  Proof.
    intros Hl Hm. induction ms as [|w ms (r & E & Hs & Hr)]; cbn [near_loop].
    - exists []. split; auto. split; [constructor|]. cbn. tauto.
    - assert (Hb : exists b, (if mem w supers then Ok false else free_once s w mask) = Ok b /\
          (b = true <-> ~ In w supers /\ exists p, occurs_at w s p /\
             forall v q, In v supers -> occurs_at v s q -> ~ overlap p (length w) q (length v))).
      { destruct (mem w supers) eqn:Em.
        - apply mem_In in Em. exists false. split; auto. split; [discriminate|tauto].
        - apply mem_not_In in Em. destruct (free_once_ok s w mask supers Hl Hm) as (b & -> & Hb). exists b. tauto. }
      destruct Hb as (b & -> & Hb). cbn [bind]. rewrite E. cbn [bind]. destruct b.
      + exists (w :: r). split; auto. split; [apply subseq_take; auto|]. intros v. cbn [In]. rewrite Hr. split.
        * intros [<-|]; [|tauto]. split; auto. apply Hb; auto.
        * intros [[<-|] ?]; auto.
      + exists r. split; auto. split; [apply subseq_skip; auto|]. intros v. cbn [In]. rewrite Hr. split; [tauto|].
        intros [[<-|] Hx]; auto. apply Hb in Hx. discriminate.
  Qed.

  Theorem find_near_ok order (s : list A) (m : Z) : (forall x, Permutation (order x) x) ->
    s <> [] -> ~ In dollar s ->
    exists r, find_near_super_maximal_repeats dollar order s m = Ok r /\ NoDup r /\
      forall u, In u r <->
        let family := fun v => v <> [] /\ (m <= Z.of_nat (length v))%Z /\ right_branching s v in
        family u /\
        (inclusion_maximal family u \/
         exists p, occurs_at u s p /\
           forall v q, inclusion_maximal family v -> occurs_at v s q -> ~ overlap p (length u) q (length v)).
  Proof.
    intros Ho Hs Hd. unfold find_near_super_maximal_repeats.
    destruct (find_super_ok s m Hs Hd) as (sm & E & Hns & Hsm). unfold find_super_maximal_repeats in E.
    destruct (find_maximal_repeats_ok s m Hs Hd) as (ms & Em & Hnm & Hms). rewrite Em in *. cbn [bind] in *.
    rewrite E. cbn [bind]. set (lb := fun u v : list A => length u <=? length v).
    set (supers := order (set_of sm)).
    assert (Hsup : forall u, In u supers <-> In u sm).
    { intros u. unfold supers. split.
      - intros Hi. apply (Permutation_in _ (Ho _)) in Hi. apply (proj1 (Patterns.set_of_In _ _)) in Hi. auto.
      - intros Hi. apply (Permutation_in _ (Permutation_sym (Ho _))). apply (proj2 (Patterns.set_of_In _ _)). auto. }
    destruct (build_mask_ok s supers) as (mask & -> & Hl & Hm). cbn [bind].
    destruct (near_loop_ok s supers mask Hl Hm (stable_sort lb ms)) as (r & -> & Hsub & Hr). cbn [bind].
    exists (r ++ supers). split; auto. split.
    - apply NoDup_app_intro.
      + eapply Patterns.subseq_NoDup; eauto. eapply Permutation_NoDup; [symmetry; apply sort_perm|]. auto.
      + unfold supers. eapply Permutation_NoDup; [symmetry; apply Ho|]. apply Patterns.set_of_NoDup.
      + intros x Hx. apply Hr in Hx. tauto.
    - intros u. cbv zeta. rewrite in_app_iff, Hr, Hsup, Hsm, sort_In, Hms.
      assert (Hfree : forall p, (forall v q, In v supers -> occurs_at v s q -> ~ overlap p (length u) q (length v)) <->
        (forall v q, inclusion_maximal (fun v => v <> [] /\ (m <= Z.of_nat (length v))%Z /\ right_branching s v) v ->
           occurs_at v s q -> ~ overlap p (length u) q (length v))).
      { intros p. split; intros Hf v q Hv; apply Hf.
        - apply Hsup, Hsm; auto.
        - apply Hsm, Hsup; auto. }
      split.
      + intros [(Hu & _ & p & Hp & Hf)|Hu]; [|split; [apply Hu|auto]]. split; auto. right. exists p. split; auto.
        apply Hfree; auto.
      + intros [Hu [Hi|(p & Hp & Hf)]]; auto.
        destruct (mem u supers) eqn:Eu.
        * apply mem_In in Eu. right. apply Hsm, Hsup; auto.
        * apply mem_not_In in Eu. left. split; [auto|]. split; [rewrite <- Hsm, <- Hsup; exact Eu|].
          exists p. split; auto. apply Hfree; auto.
  Qed.
End R.
