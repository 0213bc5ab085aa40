(** The objects of a suffix tree represent the tree, continued: what is read from them *)
From Verif.Model Require Import Base Sort ListUtils Patterns SuffixTree SuffixObjects.
From Verif.Spec Require Import Lists Words.
From Verif.Lib Require Import ListLib SortLib DictLib.
From Verif.Proofs Require Import SuffixTree SuffixTreeB SuffixObjectsA SuffixObjectsB SuffixObjectsC.
From Coq Require Import Sorted Permutation.
Open Scope nat_scope.

Lemma table_numbers : forall t par, map fst (table par t) = numbers t.
Proof.
  induction t as [k cs IH] using tree_ind'. intros par. cbn [table numbers map fst]. f_equal. rewrite Forall_forall in IH.
  induction cs as [|c cs IHc]; cbn [flat_map map]; [auto|]. rewrite map_app, (IH c) by (left; auto). rewrite IHc by (intros x Hx; apply IH; right; auto). auto.
Qed.
Lemma sorted_seq : forall m a l, StronglySorted le l -> Permutation l (seq a m) -> l = seq a m.
Proof.
  induction m as [|m IH]; intros a l Q P; cbn [seq] in *. { apply Permutation_sym, Permutation_nil in P. auto. }
  destruct l as [|x l]; [apply Permutation_nil in P; discriminate|]. inversion Q as [|? ? S1 S2]; subst.
  assert (Hx : In x (a :: seq (S a) m)) by (apply (Permutation_in _ P); left; auto). assert (Ha : In a (x :: l)) by (apply (Permutation_in _ (Permutation_sym P)); left; auto).
  assert (x = a). { apply Nat.le_antisymm. { destruct Ha as [->|Ha]; [auto|]. rewrite Forall_forall in S2. auto. } destruct Hx as [->|Hx]; [auto|]. apply in_seq in Hx. lia. }
  subst x. f_equal. apply IH; [auto|]. apply Permutation_cons_inv in P. auto.
Qed.
Lemma sort_numbers {B} (l : list (nat * list B * nat)) m : Permutation (map (fun x => fst (fst x)) l) (seq 1 m) ->
  map (fun x => fst (fst x)) (stable_sort (fun a b : nat * list B * nat => fst (fst a) <=? fst (fst b)) l) = seq 1 m.
Proof.
  intros P. apply sorted_seq; [|rewrite <- P; apply Permutation_map, sort_perm].
  assert (Q := sort_sorted (fun a b : nat * list B * nat => fst (fst a) <=? fst (fst b))). 
  assert (S' : StronglySorted (fun a b : nat * list B * nat => (fst (fst a) <=? fst (fst b)) = true) (stable_sort (fun a b : nat * list B * nat => fst (fst a) <=? fst (fst b)) l)).
  { apply Q; intros; rewrite ?Nat.leb_le in *; lia || (destruct (Nat.leb_spec (fst (fst a)) (fst (fst b))); [auto|right; apply Nat.leb_le; lia]). }
  clear Q. induction S' as [|x r _ IH F]; cbn [map]; constructor; [auto|]. apply Forall_map. eapply Forall_impl; [|exact F]. cbn. intros y Hy. apply Nat.leb_le. auto.
Qed.

Section S.
  Context {A : Type} `{Eq A} (dollar : A) (W : list A) (h : objects).

  (** ** total_descendants *)
  Lemma same_descendants : forall t1 par1 t2 par2, has h (table par1 t1) -> has h (table par2 t2) -> num t1 = num t2 -> total_descendants t1 = total_descendants t2.
  Proof.
    induction t1 as [k cs IH] using tree_ind'. intros par1 [k2 cs2] par2 H1 H2 En. cbn [num] in En. subst k2. rewrite Forall_forall in IH.
    assert (E : map (fun c => num (snd c)) cs = map (fun c => num (snd c)) cs2).
    { assert (X := H1 k _ (or_introl eq_refl)). assert (Y := H2 k _ (or_introl eq_refl)). rewrite X in Y. injection Y as _ Y. exact Y. }
    cbn [total_descendants].
    assert (H1' : forall c, In c cs -> has h (table (Some k) (snd c))) by (intros c Hc a o Ha; apply H1; rewrite table_node; right; apply in_flat_map; eauto).
    assert (H2' : forall c, In c cs2 -> has h (table (Some k) (snd c))) by (intros c Hc a o Ha; apply H2; rewrite table_node; right; apply in_flat_map; eauto).
    clear H1 H2. revert cs2 E H2'. induction cs as [|c cs IHc]; intros [|c2 cs2] E H2'; try discriminate; [auto|]. cbn [map] in E. injection E as E1 E2.
    cbn [length map list_sum fold_right]. change (fold_right Nat.add 0) with list_sum.
    assert (X := IH c (or_introl eq_refl) _ _ _ (H1' c (or_introl eq_refl)) (H2' c2 (or_introl eq_refl)) E1).
    assert (Y := IHc (fun x Hx => IH x (or_intror Hx)) (fun x Hx => H1' x (or_intror Hx)) cs2 E2 (fun x Hx => H2' x (or_intror Hx))). lia.
  Qed.
  Definition good (known : dict nat nat) : Prop := forall k d, dict_get k known = Some d -> forall par t, has h (table par t) -> num t = k -> total_descendants t = d.
  Lemma good_set known par t : good known -> has h (table par t) -> good (dict_set (num t) (total_descendants t) known).
  Proof.
    intros G Ht k d. rewrite dict_get_set. destruct (eqb_ok k (num t)) as [->|]; [|apply G]. intros [= <-] par' t' Ht' En. eapply same_descendants; eauto.
  Qed.
  Lemma descendants_good : forall t par fuel known, has h (table par t) -> good known -> size t <= fuel ->
    exists known', descendants_of fuel h known (num t) = Ok (total_descendants t, known') /\ good known'.
  Proof.
    induction t as [k cs IH] using tree_ind'. intros par [|fuel] known Ht G Hs; [cbn [size] in Hs; lia|]. rewrite Forall_forall in IH. cbn [descendants_of].
    destruct (dict_get (num (Node k cs)) known) as [d|] eqn:E. { rewrite (G _ _ E par (Node k cs) Ht eq_refl). eauto. }
    cbn [num]. unfold object_at. rewrite (Ht k _ (or_introl eq_refl)). cbn [of_option bind children].
    assert (F : forall l acc known, (forall c, In c l -> In c cs) -> good known ->
      exists known', foldM (fun (acc : nat * dict nat nat) c => do r <- descendants_of fuel h (snd acc) c ; Ok (fst acc + fst r, snd r)) (map (fun c => num (snd c)) l) (acc, known)
        = Ok (acc + list_sum (map (fun c => total_descendants (snd c)) l), known') /\ good known').
    { induction l as [|c l IHl]; intros acc kn Hl Gk; cbn [map foldM list_sum fold_right]. { rewrite Nat.add_0_r. eauto. } change (fold_right Nat.add 0) with list_sum.
      destruct (IH c (Hl c (or_introl eq_refl)) (Some k) fuel kn) as (kn' & Ek & Gk'); auto.
      { intros a o Ha. apply Ht. rewrite table_node. right. apply in_flat_map. exists c. split; [apply Hl; left; auto|auto]. }
      { pose proof (size_child k cs c (Hl c (or_introl eq_refl))). lia. }
      cbn [fst snd]. rewrite Ek. cbn [bind fst snd]. destruct (IHl (acc + total_descendants (snd c)) kn') as (kn2 & E2 & G2); [intros x Hx; apply Hl; right; auto|auto|]. rewrite E2. exists kn2. split; [|auto]. do 2 f_equal. lia. }
    destruct (F cs 0 known) as (kn & Ek & Gk); auto. rewrite Ek. cbn [bind fst snd]. rewrite map_length. eexists. split; [reflexivity|].
    apply (good_set kn par (Node k cs)); auto.
  Qed.
  (** ** node_word *)
  Definition up (k depth : nat) (p : list A) : Prop := forall fuel acc, depth <= fuel -> climb fuel W h k acc = Ok (p ++ acc).
  Hypothesis root : exists ch, nth_error (objs h) 0 = Some (Object None 0 ch).
  Lemma up_root : up 0 1 [].
  Proof. destruct root as [ch E]. intros [|fuel] acc Hf; [lia|]. cbn [climb]. unfold object_at. rewrite E. reflexivity. Qed.
  Lemma up_child k d p c : up k d p -> has h (table (Some k) (snd c)) -> dict_get (k, num (snd c)) (edges h) = Some (fst c) ->
    up (num (snd c)) (S d) (p ++ slice W (fst (fst c)) (snd (fst c))).
  Proof.
    intros U Hc He [|fuel] acc Hf; [lia|]. cbn [climb]. destruct (table_num (Some k) (snd c)) as (g & Ig & _). assert (E := Hc _ _ Ig). unfold object_at. rewrite E. cbn [of_option bind number parent].
    destruct (Nat.eqb_spec (num (snd c)) 0) as [X|_]. { exfalso. rewrite X in E. destruct root as [ch R]. rewrite R in E. discriminate. }
    rewrite He. cbn [of_option bind]. rewrite U by lia. rewrite <- app_assoc. auto.
  Qed.
  Lemma nodes_read : forall t par d p, has h (table par t) -> has_edges h (tedges t) -> up (num t) d p -> d + size t <= S (length (objs h)) ->
    forall k w m, In (k, w, m) (nodes dollar W p t) -> node_word dollar W h k = Ok w /\ exists par' t', has h (table par' t') /\ num t' = k /\ total_descendants t' = m /\ size t' <= length (objs h).
  Proof.
    induction t as [k0 cs IH] using tree_ind'. intros par d p Ht He U Hd k w m Hi. rewrite Forall_forall in IH. cbn [nodes num] in *. apply in_flat_map in Hi. destruct Hi as (c & Hc & Hi).
    assert (H1 : has h (table (Some k0) (snd c))) by (intros a o Ha; apply Ht; rewrite table_node; right; apply in_flat_map; eauto).
    assert (H2 : dict_get (k0, num (snd c)) (edges h) = Some (fst c)) by (apply He; rewrite tedges_node; apply in_flat_map; exists c; split; [auto|left; auto]).
    assert (H3 : has_edges h (tedges (snd c))) by (intros a o Ha; apply He; rewrite tedges_node; apply in_flat_map; exists c; split; [auto|right; auto]).
    assert (Uc := up_child _ _ _ _ U H1 H2). pose proof (size_child k0 cs c Hc) as Sc. set (p' := p ++ slice W (fst (fst c)) (snd (fst c))) in *.
    assert (Hi' : In (k, w, m) ((num (snd c), strip dollar p', total_descendants (snd c)) :: nodes dollar W p' (snd c))) by (destruct c as [e [kc cc]]; exact Hi).
    destruct Hi' as [E|Hi'].
    - injection E as <- <- <-. split; [|exists (Some k0), (snd c); repeat split; auto; lia]. unfold node_word. rewrite Uc by (pose proof (size_pos (snd c)); lia). cbn [bind]. rewrite app_nil_r. auto.
    - apply (IH c Hc (Some k0) (S d) p'); auto. lia.
  Qed.
  (** ** find_maximal_repeats *)
  Lemma count_ok m known d k w c : good known -> node_word dollar W h k = Ok w ->
    (exists par t, has h (table par t) /\ num t = k /\ total_descendants t = c /\ size t <= length (objs h)) ->
    exists known', count_repeat dollar W h m (known, d) k = Ok (known', group m d (k, w, c)) /\ good known'.
  Proof.
    intros G Ew (par & t & Ht & <- & <- & Hs). unfold count_repeat, group.
    destruct (descendants_good t par (length (objs h)) known Ht G Hs) as (k1 & E1 & G1). rewrite E1. cbn [bind fst snd].
    destruct (2 <=? total_descendants t); cbn [negb andb]; [|eauto]. rewrite Ew. cbn [bind]. destruct (m <=? Z.of_nat (length w))%Z; cbn [negb]; [|eauto].
    destruct (descendants_good t par (length (objs h)) k1 Ht G1 Hs) as (k2 & E2 & G2). rewrite E2. cbn [bind fst snd].
    destruct (descendants_good t par (length (objs h)) k2 Ht G2 Hs) as (k3 & E3 & G3). rewrite E3. cbn [bind fst snd].
    destruct (dict_get (total_descendants t) d) as [ws|]; cbn [of_option bind]; eauto.
  Qed.
  Lemma count_fold m : forall l known d, good known ->
    (forall k w c, In (k, w, c) l -> node_word dollar W h k = Ok w /\ exists par t, has h (table par t) /\ num t = k /\ total_descendants t = c /\ size t <= length (objs h)) ->
    exists known', foldM (count_repeat dollar W h m) (map (fun x => fst (fst x)) l) (known, d) = Ok (known', fold_left (group m) l d) /\ good known'.
  Proof.
    induction l as [|[[k w] c] l IH]; intros known d G Hl; cbn [map foldM fold_left fst]. { eauto. }
    destruct (Hl k w c (or_introl eq_refl)) as [E1 E2]. destruct (count_ok m known d k w c G E1 E2) as (kn & -> & Gk). cbn [bind]. apply IH; [auto|]. intros k' w' c' Hi. apply Hl. right. auto.
  Qed.
End S.

Section T.
  Context {A : Type} `{Eq A} (dollar : A).
  Lemma rep_root h t : rep h t -> exists ch, nth_error (objs h) 0 = Some (Object None 0 ch).
  Proof. intros (N0 & _ & Hh & _). destruct t as [k cs]. cbn [num] in N0. subst k. eexists. apply Hh. left. reflexivity. Qed.
  Lemma rep_read W h t : rep h t -> forall k w m, In (k, w, m) (nodes dollar W [] t) ->
    node_word dollar W h k = Ok w /\ exists par t', has h (table par t') /\ num t' = k /\ total_descendants t' = m /\ size t' <= length (objs h).
  Proof.
    intros R. pose proof R as (N0 & L & Hh & _ & _ & _). apply (nodes_read dollar W h (rep_root h t R) t None 1 []); auto.
    - apply rep_edges. auto.
    - rewrite N0. apply up_root, (rep_root h t R).
    - lia.
  Qed.
  Lemma rep_numbers W h t : rep h t -> Permutation (map (fun x => fst (fst x)) (nodes dollar W [] t)) (seq 1 (length (objs h) - 1)).
  Proof.
    intros (N0 & L & Hh & N & _ & _). rewrite nodes_nodes0, map_map.
    rewrite (map_ext _ (fun x => fst (fst x))) by (intros [[a b] c]; auto). rewrite nodes0_numbers.
    assert (P : Permutation (numbers t) (seq 0 (size t))).
    { rewrite <- (table_numbers t None). apply NoDup_Permutation_bis; [auto|rewrite seq_length, map_length, table_length; auto|].
      intros x Hx. apply in_map_iff in Hx. destruct Hx as ([k o] & <- & Hx). apply in_seq. split; [lia|]. cbn [fst]. rewrite <- L. eapply has_lt; eauto. }
    rewrite L. destruct t as [k cs]. cbn [num] in N0. subst k. cbn [kids]. unfold cnumbers. cbn [numbers size] in *. cbn [seq] in P. apply Permutation_cons_inv in P.
    cbn [Nat.sub]. rewrite Nat.sub_0_r. exact P.
  Qed.
  Lemma rep_all h t k : rep h t -> k < length (objs h) -> exists par t', has h (table par t') /\ num t' = k /\ size t' <= length (objs h).
  Proof.
    intros R Hk. pose proof R as (N0 & L & Hh & _). destruct k as [|k]. { exists None, t. split; [auto|]. split; [auto|]. lia. }
    assert (Hi : In (S k) (map (fun x => fst (fst x)) (nodes dollar [] [] t))). { apply (Permutation_in _ (Permutation_sym (rep_numbers [] h t R))), in_seq. lia. }
    apply in_map_iff in Hi. destruct Hi as ([[k' w] m] & E & Hi). cbn [fst] in E. subst k'. destruct (rep_read [] h t R _ _ _ Hi) as (_ & par & t' & H1 & H2 & _ & H4). eauto.
  Qed.
  Lemma print_ok (W : list A) : forall t, map (fun e : (nat * nat) * (nat * nat) => slice W (fst (snd e)) (snd (snd e))) (tedges t) = print_edges W t.
  Proof.
    induction t as [k cs IH] using tree_ind'. cbn [tedges print_edges]. rewrite Forall_forall in IH. induction cs as [|c cs IHc]; cbn [flat_map map]; [auto|].
    rewrite map_app. cbn [map snd fst app]. rewrite (IH c) by (left; auto). rewrite IHc by (intros x Hx; apply IH; right; auto). auto.
  Qed.
  Lemma good_nil h : good h [].
  Proof. intros k d E. discriminate. Qed.
  Lemma asked_good h t : rep h t -> forall asked known, good h known -> (forall x, In x asked -> x < length (objs h)) ->
    exists known', foldM (fun known x => do r <- descendants_of (length (objs h)) h known x ; Ok (snd r)) asked known = Ok known' /\ good h known'.
  Proof.
    intros R. induction asked as [|x asked IH]; intros known G Ha; cbn [foldM]. { eauto. }
    destruct (rep_all h t x R (Ha x (or_introl eq_refl))) as (par & t' & H1 & <- & H3). destruct (descendants_good h t' par _ known H1 G H3) as (kn & -> & Gk). cbn [bind snd]. apply IH; [auto|]. intros y Hy. apply Ha. right. auto.
  Qed.
End T.

(*P C130 Suffix trees *)
(** the nodes of [suffix_tree] are what can be asked of the node objects that the
    code makes and changes, whatever has been asked before *)
Lemma C130_objects : forall (A : Type) (EA : Eq A) (dollar : A) (s : list A),
  match suffix_tree dollar s with
  | Ok (w, t) => exists h, suffix_objects dollar s = Ok (w, h) /\
      Permutation (map (fun x => fst (fst x)) (nodes dollar w [] t)) (seq 1 (length (objs h) - 1)) /\
      Permutation (print_edges_of w h) (print_edges w t) /\
      forall asked, (forall x, In x asked -> x < length (objs h)) ->
        exists known, foldM (fun known x => do r <- descendants_of (length (objs h)) h known x ; Ok (snd r)) asked [] = Ok known /\
          forall k u d, In (k, u, d) (nodes dollar w [] t) ->
            node_word dollar w h k = Ok u /\ exists known', descendants_of (length (objs h)) h known k = Ok (d, known')
  | Err e => suffix_objects dollar s = Err e
  end.
Proof.
  intros A EA dollar s. assert (O := objects_ok dollar s). destruct (suffix_tree dollar s) as [[w t]|e]; [|auto]. destruct O as (h & E & R). exists h. split; [auto|].
  split; [apply (rep_numbers dollar w h t R)|]. split.
  - unfold print_edges_of. rewrite <- print_ok. apply Permutation_map. apply R.
  - intros asked Ha. destruct (asked_good dollar h t R asked [] (good_nil h) Ha) as (known & Ek & G). exists known. split; [auto|]. intros k u d Hi.
    destruct (rep_read dollar w h t R _ _ _ Hi) as (Ew & par & t' & H1 & <- & <- & H4). split; [auto|]. destruct (descendants_good h t' par _ known H1 G H4) as (kn & -> & _). eauto.
Qed.
(*P C24 Maximal repeats *)
(** the code works on node objects and remembers the numbers of descendants: same
    results, same errors *)
Lemma C24_objects : forall (A : Type) (EA : Eq A) (dollar : A) (s : list A) (m : Z),
  find_maximal_repeats_objects dollar s m = find_maximal_repeats dollar s m.
Proof.
  intros A EA dollar s m. unfold find_maximal_repeats_objects, find_maximal_repeats. assert (O := objects_ok dollar s). destruct (suffix_tree dollar s) as [[w t]|e]; [|rewrite O; auto].
  destruct O as (h & -> & R). cbn [bind fst snd]. set (ns := stable_sort _ _).
  rewrite <- (sort_numbers (nodes dollar w [] t) (length (objs h) - 1)) by (apply (rep_numbers dollar w h t R)). fold ns.
  destruct (count_fold dollar w h m ns [] []) as (known & Ek & _); [apply good_nil| |].
  - intros k u c Hi. apply sort_In in Hi. apply (rep_read dollar w h t R); auto.
  - unfold dict in *. rewrite Ek. reflexivity.
Qed.
