(** The objects of a suffix tree represent the tree, continued: what is done to them *)
From Verif.Model Require Import Base Sort ListUtils Patterns SuffixTree SuffixObjects.
From Verif.Spec Require Import Lists Words.
From Verif.Lib Require Import ListLib SortLib DictLib.
From Verif.Proofs Require Import SuffixTree SuffixTreeB SuffixObjectsA.
From Coq Require Import Sorted Permutation.
Open Scope nat_scope.

Lemma list_set_some {X} (l : list X) i v : i < length l -> exists l', list_set l i v = Some l' /\ length l' = length l /\ forall j, nth_error l' j = if j =? i then Some v else nth_error l j.
Proof.
  revert i. induction l as [|x l IH]; intros [|i] Hi; cbn [length list_set] in *; try lia.
  - eexists. split; [reflexivity|]. split; [auto|]. intros [|j]; auto.
  - destruct (IH i) as (l' & E & L & N); [lia|]. rewrite E. cbn [option_map]. eexists. split; [reflexivity|]. split; [cbn; lia|]. intros [|j]; cbn; auto.
Qed.
Lemma update_nth k f h j : nth_error (objs (update k f h)) j = if j =? k then option_map f (nth_error (objs h) j) else nth_error (objs h) j.
Proof.
  unfold update. cbn [objs]. destruct (nth_error (objs h) k) as [o|] eqn:E.
  - destruct (list_set_some (objs h) k (f o)) as (l' & El & _ & N); [apply nth_error_Some; congruence|]. rewrite El, N. destruct (Nat.eqb_spec j k) as [->|]; [rewrite E; auto|auto].
  - destruct (Nat.eqb_spec j k) as [->|]; [rewrite E; auto|auto].
Qed.
Lemma update_length k f h : length (objs (update k f h)) = length (objs h).
Proof.
  unfold update. cbn [objs]. destruct (nth_error (objs h) k) as [o|] eqn:E; [|auto].
  destruct (list_set_some (objs h) k (f o)) as (l' & El & L & _); [apply nth_error_Some; congruence|]. rewrite El. auto.
Qed.
Lemma update_edges k f h : edges (update k f h) = edges h.
Proof. reflexivity. Qed.
Lemma add_node_edges k a b o h : edges (add_node k a b o h) = dict_set (k, number o) (a, b) (edges h).
Proof. reflexivity. Qed.
Lemma add_node_length k a b o h : length (objs (add_node k a b o h)) = S (length (objs h)).
Proof. unfold add_node. cbn [objs]. rewrite update_length. cbn [objs]. rewrite app_length. cbn. lia. Qed.
Lemma nth_snoc {X} (l : list X) x j : nth_error (l ++ [x]) j = if j =? length l then Some x else nth_error l j.
Proof.
  destruct (Nat.eqb_spec j (length l)) as [->|Ne]; [rewrite nth_error_app2, Nat.sub_diag by lia; auto|].
  destruct (Nat.lt_ge_cases j (length l)); [apply nth_error_app1; auto|]. rewrite (proj2 (nth_error_None l j)) by lia. apply nth_error_None. rewrite app_length. cbn. lia.
Qed.
Lemma add_node_nth k a b o h j : k < length (objs h) -> nth_error (objs (add_node k a b o h)) j =
  if j =? length (objs h) then Some o else if j =? k then option_map (add_child (number o)) (nth_error (objs h) j) else nth_error (objs h) j.
Proof.
  intros Hk. unfold add_node. cbn [objs]. rewrite update_nth. cbn [objs]. rewrite !nth_snoc. destruct (Nat.eqb_spec j k) as [->|]; [|auto].
  destruct (Nat.eqb_spec k (length (objs h))); [lia|auto].
Qed.
Lemma set_absent {K V} `{Eq K} k (v : V) d : dict_get k d = None -> dict_set k v d = d ++ [(k, v)].
Proof.
  induction d as [|[k' v'] d IH]; cbn [dict_get dict_set app]; [auto|]. destruct (eqb k k'); [discriminate|]. intros E. rewrite IH by auto. auto.
Qed.
Lemma absent {K V} `{Eq K} k (d : dict K V) : ~ In k (keys d) -> dict_get k d = None.
Proof.
  induction d as [|[k' v'] d IH]; cbn [dict_get keys map fst In]; [auto|]. intros N. destruct (eqb_ok k k') as [->|]; [exfalso; auto|]. auto.
Qed.
Lemma present {K V} `{Eq K} k (v : V) (d : dict K V) : NoDup (keys d) -> In (k, v) d -> dict_get k d = Some v.
Proof.
  induction d as [|[k' v'] d IH]; cbn [dict_get keys map fst In]; [contradiction|]. intros N Hi. inversion N as [|? ? N1 N2]; subst. destruct (eqb_ok k k') as [->|Ne].
  - destruct Hi as [Hi|Hi]; [congruence|]. exfalso. apply N1. apply in_map_iff. exists (k', v). auto.
  - destruct Hi as [Hi|Hi]; [congruence|]. auto.
Qed.
Lemma del_perm {K V} `{Eq K} k (v : V) (d : dict K V) : dict_get k d = Some v -> Permutation d ((k, v) :: dict_del k d).
Proof.
  induction d as [|[k' v'] d IH]; cbn [dict_get dict_del]; [discriminate|]. destruct (eqb_ok k k') as [->|Ne]. { intros [= ->]. reflexivity. }
  intros E. rewrite (IH E) at 1. apply perm_swap.
Qed.
Lemma remove_first c l1 l2 : ~ In c l1 -> list_remove c (l1 ++ c :: l2) = Ok (l1 ++ l2).
Proof.
  induction l1 as [|x l1 IH]; intros N; cbn [app list_remove]. { rewrite Nat.eqb_refl. auto. }
  destruct (Nat.eqb_spec x c) as [->|]; [exfalso; apply N; left; auto|]. rewrite IH by (intros X; apply N; right; auto). auto.
Qed.

Lemma NoDup_app3 {X} (l m : list X) : NoDup (l ++ m) -> NoDup l /\ NoDup m /\ forall x, In x l -> ~ In x m.
Proof.
  induction l as [|a l IH]; cbn [app]; intros N. { split; [constructor|]. split; [auto|]. intros x []. }
  inversion N as [|? ? N1 N2]; subst. destruct (IH N2) as (I1 & I2 & I3). split; [constructor; [intros X0; apply N1, in_or_app; auto|auto]|]. split; [auto|].
  intros x [<-|Hx] Hm; [apply N1, in_or_app; auto|exact (I3 x Hx Hm)].
Qed.
Lemma table_length : forall t par, length (table par t) = size t.
Proof.
  induction t as [k cs IH] using tree_ind'. intros par. cbn [table size length]. f_equal. rewrite Forall_forall in IH.
  induction cs as [|c cs IHc]; cbn [flat_map map list_sum fold_right]; [auto|]. change (fold_right Nat.add 0) with list_sum. rewrite app_length, (IH c) by (left; auto). rewrite IHc by (intros x Hx; apply IH; right; auto). auto.
Qed.
Lemma tedges_In par : forall t e v, In (e, v) (tedges t) -> In (fst e) (map fst (table par t)) /\ In (snd e) (map fst (table par t)).
Proof.
  intros t. revert par. induction t as [k cs IH] using tree_ind'. intros par e v Hi. cbn [tedges table map fst] in *. rewrite Forall_forall in IH.
  apply in_flat_map in Hi. destruct Hi as (c & Hc & [E|Hi]).
  - injection E as <- _. cbn [fst snd]. split; [left; auto|]. right. apply in_map_iff. destruct (table_num (Some k) (snd c)) as (g & Ig & _). eexists. split; [|apply in_flat_map; eauto]. auto.
  - destruct (IH c Hc (Some k) e v Hi) as [H1 H2]. rewrite in_map_iff in H1, H2. destruct H1 as (x & X1 & X2). destruct H2 as (y & Y1 & Y2). split; right; apply in_map_iff; [exists x|exists y]; (split; [auto|]; apply in_flat_map; eauto).
Qed.
Lemma kids_nodup k : forall cs : list (nat * nat * tree), NoDup (map fst (flat_map (fun c => table (Some k) (snd c)) cs)) -> NoDup (map (fun c => num (snd c)) cs).
Proof.
  induction cs as [|c cs IH]; cbn [flat_map map]; [constructor|]. rewrite map_app. intros N. apply NoDup_app3 in N. destruct N as (N1 & N2 & N3). constructor; [|auto].
  intros Hi. apply in_map_iff in Hi. destruct Hi as (c' & E & Hi). destruct (table_num (Some k) (snd c)) as (g & Ig & _). destruct (table_num (Some k) (snd c')) as (g' & Ig' & _).
  apply (N3 (num (snd c))); apply in_map_iff; eexists; (split; [|try (apply in_flat_map; exists c'; split; [auto|]); eauto]); auto.
Qed.
Lemma children_nodup : forall t par p o, NoDup (map fst (table par t)) -> In (p, o) (table par t) -> NoDup (children o).
Proof.
  induction t as [k cs IH] using tree_ind'. intros par p o N Hi. cbn [table map fst] in *. rewrite Forall_forall in IH. inversion N as [|? ? N1 N2]; subst.
  destruct Hi as [E|Hi]. { injection E as <- <-. cbn [children]. eapply kids_nodup; eauto. }
  apply in_flat_map in Hi. destruct Hi as (c & Hc & Hi). apply (IH c Hc (Some k) p o); auto.
  apply in_split in Hc. destruct Hc as (l1 & l2 & ->). rewrite flat_map_app in N2. cbn [flat_map] in N2. rewrite !map_app in N2. apply NoDup_app3 in N2. destruct N2 as (_ & N2 & _). apply NoDup_app3 in N2. tauto.
Qed.
