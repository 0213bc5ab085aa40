From Verif.Model Require Import Base Sort ListUtils Patterns SuffixTree.
From Verif.Spec Require Import Lists Words.
From Verif.Lib Require Import ListLib SortLib.
From Verif.Proofs Require Import SuffixTree.
From Coq Require Import Sorted Permutation.
Open Scope nat_scope.

(** ** numbers of the nodes *)
Fixpoint numbers (t : tree) : list nat := match t with Node k cs => k :: flat_map (fun c => numbers (snd c)) cs end.
Lemma numbers_length t : length (numbers t) = size t.
Proof.
  induction t as [num cs IH] using tree_ind'. cbn [numbers size length]. f_equal.
  induction IH as [|c cs Hc _ IHc]; cbn [flat_map map list_sum fold_right]; [auto|]. change (fold_right Nat.add 0) with list_sum. rewrite app_length, Hc, IHc. auto.
Qed.
Definition cnumbers (cs : list (nat * nat * tree)) : list nat := flat_map (fun c => numbers (snd c)) cs.
Definition fresh (next : nat) (l l' : list nat) : Prop := exists k, Permutation l' (l ++ seq next k).
Lemma fresh_app next l l' r r' : fresh next l l' -> Permutation r r' -> fresh next (l ++ r) (l' ++ r').
Proof. intros [k P] Q. exists k. rewrite P, <- Q, <- !app_assoc. apply Permutation_app_head. apply Permutation_app_comm. Qed.
Lemma fresh_app2 next l l' r r' : fresh next l l' -> Permutation r r' -> fresh next (r ++ l) (r' ++ l').
Proof. intros [k P] Q. exists k. rewrite P, <- Q, app_assoc. auto. Qed.

Section S.
  Context {A : Type} `{Eq A} (W : list A).

  Lemma insert_numbers next : forall t start t', insert W next start t = Ok t' -> fresh next (numbers t) (numbers t').
  Proof.
    induction t as [num cs IH] using tree_ind'. intros start t' E. cbn [insert] in E.
    set (rec := fun st c => insert W next st c) in *.
    assert (C : forall o, insert_children rec W next start cs = Ok o ->
      match o with
      | NotFound => True
      | InPlace cs' => fresh next (cnumbers cs) (cnumbers cs')
      | Removed cs' nn => fresh next (cnumbers cs) (cnumbers (cs' ++ [nn]))
      end).
    { clear E t'. induction IH as [|[[es ee] c] cs Hc _ IHc]; intros o E; cbn [insert_children] in E; [injection E as <-; auto|].
      destruct (eqb (slice W start (start + ee - es)) (slice W es ee)).
      - destruct (rec (start + ee - es) c) as [c'|] eqn:R; cbn [bind] in E; [|discriminate]. injection E as <-. apply Hc in R. cbn [cnumbers flat_map snd]. apply fresh_app; auto.
      - destruct (nth_error W es) as [x|]; cbn [of_option bind] in E; [|discriminate]. destruct (nth_error W start) as [y|]; cbn [of_option bind] in E; [|discriminate].
        destruct (eqb x y).
        + unfold split_edge in E. destruct (insert_len _ W start es 0) as [len|]; cbn [bind] in E; [|discriminate]. injection E as <-.
          exists 2. unfold cnumbers. rewrite flat_map_app. cbn [flat_map snd numbers app seq]. rewrite !app_nil_r. rewrite Permutation_app_comm.
          replace (next + 1) with (S next) by lia. rewrite <- !app_assoc. cbn [app].
          assert (X : forall (a b : list nat) x y, Permutation (x :: a ++ y :: b) (a ++ b ++ [x; y])).
          { clear. intros a b x y. transitivity (x :: y :: a ++ b); [apply perm_skip; symmetry; apply Permutation_middle|]. rewrite app_assoc. apply (Permutation_app_comm [x; y]). }
          rewrite <- app_assoc. cbn [app]. apply (X (numbers c) (flat_map (fun c => numbers (snd c)) cs) next (S next)).
        + change ((fix go (cs : list (nat * nat * tree)) : result outcome :=
                     match cs with
                     | [] => Ok NotFound
                     | ((es, ee), c) :: rest =>
                       if eqb (slice W start (start + ee - es)) (slice W es ee)
                       then do c' <- rec (start + ee - es) c ; Ok (InPlace (((es, ee), c') :: rest))
                       else
                         do x <- of_option IndexError (nth_error W es) ;
                         do y <- of_option IndexError (nth_error W start) ;
                         if eqb x y
                         then do nn <- split_edge W next start es ee c ; Ok (Removed rest nn)
                         else
                           do o <- go rest ;
                           match o with
                           | NotFound => Ok NotFound
                           | InPlace rest' => Ok (InPlace (((es, ee), c) :: rest'))
                           | Removed rest' nn => Ok (Removed (((es, ee), c) :: rest') nn)
                           end
                     end) cs) with (insert_children rec W next start cs) in E.
          destruct (insert_children rec W next start cs) as [[|cs'|cs' nn]|]; cbn [bind] in E; try discriminate; injection E as <-; [auto| |]; specialize (IHc _ eq_refl); cbn [cnumbers flat_map snd app].
          * apply fresh_app2; auto.
          * apply fresh_app2; auto. }
    destruct (insert_children rec W next start cs) as [[|cs'|cs' nn]|]; cbn [bind] in E; try discriminate; injection E as <-; specialize (C _ eq_refl); cbn [numbers].
    - exists 1. cbn [seq]. rewrite flat_map_app. cbn [flat_map numbers snd app]. auto.
    - destruct C as [k C]. exists k. cbn [app]. apply perm_skip. auto.
    - destruct C as [k C]. exists k. cbn [app]. apply perm_skip. auto.
  Qed.
  Lemma fold_numbers l : forall t t', Permutation (numbers t) (seq 0 (size t)) -> foldM (add_suffix W) l t = Ok t' -> Permutation (numbers t') (seq 0 (size t')).
  Proof.
    induction l as [|i l IH]; intros t t' P E; cbn [foldM] in E; [injection E as <-; auto|].
    unfold add_suffix at 1 in E. destruct (insert W (size t) i t) as [t1|] eqn:E1; cbn [bind] in E; [|discriminate].
    apply (IH t1); [|auto]. apply insert_numbers in E1. destruct E1 as [k P1]. pose proof (Permutation_length P1) as L. rewrite app_length, !numbers_length, seq_length in L.
    rewrite P1, P, L, seq_app. auto.
  Qed.

  (** ** nodes below a node *)
  Variable dollar : A.
  Notation child := (nat * nat * tree)%type.
  Definition kids (t : tree) : list child := match t with Node _ cs => cs end.
  Lemma nodes0_length : forall t p, length (nodes0 W p t) = total_descendants t.
  Proof.
    induction t as [num cs IH] using tree_ind'. intros p. cbn [nodes0 total_descendants].
    induction IH as [|c cs Hc _ IHc]; cbn [flat_map map list_sum fold_right length]; [auto|]. change (fold_right Nat.add 0) with list_sum. rewrite app_length, IHc.
    destruct (snd c) as [k ccs] eqn:Ec. cbn [length]. rewrite <- Ec in *. rewrite Hc. lia.
  Qed.
  Lemma nodes0_numbers : forall t p, map (fun x => fst (fst x)) (nodes0 W p t) = cnumbers (kids t).
  Proof.
    induction t as [num cs IH] using tree_ind'. intros p. cbn [nodes0 kids]. unfold cnumbers.
    induction IH as [|c cs Hc _ IHc]; cbn [flat_map map]; [auto|]. rewrite map_app, IHc. f_equal.
    destruct (snd c) as [k ccs] eqn:Ec. cbn [map fst numbers]. f_equal. apply Hc.
  Qed.
  Lemma leaf_inode : forall t num cs p x, t = Node num cs -> In x (below W p cs) <-> exists k, inode W p cs x (Node k []).
  Proof.
    induction t as [num0 cs0 IH] using tree_ind'; intros num cs p x E. injection E as -> ->. rewrite below_In. rewrite Forall_forall in IH. split.
    - intros (c & Hc & Hx). destruct (snd c) as [k ccs] eqn:Ec. destruct ccs as [|c' ccs].
      + destruct Hx as [<-|[]]. exists k. rewrite <- Ec. apply inode_here. auto.
      + rewrite leaves_node in Hx by discriminate. apply (IH c Hc k (c' :: ccs)) in Hx; [|auto]. destruct Hx as [k' Hx]. exists k'. eapply inode_deep; eauto.
    - intros [k Hi]. inversion Hi as [? ? c Hc E1 E2 E3|? ? c num' cc ? ? Hc Ec Hi']; subst.
      + exists c. split; [auto|]. rewrite H0. left. auto.
      + exists c. split; [auto|]. rewrite Ec. assert (cc <> []) by (inversion Hi'; subst; destruct cc; try discriminate; contradiction).
        rewrite leaves_node by auto. apply (IH c Hc num' cc); auto. exists k. auto.
  Qed.
  Lemma inode_below p cs q t q' t' : inode W p cs q t -> Forall (child_ok W) cs -> NoDup (map (first W) cs) -> inode W p cs q' t' -> pre q q' ->
    (q' = q /\ t' = t) \/ inode W q (kids t) q' t'.
  Proof.
    intros I. revert q' t'. induction I as [p cs c Hc|p cs c num ccs q t Hc Ec I IH]; intros q' t' Hok Hnd I' PW.
    - assert (Hok' := Hok). rewrite Forall_forall in Hok'. destruct (Hok' c Hc) as (He & Ha & Hw).
      inversion I' as [? ? c' Hc' E1 E2 E3|? ? c' num' cc ? ? Hc' Ec' Hi']; subst.
      + destruct PW as [w E2]. rewrite <- app_assoc in E2. apply app_inv_head in E2. destruct (Hok' c' Hc') as (He' & _).
        destruct (lab_cons W c He) as (a & r & El & F), (lab_cons W c' He') as (a' & r' & El' & F'). rewrite El, El' in E2. cbn in E2. injection E2 as -> _.
        assert (c' = c) by (apply (NoDup_map_inj (first W) cs); auto; congruence). subst c'. left. auto.
      + destruct (Hok' c' Hc') as (He' & _ & Hw'). rewrite Ec' in Hw'. inversion Hw' as [? ? Hch' Hnd']; subst.
        destruct (inode_ok W _ _ _ _ Hi' Hch') as (_ & _ & (v & Hv & Eq) & _). destruct PW as [w Ew]. rewrite Ew in Eq. rewrite <- !app_assoc in Eq. apply app_inv_head in Eq.
        destruct (lab_cons W c He) as (a & r & El & F), (lab_cons W c' He') as (a' & r' & El' & F'). rewrite El, El' in Eq. cbn in Eq. injection Eq as -> _.
        assert (c' = c) by (apply (NoDup_map_inj (first W) cs); auto; congruence). subst c'. right. rewrite Ec'. cbn [kids]. auto.
    - assert (Hok' := Hok). rewrite Forall_forall in Hok'. destruct (Hok' c Hc) as (He & Ha & Hw). rewrite Ec in Hw. inversion Hw as [? ? Hch Hnd2]; subst.
      destruct (inode_ok W _ _ _ _ I Hch) as (_ & _ & (v & Hv & Eq) & _).
      assert (SAME : forall c', In c' cs -> (exists z w, p ++ lab W c' ++ z = q ++ w) -> c' = c).
      { intros c' Hc' (z & w & Ez). destruct (Hok' c' Hc') as (He' & _). rewrite Eq, <- !app_assoc in Ez. apply app_inv_head in Ez.
        destruct (lab_cons W c He) as (a & r & El & F), (lab_cons W c' He') as (a' & r' & El' & F'). rewrite El, El' in Ez. cbn in Ez. injection Ez as -> _. apply (NoDup_map_inj (first W) cs); auto. congruence. }
      inversion I' as [? ? c' Hc' E1 E2 E3|? ? c' num' cc ? ? Hc' Ec' Hi']; subst.
      + assert (c' = c) by (apply SAME; [auto|destruct PW as [w Ew]; exists [], w; rewrite app_nil_r; auto]). subst c'. exfalso. destruct PW as [w E2]. apply (f_equal (@length A)) in E2. rewrite !app_length in E2. destruct v; [congruence|]. cbn in E2. lia.
      + destruct (Hok' c' Hc') as (He' & _ & Hw'). rewrite Ec' in Hw'. inversion Hw' as [? ? Hch' Hnd']; subst.
        destruct (inode_ok W _ _ _ _ Hi' Hch') as (_ & _ & (v' & Hv' & Eq') & _).
        assert (c' = c) by (apply SAME; [auto|destruct PW as [w Ew]; exists v', w; rewrite <- app_assoc in Eq'; rewrite <- Eq'; auto]). subst c'. rewrite Ec in Ec'. injection Ec' as -> ->.
        apply IH; auto.
  Qed.
  Lemma inode_trans p cs q t q' t' : inode W p cs q t -> inode W q (kids t) q' t' -> inode W p cs q' t'.
  Proof.
    induction 1 as [p cs c Hc|p cs c num ccs q t Hc Ec I IH]; intros I'.
    - destruct (snd c) as [k ccs] eqn:Ec. eapply inode_deep; eauto.
    - eapply inode_deep; eauto.
  Qed.

  (** ** how many nodes *)
  Fixpoint leaf_count (t : tree) : nat := match t with Node _ cs => match cs with [] => 1 | _ => list_sum (map (fun c => leaf_count (snd c)) cs) end end.
  Lemma leaves_length : forall t p, length (leaves W p t) = leaf_count t.
  Proof.
    induction t as [num cs IH] using tree_ind'. intros p. destruct cs as [|c0 cs0]; [auto|]. rewrite leaves_node by discriminate. cbn [leaf_count]. unfold below.
    induction IH as [|c cs Hc _ IHc]; cbn [flat_map map list_sum fold_right]; [auto|]. change (fold_right Nat.add 0) with list_sum. rewrite app_length, Hc, IHc. auto.
  Qed.
  Lemma size_leaves : forall t, wf W t -> arity t <> 1 -> size t + 1 <= 2 * leaf_count t.
  Proof.
    induction t as [num cs IH] using tree_ind'. intros Hw Ha. inversion Hw as [? ? Hch Hnd]; subst. clear Hw Hnd.
    assert (X : list_sum (map (fun c => size (snd c)) cs) + length cs <= 2 * list_sum (map (fun c => leaf_count (snd c)) cs)).
    { clear Ha. induction IH as [|c cs Hc _ IHc]; cbn [map list_sum fold_right length]; [auto|]. change (fold_right Nat.add 0) with list_sum. inversion Hch as [|? ? (_ & Hca & Hcw) Hch']; subst. specialize (Hc Hcw Hca). specialize (IHc Hch'). lia. }
    destruct cs as [|c1 [|c2 cs]]; cbn [arity length] in *; [cbn; lia|lia|]. cbn [size leaf_count]. lia.
  Qed.
End S.

Lemma filter_NoDup_map {X Y} (f : X -> Y) p (l : list X) : NoDup (map f l) -> NoDup (map f (filter p l)).
Proof.
  induction l as [|x l IH]; cbn [map filter]; intros N; [constructor|]. inversion N as [|? ? N1 N2]; subst. destruct (p x); [|auto]. cbn [map]. constructor; [|auto].
  intros Hi. apply N1. apply in_map_iff in Hi. destruct Hi as (y & E & Hy). apply filter_In in Hy. rewrite <- E. apply in_map. tauto.
Qed.
Lemma filter_split_length {X} p (l : list X) : length l = length (filter p l) + length (filter (fun x => negb (p x)) l).
Proof. induction l as [|x l IH]; [auto|]. cbn [filter]. destruct (p x); cbn [negb length]; lia. Qed.
Lemma list_sum_0 l : (forall x, In x l -> 1 <= x) -> l <> [] -> 1 <= list_sum l.
Proof. destruct l as [|x l]; [congruence|]. intros Hx _. specialize (Hx x (or_introl eq_refl)). cbn. lia. Qed.

Section T.
  Context {A : Type} `{EA : Eq A} (dollar : A) (s : list A).
  Hypothesis Hdol : ~ In dollar s.
  Let W := s ++ [dollar].
  Variable cs : list (nat * nat * tree).
  Hypothesis Hwf : wf W (Node 0 cs).
  Hypothesis Hb : forall x, In x (below W [] cs) <-> exists j, j < length W /\ x = skipn j W.
  Local Notation n0 := (nodes0 W [] (Node 0 cs)).
  Local Notation leafb := (fun x : nat * list A * nat => snd x =? 0).
  Local Notation innerb := (fun x : nat * list A * nat => negb (snd x =? 0)).

  Lemma kids_ok : Forall (child_ok W) cs /\ NoDup (map (first W) cs).
  Proof. inversion Hwf; subst. auto. Qed.
  Lemma d0 k (ccs : list (nat * nat * tree)) : total_descendants (Node k ccs) = 0 <-> ccs = [].
  Proof. split; [|intros ->; auto]. destruct ccs; [auto|]. cbn. lia. Qed.
  Lemma W_len : length W = S (length s).
  Proof. unfold W. clear. rewrite app_length. cbn. lia. Qed.
  Lemma leaf_entry q : In q (map (fun x => snd (fst x)) (filter leafb n0)) <-> exists j, j < length W /\ q = skipn j W.
  Proof.
    rewrite <- Hb, (leaf_inode W (Node 0 cs) 0 cs [] q eq_refl), in_map_iff. split.
    - intros (((k & q') & d) & <- & Hin). apply filter_In in Hin. destruct Hin as [Hin Hd]. cbn [fst snd] in *. apply Nat.eqb_eq in Hd. subst d.
      apply (nodes0_In W (Node 0 cs) 0 cs) in Hin; [|auto]. destruct Hin as (ccs & Hi & E). symmetry in E. apply d0 in E. subst ccs. eauto.
    - intros [k Hi]. exists (k, q, 0). split; [auto|]. apply filter_In. split; [|auto]. apply (nodes0_In W (Node 0 cs) 0 cs); [auto|]. exists []. auto.
  Qed.
  Lemma inner_entry q : (exists k d, 0 < d /\ In (k, q, d) n0) <-> q <> [] /\ right_branching s q.
  Proof.
    destruct kids_ok as [Hch Hnd]. split.
    - intros (k & d & Hd & Hin). apply (nodes0_In W (Node 0 cs) 0 cs) in Hin; [|auto]. destruct Hin as (ccs & Hi & ->).
      destruct (inode_ok W _ _ _ _ Hi Hch) as (Har & _ & (v & Hv & Eq) & _). split; [rewrite Eq; auto|].
      assert (Ar : 2 <= arity (Node k ccs)) by (cbn [arity] in *; destruct ccs as [|? [|? ?]]; cbn in *; lia).
      destruct (inode_branch W _ _ _ _ Hi Hch Ar) as (a & b & x & y & Hab & Hx & Hy).
      apply (branching_iff W dollar s eq_refl Hdol q cs Hb). exists a, b, x, y. auto.
    - intros [Hq Hr]. apply (branching_iff W dollar s eq_refl Hdol q cs Hb) in Hr. destruct Hr as (a & b & x & y & Hab & Hx & Hy).
      destruct (branch_inode W (Node 0 cs) 0 cs [] q a b x y eq_refl Hwf Hq Hab Hx Hy) as ([k ccs] & Hi & Ha). cbn [app] in Hi.
      exists k, (total_descendants (Node k ccs)). split; [|apply (nodes0_In W (Node 0 cs) 0 cs); eauto]. destruct ccs; cbn in *; lia.
  Qed.
  Lemma strip_suffix j : j < length W -> strip dollar (skipn j W) = skipn j s.
  Proof.
    rewrite W_len. intros Hj. unfold W. rewrite skipn_app. replace (j - length s) with 0 by lia. cbn [skipn]. unfold strip. rewrite rev_app_distr. cbn [rev app].
    rewrite eqb_refl, rev_involutive. auto.
  Qed.
  Lemma strip_of_inner k q d : In (k, q, d) n0 -> 0 < d -> strip dollar q = q.
  Proof.
    intros Hin Hd. assert (Hr : q <> [] /\ right_branching s q) by (apply inner_entry; eauto). destruct Hr as [_ Hr].
    apply (branching_iff W dollar s eq_refl Hdol q cs Hb) in Hr. destruct Hr as (a & b & x & y & _ & Hx & _). apply Hb in Hx. destruct Hx as (j & _ & E). eapply strip_inner; eauto.
  Qed.

  Lemma numbers_ok : foldM (add_suffix W) (seq 0 (length W)) (Node 0 []) = Ok (Node 0 cs) ->
    Permutation (map (fun x => fst (fst x)) (nodes dollar W [] (Node 0 cs))) (seq 1 (length (nodes dollar W [] (Node 0 cs)))).
  Proof.
    intros E. apply fold_numbers in E; [|cbn; auto]. cbn [numbers size] in E. rewrite nodes_nodes0, map_map, map_length, nodes0_length.
    assert (X : map (fun x : nat * list A * nat => fst (fst (let '(k, q, d) := x in (k, strip dollar q, d)))) n0 = cnumbers cs).
    { change (cnumbers cs) with (cnumbers (kids (Node 0 cs))). rewrite <- (nodes0_numbers W (Node 0 cs) []). apply map_ext. intros [[k q] d]. auto. }
    rewrite X. rewrite descendants_size. cbn [size]. replace (S (list_sum (map (fun c => size (snd c)) cs)) - 1) with (list_sum (map (fun c => size (snd c)) cs)) by lia.
    cbn [seq] in E. apply Permutation_cons_inv in E. exact E.
  Qed.
  Lemma leaf_words : Permutation (map (fun x => snd (fst x)) (filter leafb (nodes dollar W [] (Node 0 cs)))) (map (fun j => skipn j s) (seq 0 (length s + 1))).
  Proof.
    assert (P : Permutation (map (fun x => snd (fst x)) (filter leafb n0)) (map (fun j => skipn j W) (seq 0 (length W)))).
    { apply NoDup_Permutation.
      - apply filter_NoDup_map. apply nodes0_NoDup. auto.
      - assert (X : NoDup (map (fun j => length (skipn j W)) (seq 0 (length W)))).
        { rewrite (map_ext _ (fun j => length W - j)) by (intros; apply skipn_length). assert (G : forall m k, m + k <= length W -> NoDup (map (fun j => length W - j) (seq m k))).
          { intros m k. revert m. induction k as [|k IH]; intros m L; cbn [seq map]; constructor; [|apply IH; lia]. intros Hi. apply in_map_iff in Hi. destruct Hi as (j & E & Hj). apply in_seq in Hj. lia. }
          apply G. lia. }
        rewrite <- map_map in X. apply NoDup_map_inv in X. auto.
      - intros q. rewrite leaf_entry, in_map_iff. split; intros (j & H1 & H2); exists j; [rewrite in_seq|apply in_seq in H2]; split; auto; lia. }
    apply (Permutation_map (strip dollar)) in P. rewrite !map_map in P.
    assert (E1 : map (fun x : nat * list A * nat => snd (fst x)) (filter leafb (nodes dollar W [] (Node 0 cs))) = map (fun x => strip dollar (snd (fst x))) (filter leafb n0)).
    { rewrite nodes_nodes0. generalize n0. induction l as [|[[k q] d] l IH]; [auto|]. cbn [map filter snd fst]. destruct (d =? 0); cbn [map snd fst]; rewrite IH; auto. }
    rewrite E1, P. replace (length W) with (length s + 1) by (rewrite W_len; lia). match goal with |- Permutation ?a ?b => replace a with b; [reflexivity|] end. apply map_ext_in. intros j Hj. apply in_seq in Hj. symmetry. apply strip_suffix. rewrite W_len. lia.
  Qed.
  Lemma inner_words : NoDup (map (fun x => snd (fst x)) (filter innerb (nodes dollar W [] (Node 0 cs)))) /\
    forall u, In u (map (fun x => snd (fst x)) (filter innerb (nodes dollar W [] (Node 0 cs)))) <-> u <> [] /\ right_branching s u.
  Proof.
    assert (E1 : map (fun x : nat * list A * nat => snd (fst x)) (filter innerb (nodes dollar W [] (Node 0 cs))) = map (fun x => snd (fst x)) (filter innerb n0)).
    { rewrite nodes_nodes0. assert (G : forall k q d, In (k, q, d) n0 -> 0 < d -> strip dollar q = q) by exact strip_of_inner. revert G. generalize n0. induction l as [|[[k q] d] l IH]; intros G; [auto|]. cbn [map filter snd fst].
      assert (IH' := IH (fun k q d Hi => G k q d (or_intror Hi))). destruct (Nat.eqb_spec d 0); cbn [negb map snd fst]; [auto|]. rewrite IH'. f_equal. apply (G k q d (or_introl eq_refl)). lia. }
    rewrite E1. split; [apply filter_NoDup_map; apply nodes0_NoDup; auto|]. intros u. rewrite <- inner_entry, in_map_iff. split.
    - intros (((k & q') & d) & <- & Hin). apply filter_In in Hin. destruct Hin as [Hin Hd]. cbn [fst snd] in *. exists k, d. split; [|auto]. destruct (Nat.eqb_spec d 0); [discriminate|lia].
    - intros (k & d & Hd & Hin). exists (k, u, d). split; [auto|]. apply filter_In. split; [auto|]. cbn [snd]. destruct (Nat.eqb_spec d 0); [lia|auto].
  Qed.

  Lemma occ_suffix u j : occurs_at u s j <-> j < length W /\ exists a x, skipn j W = u ++ a :: x.
  Proof.
    rewrite W_len. unfold W. split.
    - intros (p & q & E & <-). split; [rewrite E, !app_length; lia|]. rewrite E, <- !app_assoc, skipn_app, skipn_all, Nat.sub_diag. cbn [app skipn].
      destruct q as [|a q]; [exists dollar, []; auto|]. exists a, (q ++ [dollar]). auto.
    - intros (Hj & a & x & E). exists (firstn j s). rewrite skipn_app in E. replace (j - length s) with 0 in E by lia. cbn [skipn] in E.
      destruct x as [|y x] using rev_ind.
      + assert (Ea : u ++ [a] = skipn j s ++ [dollar]) by auto. apply app_inj_tail in Ea. destruct Ea as [Eu _]. exists []. rewrite app_nil_r, Eu. split; [symmetry; apply firstn_skipn|]. rewrite firstn_length. lia.
      + assert (Ea : (u ++ a :: x) ++ [y] = skipn j s ++ [dollar]) by (rewrite <- app_assoc; auto). apply app_inj_tail in Ea. destruct Ea as [Eu _]. exists (a :: x). rewrite Eu. split; [symmetry; apply firstn_skipn|]. rewrite firstn_length. lia.
  Qed.
  Lemma descendants_ok k u d : In (k, u, d) (nodes dollar W [] (Node 0 cs)) -> 0 < d -> exists occ ext,
    NoDup occ /\ (forall j, In j occ <-> occurs_at u s j) /\
    NoDup ext /\ (forall v, In v ext <-> right_branching s v /\ exists x, x <> [] /\ v = u ++ x) /\
    d = length occ + length ext.
  Proof.
    rewrite nodes_nodes0. intros Hin Hd. apply in_map_iff in Hin. destruct Hin as (((k' & q) & d') & E & Hin). injection E as -> E ->.
    assert (Hq := strip_of_inner _ _ _ Hin Hd). rewrite Hq in E. subst q. destruct kids_ok as [Hch Hnd].
    assert (Hi := Hin). apply (nodes0_In W (Node 0 cs) 0 cs) in Hi; [|auto]. destruct Hi as (ccs & Hi & Ed).
    destruct (inode_ok W _ _ _ _ Hi Hch) as (Har & Hw & (v0 & Hv0 & Ev0) & _). cbn [app] in Ev0. subst v0.
    assert (Hcc : ccs <> []) by (intros ->; cbn in Ed; lia).
    inversion Hw as [? ? Hch' Hnd']; subst.
    set (l := nodes0 W u (Node k ccs)). assert (Nl : NoDup (map (fun x => snd (fst x)) l)) by (apply nodes0_NoDup; auto).
    assert (IN : forall k' q d', In (k', q, d') l <-> In (k', q, d') n0 /\ exists x, x <> [] /\ q = u ++ x).
    { intros k' q d'. unfold l. rewrite (nodes0_In W (Node k ccs) k ccs), (nodes0_In W (Node 0 cs) 0 cs) by auto. split.
      - intros (c2 & Hi2 & Ed2). destruct (inode_ok W _ _ _ _ Hi2 Hch') as (_ & _ & Hx & _). split; [|auto]. exists c2. split; [|auto]. eapply inode_trans; eauto.
      - intros ((c2 & Hi2 & Ed2) & x & Hx & ->). exists c2. split; [|auto]. destruct (inode_below W _ _ _ _ _ _ Hi Hch Hnd Hi2) as [[E _]|H]; [exists x; auto| |auto].
        exfalso. apply Hx. apply (app_inv_head u). rewrite app_nil_r. auto. }
    exists (map (fun q => length W - length q) (map (fun x => snd (fst x)) (filter leafb l))), (map (fun x => snd (fst x)) (filter innerb l)).
    assert (LE : forall q, In q (map (fun x => snd (fst x)) (filter leafb l)) <-> (exists j, j < length W /\ q = skipn j W) /\ exists x, x <> [] /\ q = u ++ x).
    { intros q. rewrite <- leaf_entry, !in_map_iff. split.
      - intros (((k2 & q2) & d2) & <- & Hf). apply filter_In in Hf. destruct Hf as [Hf Hz]. apply IN in Hf. destruct Hf as [Hf Hx]. cbn [fst snd] in *. split; [|auto]. exists (k2, q2, d2). split; [auto|]. apply filter_In. auto.
      - intros ((((k2 & q2) & d2) & <- & Hf) & Hx). apply filter_In in Hf. destruct Hf as [Hf Hz]. exists (k2, q2, d2). split; [auto|]. apply filter_In. split; [|auto]. apply IN. auto. }
    split; [|split; [|split; [|split]]].
    - assert (NL : NoDup (map (fun x => snd (fst x)) (filter leafb l))) by (apply filter_NoDup_map; auto).
      assert (G : forall (qs : list (list A)), NoDup qs -> (forall q, In q qs -> exists j, j < length W /\ q = skipn j W) -> NoDup (map (fun q => length W - length q) qs)).
      { clear. induction qs as [|q qs IH]; intros N Hq; cbn [map]; constructor.
        - intros Hi. apply in_map_iff in Hi. destruct Hi as (q' & E & Hi). destruct (Hq q (or_introl eq_refl)) as (j & Hj & ->), (Hq q' (or_intror Hi)) as (j' & Hj' & ->).
          rewrite !skipn_length in E. assert (j = j') by lia. subst j'. inversion N; auto.
        - inversion N; subst. apply IH; auto. intros q' Hi. apply Hq. right. auto. }
      apply G; [auto|]. intros q Hq2. apply LE in Hq2. tauto.
    - intros j. rewrite in_map_iff, occ_suffix. split.
      + intros (q & <- & Hq2). apply LE in Hq2. destruct Hq2 as ((j & Hj & ->) & x & Hx & Ex). rewrite skipn_length. replace (length W - (length W - j)) with j by lia. split; [auto|]. destruct x as [|a x]; [congruence|]. eauto.
      + intros (Hj & a & x & E). exists (skipn j W). split; [rewrite skipn_length; lia|]. apply LE. split; [eauto|]. exists (a :: x). split; [discriminate|auto].
    - apply filter_NoDup_map. auto.
    - intros v. rewrite in_map_iff. split.
      + intros (((k2 & q2) & d2) & <- & Hf). apply filter_In in Hf. destruct Hf as [Hf Hz]. apply IN in Hf. destruct Hf as [Hf Hx]. cbn [fst snd] in *. split; [|auto]. apply inner_entry. exists k2, d2. split; [|auto]. destruct (Nat.eqb_spec d2 0); [discriminate|lia].
      + intros (Hr & x & Hx & ->). assert (Hi2 : exists k2 d2, 0 < d2 /\ In (k2, u ++ x, d2) n0) by (apply inner_entry; split; [intros E0; apply app_eq_nil in E0; tauto|auto]).
        destruct Hi2 as (k2 & d2 & Hd2 & Hi2). exists (k2, u ++ x, d2). split; [auto|]. apply filter_In. split; [apply IN; eauto|]. cbn [snd]. destruct (Nat.eqb_spec d2 0); [lia|auto].
    - rewrite !map_length. rewrite <- (nodes0_length W (Node k ccs) u). exact (filter_split_length leafb l).
  Qed.
  Lemma leaf_filter : forall t p, arity t <> 0 -> length (filter leafb (map (fun '(k, q, d) => (k, strip dollar q, d)) (nodes0 W p t))) = leaf_count t.
  Proof.
    induction t as [num cs1 IH] using tree_ind'. intros p Ha. cbn [nodes0 leaf_count]. destruct cs1 as [|c0 cs0]; [cbn in Ha; congruence|]. clear Ha.
    induction IH as [|c cs1 Hc _ IHc]; cbn [flat_map map list_sum fold_right]; [auto|]. change (fold_right Nat.add 0) with list_sum. rewrite map_app, filter_app, app_length, IHc. f_equal.
    destruct (snd c) as [k ccs] eqn:Ec. cbn [map filter snd]. destruct ccs as [|c' ccs]; [cbn; auto|].
    change (total_descendants (Node k (c' :: ccs)) =? 0) with false. cbn [length]. apply Hc. cbn. lia.
  Qed.
  Lemma node_bound : s <> [] -> length (nodes dollar W [] (Node 0 cs)) <= 2 * length s.
  Proof.
    intros Hs. rewrite nodes_nodes0, map_length, nodes0_length, descendants_size. destruct kids_ok as [Hch Hnd].
    assert (Hc : forall j, j < length W -> exists c, In c cs /\ first W c = nth_error W j).
    { intros j Hj. assert (Hin : In (skipn j W) (below W [] cs)) by (apply Hb; eauto). destruct (nth_error W j) as [a|] eqn:Ea; [|apply nth_error_None in Ea; lia].
      assert (E : skipn j W = [a] ++ skipn (S j) W) by (clear - Ea; revert j Ea; generalize W; intros w; induction w as [|y w IH]; intros [|j] Ea; cbn in *; try discriminate; [congruence|apply IH; auto]).
      rewrite E in Hin. destruct (child_of_leaf W [] cs [a] _ Hch ltac:(discriminate) Hin) as (c & Hc & Fc & _). exists c. auto. }
    assert (A2 : arity (Node 0 cs) <> 1).
    { pose proof W_len as WL. cbn [arity]. intros L. clear Hwf Hb Hch Hnd. destruct cs as [|c [|? ?]]; cbn in L; try lia.
      destruct (Hc 0) as (c1 & [<-|[]] & F1); [lia|]. destruct (Hc (length s)) as (c2 & [<-|[]] & F2); [lia|].
      rewrite F1 in F2. destruct s as [|a s']; [congruence|]. unfold W in F2. cbn [app nth_error length] in F2. rewrite nth_error_app2, Nat.sub_diag in F2 by lia. cbn in F2. injection F2 as F2. apply Hdol. left. auto. }
    pose proof (size_leaves W _ Hwf A2) as S1. rewrite <- (leaves_length W (Node 0 cs) []) in S1.
    assert (L : length (leaves W [] (Node 0 cs)) = S (length s)); [|lia].
    assert (cs <> []) by (intros E; destruct (Hc 0) as (c & Hcc & _); [rewrite W_len; lia|rewrite E in Hcc; destruct Hcc]).
    pose proof leaf_words as P. apply Permutation_length in P. rewrite !map_length, seq_length in P.
    rewrite nodes_nodes0 in P.
    rewrite leaf_filter in P by (destruct cs; [congruence|cbn; lia]). rewrite leaves_length. lia.
  Qed.
End T.

Lemma tree_of {A} `{Eq A} (dollar : A) (s : list A) : s <> [] -> ~ In dollar s -> exists cs, suffix_tree dollar s = Ok (s ++ [dollar], Node 0 cs) /\
  foldM (add_suffix (s ++ [dollar])) (seq 0 (length (s ++ [dollar]))) (Node 0 []) = Ok (Node 0 cs) /\ wf (s ++ [dollar]) (Node 0 cs) /\
  forall x, In x (below (s ++ [dollar]) [] cs) <-> exists j, j < length (s ++ [dollar]) /\ x = skipn j (s ++ [dollar]).
Proof.
  intros Hs Hd. destruct (tree_ok (s ++ [dollar]) dollar s eq_refl Hd) as (cs & E & Hw & Hb). exists cs. split; [|auto]. unfold suffix_tree.
  assert (Et : terminated dollar s = Ok (s ++ [dollar])).
  { unfold terminated. destruct (rev s) as [|x r] eqn:Er; [exfalso; apply Hs; rewrite <- (rev_involutive s), Er; auto|].
    destruct (eqb_ok x dollar) as [->|]; auto. exfalso. apply Hd. apply in_rev. rewrite Er. left; auto. }
  rewrite Et. cbn [bind]. rewrite E. auto.
Qed.

(*P C130 Suffix trees *)
(** a node is given by its number, its word and the number of its descendants;
    the leaves are the suffixes, the others are the words that are followed by
    different symbols, and the nodes are numbered *)
Lemma C130_nodes : forall (A : Type) (EA : Eq A) (dollar : A) (s : list A), s <> [] -> ~ In dollar s ->
  exists t, suffix_tree dollar s = Ok (s ++ [dollar], t) /\
    let all := nodes dollar (s ++ [dollar]) [] t in
    let leaf := filter (fun x => snd x =? 0) all in
    let inner := filter (fun x => negb (snd x =? 0)) all in
    Permutation (map (fun x => fst (fst x)) all) (seq 1 (length all)) /\ length all <= 2 * length s /\
    Permutation (map (fun x => snd (fst x)) leaf) (map (fun j => skipn j s) (seq 0 (length s + 1))) /\
    NoDup (map (fun x => snd (fst x)) inner) /\ (forall u, In u (map (fun x => snd (fst x)) inner) <-> u <> [] /\ right_branching s u).
Proof.
  intros A EA dollar s Hs Hd. destruct (tree_of dollar s Hs Hd) as (cs & E & Ef & Hw & Hb). exists (Node 0 cs). split; [exact E|]. cbn zeta.
  split; [apply numbers_ok; auto|]. split; [apply node_bound; auto|]. split; [apply leaf_words; auto|]. apply inner_words; auto.
Qed.
(** the descendants of an inner node are the places at which its word stands and
    the longer words followed by different symbols *)
Lemma C130_descendants : forall (A : Type) (EA : Eq A) (dollar : A) (s : list A) w t k u d, s <> [] -> ~ In dollar s ->
  suffix_tree dollar s = Ok (w, t) -> In (k, u, d) (nodes dollar w [] t) -> 0 < d ->
  exists places words, NoDup places /\ (forall j, In j places <-> occurs_at u s j) /\
    NoDup words /\ (forall v, In v words <-> right_branching s v /\ exists x, x <> [] /\ v = u ++ x) /\
    d = length places + length words.
Proof.
  intros A EA dollar s w t k u d Hs Hd E Hin Hp. destruct (tree_of dollar s Hs Hd) as (cs & E' & Ef & Hw & Hb). rewrite E in E'. injection E' as -> ->.
  eapply descendants_ok; eauto.
Qed.
(** one edge for each node, with at least one symbol *)
Lemma C130_edges : forall (A : Type) (EA : Eq A) (dollar : A) (s : list A) w t, s <> [] -> ~ In dollar s ->
  suffix_tree dollar s = Ok (w, t) -> length (print_edges w t) = length (nodes dollar w [] t) /\ forall e, In e (print_edges w t) -> e <> [] /\ exists j, occurs_at e w j.
Proof.
  intros A EA dollar s w t Hs Hd E. destruct (tree_of dollar s Hs Hd) as (cs & E' & Ef & Hw & Hb). rewrite E in E'. injection E' as -> ->. split.
  - rewrite nodes_nodes0, map_length, nodes0_length. generalize (Node 0 cs). clear. induction t as [num cs IH] using tree_ind'. cbn [print_edges total_descendants].
    induction IH as [|c cs Hc _ IHc]; cbn [flat_map map list_sum fold_right length]; [auto|]. change (fold_right Nat.add 0) with list_sum. rewrite app_length, IHc. cbn [length]. rewrite Hc. lia.
  - clear E Ef Hb. revert Hw. generalize (Node 0 cs). clear cs. induction t as [num cs IH] using tree_ind'. intros Hw. inversion Hw as [? ? Hch Hnd]; subst. clear Hw Hnd. cbn [print_edges].
    induction IH as [|c cs Hc _ IHc]; intros e He; [destruct He|]. inversion Hch as [|? ? (He1 & _ & Hw1) Hch']; subst. cbn [flat_map app] in He. destruct He as [<-|He].
    + destruct (lab_cons _ c He1) as (x & r & El & _). unfold lab in El. rewrite El. split; [discriminate|]. rewrite <- El. clear El. destruct c as [[a b] t']. cbn [fst snd] in *. unfold edge_ok in He1. cbn [fst snd] in He1.
      exists a. exists (firstn a (s ++ [dollar])), (skipn b (s ++ [dollar])). split; [|rewrite firstn_length; lia]. unfold slice.
      rewrite <- (firstn_skipn a (s ++ [dollar])) at 1. f_equal. rewrite <- (firstn_skipn (b - a) (skipn a (s ++ [dollar]))) at 1. f_equal. rewrite (skipn_skipn' s). f_equal. lia.
    + apply in_app_iff in He. destruct He as [He|He]; [apply Hc; auto|apply IHc; auto].
Qed.
(** a terminator at the end is not added again; there is no tree of the empty word *)
Lemma C130_terminator : forall (A : Type) (EA : Eq A) (dollar : A) (s : list A), s <> [] -> ~ In dollar s ->
  suffix_tree dollar (s ++ [dollar]) = suffix_tree dollar s /\ suffix_tree dollar [] = Err IndexError.
Proof.
  intros A EA dollar s Hs Hd. split; [|auto]. destruct (tree_of dollar s Hs Hd) as (cs & E & Ef & _). rewrite E. unfold suffix_tree, terminated. rewrite rev_app_distr. cbn [rev app].
  rewrite eqb_refl. cbn [bind]. rewrite Ef. auto.
Qed.
