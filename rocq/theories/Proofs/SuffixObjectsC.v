(** The objects of a suffix tree represent the tree, continued: insertion *)
From Verif.Model Require Import Base Sort ListUtils Patterns SuffixTree SuffixObjects.
From Verif.Spec Require Import Lists Words.
From Verif.Lib Require Import ListLib SortLib DictLib.
From Verif.Proofs Require Import SuffixTree SuffixTreeB SuffixObjectsA SuffixObjectsB.
From Coq Require Import Sorted Permutation.
Open Scope nat_scope.

Definition rep (h : objects) (t : tree) : Prop :=
  num t = 0 /\ length (objs h) = size t /\ has h (table None t) /\ NoDup (map fst (table None t)) /\ Permutation (edges h) (tedges t) /\ NoDup (keys (edges h)).
Lemma eqb_true {X} `{Eq X} (a b : X) : eqb a b = true -> a = b.
Proof. destruct (eqb_ok a b); [auto|discriminate]. Qed.

Section S.
  Context {A : Type} `{Eq A} (dollar : A) (W : list A).
  Notation n := (length W).

  Lemma rep_edges h t : rep h t -> has_edges h (tedges t).
  Proof. intros (_ & _ & _ & _ & P & N) e v Hi. apply present; [auto|]. apply (Permutation_in _ (Permutation_sym P)). auto. Qed.
  Lemma has_lt h l k o : has h l -> In (k, o) l -> k < length (objs h).
  Proof. intros Hh Hi. apply nth_error_Some. rewrite (Hh _ _ Hi). discriminate. Qed.
  Lemma rep_key h t e : rep h t -> In e (keys (edges h)) -> fst e < length (objs h) /\ snd e < length (objs h).
  Proof.
    intros (_ & _ & Hh & _ & P & _) Hi. apply in_map_iff in Hi. destruct Hi as ([e' v] & <- & Hi). cbn [fst]. apply (Permutation_in _ P) in Hi.
    destruct (tedges_In None t e' v Hi) as [H1 H2]. rewrite in_map_iff in H1, H2. destruct H1 as ([a o] & <- & H1). destruct H2 as ([b o'] & <- & H2). cbn [fst]. eauto using has_lt.
  Qed.
  Lemma appended_ok h t t' p st : rep h t -> num t' = 0 -> appended W (size t) p st (table None t) (table None t') (tedges t) (tedges t') ->
    rep (add_node p st n (Object (Some p) (length (objs h)) []) h) t'.
  Proof.
    intros R N0 (q & ch & (r & P1 & P2) & (rd & D1 & D2)). pose proof R as (_ & L & Hh & N & P & Nk).
    assert (Hp : nth_error (objs h) p = Some (Object q p ch)) by (apply Hh, (Permutation_in _ (Permutation_sym P1)); left; auto).
    assert (Lp : p < length (objs h)) by (apply nth_error_Some; congruence).
    assert (Nr : NoDup (p :: map fst r)) by (apply (Permutation_map fst) in P1; cbn [app map fst] in P1; eapply Permutation_NoDup; eauto).
    assert (Hr : forall k o, In (k, o) r -> k < length (objs h) /\ k <> p /\ nth_error (objs h) k = Some o).
    { intros k o Hi. assert (Hi' : In (k, o) (table None t)) by (apply (Permutation_in _ (Permutation_sym P1)); right; auto). split; [eauto using has_lt|]. split; [|auto].
      intros ->. inversion Nr as [|? ? X _]. apply X, in_map_iff. exists (p, o). auto. }
    rewrite <- L in P2, D2. cbn [app] in D1. set (new := length (objs h)) in *.
    assert (Ab : ~ In (p, new) (keys (edges h))) by (intros X; apply (rep_key _ _ _ R) in X; cbn [fst snd] in X; fold new in X; lia).
    split; [auto|]. split; [|split; [|split; [|split]]].
    - rewrite add_node_length, <- (table_length t' None), P2. fold new. rewrite L, <- (table_length t None), P1. reflexivity.
    - intros k o Hi. apply (Permutation_in _ P2) in Hi. rewrite add_node_nth by auto. fold new. destruct Hi as [E|[E|Hi]].
      + injection E as <- <-. destruct (Nat.eqb_spec p new); [lia|]. rewrite Nat.eqb_refl, Hp. reflexivity.
      + injection E as <- <-. rewrite Nat.eqb_refl. reflexivity.
      + destruct (Hr _ _ Hi) as (H1 & H2 & H3). destruct (Nat.eqb_spec k new); [lia|]. destruct (Nat.eqb_spec k p); [lia|]. auto.
    - eapply Permutation_NoDup; [symmetry; apply (Permutation_map fst), P2|]. cbn [app map fst]. apply (Permutation_NoDup (perm_swap _ _ _)). constructor; [|auto].
      intros [X|X]; [lia|]. apply in_map_iff in X. destruct X as ([k o] & E & X). cbn [fst] in E. destruct (Hr _ _ X). lia.
    - rewrite add_node_edges. cbn [number]. rewrite (set_absent (p, new)) by (apply absent; auto). rewrite D2, P, D1. symmetry. apply Permutation_cons_append.
    - rewrite add_node_edges. apply keys_dict_set_NoDup. auto.
  Qed.
  Lemma cut_ok h t t' c st : rep h t -> num t' = 0 -> cut W (size t) c st (table None t) (table None t') (tedges t) (tedges t') ->
    exists h', (do o <- object_at h c ;
      do p <- of_option AttributeError (parent o) ;
      do e <- of_option KeyError (dict_get (p, c) (edges h)) ;
      let '(ps, pe) := e in
      do len <- insert_len (n + 1) W st ps 0 ;
      let new := length (objs h) in
      let h1 := add_node p ps (ps + len - 1) (Object (Some p) new [c]) h in
      do h2 <- (if dict_has (p, c) (edges h1) then Ok (Objects (objs h1) (dict_del (p, c) (edges h1))) else Err KeyError) ;
      do h3 <- remove_child p c h2 ;
      let h4 := update c (update_parent new) h3 in
      let h5 := Objects (objs h4) (dict_set (new, c) (ps + len - 1, pe) (edges h4)) in
      Ok (add_node new (st + len - 1) n (Object (Some new) (length (objs h5)) []) h5)) = Ok h' /\ rep h' t'.
  Proof.
    intros R N0 (p & q & l1 & l2 & g & ps & pe & len & El & (r & P1 & P2) & (rd & D1 & D2)). pose proof R as (_ & L & Hh & N & P & Nk).
    assert (I1 : In (p, Object q p (l1 ++ c :: l2)) (table None t)) by (apply (Permutation_in _ (Permutation_sym P1)); left; auto).
    assert (I2 : In (c, Object (Some p) c g) (table None t)) by (apply (Permutation_in _ (Permutation_sym P1)); right; left; auto).
    pose proof (Hh _ _ I1) as Hp. pose proof (Hh _ _ I2) as Hc. pose proof (has_lt _ _ _ _ Hh I1) as Lp. pose proof (has_lt _ _ _ _ Hh I2) as Lc.
    assert (Nr : NoDup (p :: c :: map fst r)) by (apply (Permutation_map fst) in P1; cbn [app map fst] in P1; eapply Permutation_NoDup; eauto).
    assert (Npc : p <> c) by (inversion Nr as [|? ? X _]; intros ->; apply X; left; auto).
    assert (Hr : forall k o, In (k, o) r -> k < length (objs h) /\ k <> p /\ k <> c /\ nth_error (objs h) k = Some o).
    { intros k o Hi. assert (Hi' : In (k, o) (table None t)) by (apply (Permutation_in _ (Permutation_sym P1)); right; right; auto). split; [eauto using has_lt|].
      assert (X : In k (map fst r)) by (apply in_map_iff; exists (k, o); auto). inversion Nr as [|? ? X1 X2]; subst. inversion X2 as [|? ? X3 X4]; subst.
      split; [intros ->; apply X1; right; auto|]. split; [intros ->; auto|auto]. }
    assert (Nc : ~ In c l1).
    { intros X. pose proof (children_nodup t None p _ N I1) as Y. cbn [children] in Y. apply NoDup_remove_2 in Y. apply Y, in_or_app. auto. }
    assert (De : dict_get (p, c) (edges h) = Some (ps, pe)) by (apply (rep_edges h t R), (Permutation_in _ (Permutation_sym D1)); left; auto).
    rewrite <- L in P2, D2. set (new := length (objs h)) in *. unfold object_at at 1. rewrite Hc. cbn [of_option bind parent]. rewrite De. cbn [of_option bind]. rewrite El. cbn [bind]. cbv zeta.
    set (h1 := add_node p ps (ps + len - 1) (Object (Some p) new [c]) h).
    assert (E1 : edges h1 = edges h ++ [((p, new), (ps, ps + len - 1))]).
    { unfold h1. rewrite add_node_edges. cbn [number]. apply set_absent, absent. intros X. apply (rep_key _ _ _ R) in X. cbn [fst snd] in X. fold new in X. lia. }
    assert (K1 : NoDup (keys (edges h1))) by (unfold h1; rewrite add_node_edges; apply keys_dict_set_NoDup; auto).
    assert (D1' : dict_get (p, c) (edges h1) = Some (ps, pe)) by (apply present; [auto|]; rewrite E1; apply in_or_app; left; apply dict_get_In; auto).
    unfold dict_has. rewrite D1'. cbn [bind].
    assert (O1 : forall j, nth_error (objs h1) j = if j =? new then Some (Object (Some p) new [c]) else if j =? p then Some (Object q p (l1 ++ c :: l2 ++ [new])) else nth_error (objs h) j).
    { intros j. unfold h1. rewrite add_node_nth by auto. fold new. destruct (j =? new); [auto|]. destruct (Nat.eqb_spec j p) as [->|]; [|auto]. rewrite Hp. unfold add_child. cbn [option_map parent number children]. do 2 f_equal. rewrite <- app_assoc. reflexivity. }
    unfold remove_child, object_at. cbn [objs]. rewrite O1. destruct (Nat.eqb_spec p new) as [X|_]; [lia|]. rewrite Nat.eqb_refl. cbn [of_option bind children]. rewrite remove_first by auto. cbn [bind].
    set (h2 := Objects (objs h1) (dict_del (p, c) (edges h1))).
    set (h3 := update p (fun o => Object (parent o) (number o) (l1 ++ l2 ++ [new])) h2).
    set (h4 := update c (update_parent new) h3).
    assert (O4 : forall j, nth_error (objs h4) j = if j =? c then Some (Object (Some new) c g) else if j =? new then Some (Object (Some p) new [c]) else if j =? p then Some (Object q p (l1 ++ l2 ++ [new])) else nth_error (objs h) j).
    { intros j. unfold h4, h3. rewrite !update_nth. unfold h2. cbn [objs]. rewrite !O1. destruct (Nat.eqb_spec j c) as [->|].
      - destruct (Nat.eqb_spec c p); [congruence|]. destruct (Nat.eqb_spec c new); [lia|]. rewrite Hc. reflexivity.
      - destruct (Nat.eqb_spec j p) as [->|]; [|auto]. destruct (Nat.eqb_spec p new); [lia|]. reflexivity. }
    assert (L4 : length (objs h4) = S new) by (unfold h4, h3; rewrite !update_length; unfold h2; cbn [objs]; unfold h1; apply add_node_length).
    set (h5 := Objects (objs h4) (dict_set (new, c) (ps + len - 1, pe) (edges h4))). cbn [objs]. rewrite L4.
    assert (E5 : edges h5 = dict_set (new, c) (ps + len - 1, pe) (dict_del (p, c) (edges h1))) by reflexivity.
    assert (Kd : forall e, In e (keys (dict_del (p, c) (edges h1))) -> e = (p, new) \/ In e (keys (edges h))).
    { intros e He. assert (X : In e (keys (edges h1))). { unfold keys. eapply (Permutation_in _ (Permutation_sym (Permutation_map fst (del_perm _ _ _ D1')))). right. auto. }
      rewrite E1 in X. unfold keys in X. rewrite map_app in X. apply in_app_or in X. destruct X as [X|[X|[]]]; auto. }
    assert (Kdn : NoDup (keys (dict_del (p, c) (edges h1)))).
    { pose proof (Permutation_NoDup (Permutation_map fst (del_perm _ _ _ D1')) K1) as X. cbn [map] in X. inversion X. auto. }
    assert (Ab : ~ In (new, c) (keys (dict_del (p, c) (edges h1)))).
    { intros X. apply Kd in X. destruct X as [X|X]; [injection X; lia|]. apply (rep_key _ _ _ R) in X. cbn [fst snd] in X. fold new in X. lia. }
    rewrite (set_absent (new, c)) in E5 by (apply absent; auto).
    assert (K5 : NoDup (keys (edges h5))) by (unfold h5; cbn [edges]; apply keys_dict_set_NoDup; exact Kdn).
    assert (Ab2 : ~ In (new, S new) (keys (edges h5))).
    { rewrite E5. unfold keys. rewrite map_app. intros X. apply in_app_or in X. destruct X as [X|[X|[]]].
      - apply Kd in X. destruct X as [X|X]; [injection X; lia|]. apply (rep_key _ _ _ R) in X. cbn [fst snd] in X. fold new in X. lia.
      - cbn [fst] in X. injection X as X. lia. }
    eexists. split; [reflexivity|]. split; [auto|]. rewrite (Nat.add_1_r new) in P2, D2. split; [|split; [|split; [|split]]].
    - rewrite add_node_length. cbn [objs h5]. rewrite L4, <- (table_length t' None), P2. rewrite L, <- (table_length t None), P1. reflexivity.
    - intros k o Hi. apply (Permutation_in _ P2) in Hi. rewrite add_node_nth by (cbn [objs h5]; lia). cbn [objs h5 number]. rewrite L4, O4.
      cbn [app In] in Hi. destruct Hi as [E|[E|[E|[E|Hi]]]]; try (injection E as <- <-).
      + destruct (Nat.eqb_spec p (S new)); [lia|]. destruct (Nat.eqb_spec p new); [lia|]. destruct (Nat.eqb_spec p c); [lia|]. rewrite Nat.eqb_refl. reflexivity.
      + destruct (Nat.eqb_spec new (S new)); [lia|]. rewrite Nat.eqb_refl. destruct (Nat.eqb_spec new c); [lia|]. reflexivity.
      + rewrite Nat.eqb_refl. reflexivity.
      + destruct (Nat.eqb_spec c (S new)); [lia|]. destruct (Nat.eqb_spec c new); [lia|]. rewrite Nat.eqb_refl. reflexivity.
      + destruct (Hr _ _ Hi) as (H1 & H2 & H3 & H4). destruct (Nat.eqb_spec k (S new)); [lia|]. destruct (Nat.eqb_spec k new); [lia|]. destruct (Nat.eqb_spec k c); [lia|]. destruct (Nat.eqb_spec k p); [lia|]. auto.
    - eapply Permutation_NoDup; [symmetry; apply (Permutation_map fst), P2|]. cbn [app map fst]. inversion Nr as [|? ? X1 X2]; subst.
      assert (Big : forall k, new <= k -> ~ In k (map fst r)) by (intros k Hk X; apply in_map_iff in X; destruct X as ([k' o] & E & X); cbn [fst] in E; destruct (Hr _ _ X); lia).
      constructor; [intros [X|[X|X]]; [lia|lia|auto]|]. constructor; [intros [X|[X|X]]; [lia|lia|apply (Big new); auto]|]. constructor; [intros [X|X]; [lia|apply (Big (S new)); auto]|]. auto.
    - rewrite add_node_edges. cbn [number]. rewrite (set_absent (new, S new)) by (apply absent; auto). rewrite E5, D2.
      assert (X : Permutation (((p, c), (ps, pe)) :: dict_del (p, c) (edges h1)) (((p, c), (ps, pe)) :: ((p, new), (ps, ps + len - 1)) :: rd)).
      { rewrite <- (del_perm _ _ _ D1'), E1, P, D1. cbn [app]. apply perm_skip. symmetry. apply Permutation_cons_append. }
      apply Permutation_cons_inv in X. rewrite X. cbn [app]. apply perm_skip. rewrite <- app_assoc. cbn [app]. rewrite (Permutation_app_comm rd). reflexivity.
    - rewrite add_node_edges. apply keys_dict_set_NoDup. auto.
  Qed.
  Lemma step_ok h t i : rep h t ->
    match add_suffix W t i with
    | Ok t' => exists h', add_suffix_objects W h i = Ok h' /\ rep h' t'
    | Err e => add_suffix_objects W h i = Err e
    end.
  Proof.
    intros R. pose proof R as (N0 & L & Hh & N & P & Nk). unfold add_suffix, add_suffix_objects.
    assert (I := insert_objects W (size t) h t None i (length (objs h)) Hh (rep_edges h t R)). rewrite N0 in I. specialize (I ltac:(lia)).
    destruct (insert W (size t) i t) as [t'|e].
    - destruct I as (N1 & [[k st] [|]] & Ep & Ch); rewrite Ep; cbn [bind].
      + apply (cut_ok h t t' k st); auto.
      + eexists. split; [reflexivity|]. apply appended_ok with (t := t); auto.
    - destruct I as [E|(c & st & E & (p & o & ps & pe & E1 & E2 & E3 & E4))]; rewrite E; cbn [bind]; [auto|].
      unfold object_at. rewrite E1. cbn [of_option bind]. rewrite E2. cbn [of_option bind]. rewrite E3. cbn [of_option bind]. rewrite E4. auto.
  Qed.
  Lemma fold_ok l : forall h t, rep h t ->
    match foldM (add_suffix W) l t with
    | Ok t' => exists h', foldM (add_suffix_objects W) l h = Ok h' /\ rep h' t'
    | Err e => foldM (add_suffix_objects W) l h = Err e
    end.
  Proof.
    induction l as [|i l IH]; intros h t R; cbn [foldM]. { eauto. }
    assert (X := step_ok h t i R). destruct (add_suffix W t i) as [t'|e]; cbn [bind].
    - destruct X as (h' & -> & R'). cbn [bind]. apply IH. auto.
    - rewrite X. auto.
  Qed.
End S.
Lemma rep_init : rep (Objects [Object None 0 []] []) (Node 0 []).
Proof.
  split; [auto|]. split; [auto|]. split; [intros k o [[= <- <-]|[]]; auto|]. split; [repeat constructor; auto|]. split; [constructor|constructor].
Qed.
Lemma objects_ok {A} `{Eq A} (dollar : A) (s : list A) :
  match suffix_tree dollar s with
  | Ok (w, t) => exists h, suffix_objects dollar s = Ok (w, h) /\ rep h t
  | Err e => suffix_objects dollar s = Err e
  end.
Proof.
  unfold suffix_tree, suffix_objects. destruct (terminated dollar s) as [w|e]; cbn [bind]; [|auto].
  assert (X := fold_ok w (seq 0 (length w)) _ _ rep_init). destruct (foldM (add_suffix w) (seq 0 (length w)) (Node 0 [])) as [t|e]; cbn [bind].
  - destruct X as (h & -> & R). cbn [bind]. eauto.
  - rewrite X. auto.
Qed.
