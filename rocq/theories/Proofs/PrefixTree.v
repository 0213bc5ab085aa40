From Coq Require Import Sorting.Sorted.
From Verif.Model Require Import Base PrefixTree.
From Verif.Spec Require Import Lists Logs TreeSpec.
From Verif.Lib Require Import ListLib DictLib.
From Verif.Proofs Require Import Selection.

Section PrefixTree.
Context {A : Type} `{Eq A}.
Variable ltb : A -> A -> bool.
Hypothesis Hord : strict_total ltb.
Notation ptree := (ptree A).
Implicit Types (t u c : ptree) (cs : list (A * ptree)).

Lemma ltb_asym x y : ltb x y = true -> ltb y x = false.
Proof.
  destruct Hord as (H1 & H2 & _). intros E. destruct (ltb y x) eqn:E2; auto.
  rewrite <- (H1 x). symmetry. eauto.
Qed.
Lemma ltb_ne x y : ltb x y = true -> x <> y.
Proof. intros E ->. destruct Hord as (H1 & _). now rewrite H1 in E. Qed.

Definition desc cs := StronglySorted (fun a b : A * ptree => ltb (fst b) (fst a) = true) cs.
Lemma desc_nth cs i j a b : desc cs -> i < j -> nth_error cs i = Some a -> nth_error cs j = Some b ->
  ltb (fst b) (fst a) = true.
Proof.
  intros S. revert i j. induction S as [|c l S IH F]; intros i j Hij Ea Eb; [destruct i; discriminate|].
  destruct j as [|j]; [lia|]. cbn in Eb. destruct i as [|i]; cbn in Ea.
  - injection Ea as <-. rewrite Forall_forall in F. apply F. eapply nth_error_In; eauto.
  - apply (IH i j); auto. lia.
Qed.
Lemma desc_app l m : desc (l ++ m) <-> desc l /\ desc m /\
  forall a b, In a l -> In b m -> ltb (fst b) (fst a) = true.
Proof.
  unfold desc. induction l as [|c l IH]; cbn [app].
  - split; [intros S; split; [constructor|split; [auto|intros ? ? []]]|tauto].
  - split.
    + intros S. inversion S as [|? ? S' F]; subst. apply IH in S'. destruct S' as (S1 & S2 & S3).
      rewrite Forall_forall in F. split.
      * constructor; auto. rewrite Forall_forall. intros y Hy. apply F. apply in_or_app; auto.
      * split; auto. intros a b [<-|Ha] Hb; auto. apply F. apply in_or_app; auto.
    + intros (S1 & S2 & S3). inversion S1 as [|? ? S' F]; subst. constructor.
      * apply IH. split; [auto|split; [auto|]]. intros a b Ha Hb. apply S3; cbn; auto.
      * rewrite Forall_forall in *. intros y Hy. apply in_app_or in Hy. destruct Hy; auto. apply S3; cbn; auto.
Qed.
Lemma desc_NoDup cs : desc cs -> NoDup (keys cs).
Proof.
  induction 1 as [|c l S IH F]; cbn; constructor; auto. rewrite Forall_forall in F.
  intros Hin. apply in_map_iff in Hin. destruct Hin as (d & E & Hd). apply F in Hd. apply ltb_ne in Hd. congruence.
Qed.

Lemma search_ok x cs : desc cs -> forall fuel lo hi, lo <= hi -> hi <= length cs -> hi - lo <= fuel ->
  (forall j a, j < lo -> nth_error cs j = Some a -> ltb x (fst a) = true) ->
  (forall j a, hi <= j -> nth_error cs j = Some a -> ltb (fst a) x = true) ->
  exists i, search ltb fuel x cs lo hi = Ok i /\ i <= length cs /\
    (forall j a, j < i -> nth_error cs j = Some a -> ltb x (fst a) = true) /\
    ((exists u, nth_error cs i = Some (x, u)) \/
     forall j a, i <= j -> nth_error cs j = Some a -> ltb (fst a) x = true).
Proof.
  intros D. induction fuel as [|fuel IH]; intros lo hi H1 H2 H3 Hlo Hhi; cbn [search].
  - destruct (Nat.ltb_spec lo hi); [lia|]. exists lo. split; [auto|]. split; [lia|]. split; [auto|].
    right. intros j a Hj. apply Hhi. lia.
  - destruct (Nat.ltb_spec lo hi) as [Hlt|Hge].
    + set (mid := (lo + hi) / 2).
      assert (Hm : lo <= mid < hi).
      { unfold mid. pose proof (Nat.div_mod_eq (lo + hi) 2). pose proof (Nat.mod_upper_bound (lo + hi) 2). lia. }
      clearbody mid. destruct (nth_error_lt cs mid) as [[y u] E]; [lia|]. rewrite E. cbn [of_option bind].
      destruct (eqb_ok y x) as [->|Hne].
      * exists mid. split; [auto|]. split; [lia|]. split; [|left; eauto].
        intros j a Hj Ea. exact (desc_nth _ _ _ _ _ D Hj Ea E).
      * destruct (ltb y x) eqn:Ey.
        -- apply IH; auto; try lia. intros j a Hj Ea. destruct (Nat.eq_dec j mid) as [->|].
           ++ rewrite E in Ea. injection Ea as <-. auto.
           ++ destruct Hord as (_ & Ht & _). apply Ht with y; auto. apply (desc_nth cs mid j (y, u) a); auto. lia.
        -- assert (Ey' : ltb x y = true) by (destruct Hord as (_ & _ & Hc); destruct (Hc _ _ Hne); congruence).
           apply IH; auto; try lia. intros j a Hj Ea. destruct (Nat.eq_dec j mid) as [->|].
           ++ rewrite E in Ea. injection Ea as <-. auto.
           ++ destruct Hord as (_ & Ht & _). apply Ht with y; auto. apply (desc_nth cs j mid a (y, u)); auto. lia.
    + exists lo. split; [auto|]. split; [lia|]. split; [auto|].
      right. intros j a Hj. apply Hhi. lia.
Qed.
(** the children are cut at the insertion point *)
Lemma find_ok x cs : desc cs -> exists l m, cs = l ++ m /\ find_insertion_point ltb x cs = Ok (length l) /\
  (forall a, In a l -> ltb x (fst a) = true) /\
  ((exists u m', m = (x, u) :: m') \/ forall a, In a m -> ltb (fst a) x = true).
Proof.
  intros D.
  assert (Hf : exists i, find_insertion_point ltb x cs = Ok i /\ i <= length cs /\
    (forall j a, j < i -> nth_error cs j = Some a -> ltb x (fst a) = true) /\
    ((exists u, nth_error cs i = Some (x, u)) \/
     forall j a, i <= j -> nth_error cs j = Some a -> ltb (fst a) x = true)).
  { unfold find_insertion_point. destruct cs as [|c0 cs0].
    - exists 0. split; [auto|]. split; [auto|]. split; [intros; lia|]. right. intros [|?] ? _; discriminate.
    - apply search_ok; auto; try lia. intros j a Hj Ej. apply nth_error_Some_lt in Ej. lia. }
  destruct Hf as (i & E & Hi & H1 & H2). exists (firstn i cs), (skipn i cs).
  split; [symmetry; apply firstn_skipn|]. split; [rewrite firstn_length, Nat.min_l by auto; auto|]. split.
  - intros a Ha. apply In_nth_error in Ha. destruct Ha as [j Ej]. rewrite nth_error_firstn in Ej.
    destruct (Nat.ltb_spec j i); [|discriminate]. eauto.
  - destruct H2 as [[u Eu]|H2]; [left|right].
    + destruct (skipn i cs) as [|b m'] eqn:Es.
      * rewrite <- (Nat.add_0_r i), <- nth_error_skipn, Es in Eu. discriminate.
      * exists u, m'. rewrite <- (Nat.add_0_r i), <- nth_error_skipn, Es in Eu. cbn in Eu. congruence.
    + intros a Ha. apply In_nth_error in Ha. destruct Ha as [j Ej]. rewrite nth_error_skipn in Ej.
      apply (H2 (i + j)); auto. lia.
Qed.

Inductive wft : ptree -> Prop :=
| wft_intro id n cs ks : desc cs -> map (fun p : A * ptree => get_node_id (snd p)) cs = map (fun k => id ++ [k]) ks ->
    NoDup ks -> Forall (fun k => k < length cs) ks ->
    (forall x c, In (x, c) cs -> 1 <= get_nr_of_sequences c /\ wft c) -> wft (PT id n cs).
Lemma wft_count id n n' cs : wft (PT id n cs) -> wft (PT id n' cs).
Proof. intros W. inversion W; subst. econstructor; eauto. Qed.
Lemma wft_leaf id n : wft (PT id n []).
Proof. apply (wft_intro _ _ _ []); cbn; auto; [constructor|constructor|tauto]. Qed.

Fixpoint lookup t (w : list A) : option ptree :=
  match w with
  | [] => Some t
  | x :: w' => match dict_get x (get_children t) with Some c => lookup c w' | None => None end
  end.
Definition cnt t w := match lookup t w with Some u => get_nr_of_sequences u | None => 0 end.
Fixpoint prefixb (w s : list A) : bool :=
  match w, s with
  | [], _ => true
  | x :: w', y :: s' => eqb x y && prefixb w' s'
  | _, [] => false
  end.
Lemma prefixb_ok w s : prefixb w s = true <-> exists v, s = w ++ v.
Proof.
  revert s; induction w as [|x w IH]; intros s; cbn [prefixb].
  - split; [intros _; exists s; auto|auto].
  - destruct s as [|y s]; [split; [discriminate|intros [v E]; discriminate]|].
    rewrite andb_true_iff, IH. split.
    + intros [E [v ->]]. apply (proj1 (eqb_eq _ _)) in E. subst. exists v. auto.
    + intros [v E]. injection E as -> ->. split; [apply eqb_refl|eauto].
Qed.
Lemma cnt_leaf id w : cnt (PT id 0 []) w = 0.
Proof. destruct w; auto. Qed.

Lemma dict_get_mid x y (v : ptree) l m : ~ In x (keys l) ->
  dict_get y (l ++ (x, v) :: m) = if eqb y x then Some v else dict_get y (l ++ m).
Proof.
  induction l as [|[k w] l IH]; cbn; intros Hn.
  - destruct (eqb_ok y x); auto.
  - rewrite IH by tauto. destruct (eqb_ok y k) as [->|]; auto. destruct (eqb_ok k x); auto. subst; tauto.
Qed.
Lemma list_set_mid {X} (l m : list X) a b : list_set (l ++ a :: m) (length l) b = Some (l ++ b :: m).
Proof. induction l as [|c l IH]; cbn; auto. rewrite IH; auto. Qed.
Lemma nth_error_mid {X} (l m : list X) a : nth_error (l ++ a :: m) (length l) = Some a.
Proof. induction l; cbn; auto. Qed.

Lemma append_ok s : forall t, wft t -> exists t', append ltb s t = Ok t' /\ wft t' /\
  get_node_id t' = get_node_id t /\ get_nr_of_sequences t' = get_nr_of_sequences t + 1 /\
  forall w, cnt t' w = cnt t w + if prefixb w s then 1 else 0.
Proof.
  induction s as [|x s IH]; intros [id n cs] W; cbn [append].
  { exists (PT id (n + 1) cs). split; [auto|]. split; [eapply wft_count; eauto|]. split; [auto|]. split; [auto|].
    intros [|y w]; cbn; auto. }
  inversion W as [? ? ? ks D Hid Hks Hkl Hcs]; subst.
  destruct (find_ok x cs D) as (l & m & -> & Ef & Hl & Hm). rewrite Ef. cbn [bind].
  assert (Hxl : ~ In x (keys l)).
  { intros Hin. apply in_map_iff in Hin. destruct Hin as (a & E & Ha). apply Hl in Ha. apply ltb_ne in Ha. congruence. }
  (* what remains once the child is known *)
  assert (Fin : forall m' c0 c cs',
      (exists v, m = (x, v) :: m' /\ c0 = v /\ get_node_id c = get_node_id v) \/
      (m = m' /\ (forall a, In a m -> ltb (fst a) x = true) /\ c0 = PT (id ++ [length (l ++ m)]) 0 [] /\
        get_node_id c = id ++ [length (l ++ m)]) ->
      wft c -> 1 <= get_nr_of_sequences c -> (forall w, cnt c w = cnt c0 w + if prefixb w s then 1 else 0) ->
      cs' = l ++ (x, c) :: m' ->
      wft (PT id (n + 1) cs') /\ forall w, cnt (PT id (n + 1) cs') w = cnt (PT id n (l ++ m)) w + if prefixb w (x :: s) then 1 else 0).
  { intros m' c0 c cs' Hc Wc Nc Hcnt ->. split.
    - assert (D' : desc (l ++ (x, c) :: m')).
      { apply desc_app. apply desc_app in D. destruct D as (D1 & D2 & D3). split; [auto|].
        destruct Hc as [(v & -> & _ & _)|(-> & Hlt & _)].
        - inversion D2 as [|? ? D4 F]; subst. split; [constructor; auto|].
          intros a b Ha [<-|Hb]; [apply (D3 a (x, v)); cbn; auto|]. apply (D3 a b); cbn; auto.
        - split; [constructor; auto; rewrite Forall_forall; auto|].
          intros a b Ha [<-|Hb]; [apply Hl; auto|apply D3; auto]. }
      assert (Hmem : forall y d, In (y, d) (l ++ (x, c) :: m') -> 1 <= get_nr_of_sequences d /\ wft d).
      { intros y d Hin. apply in_app_or in Hin. destruct Hin as [Hin|[E|Hin]].
        - apply (Hcs y). apply in_or_app; auto.
        - injection E as <- <-. auto.
        - apply (Hcs y). apply in_or_app. right. destruct Hc as [(v & -> & _)|(-> & _)]; cbn; auto. }
      destruct Hc as [(v & -> & _ & Ei)|(-> & _ & _ & Ei)].
      + apply (wft_intro _ _ _ ks); auto.
        * rewrite map_app in *. cbn [map snd] in *. rewrite Ei. auto.
        * rewrite !app_length in *. cbn in *. auto.
      + rewrite map_app in Hid.
        assert (exists k1 k2, ks = k1 ++ k2 /\
            map (fun p : A * ptree => get_node_id (snd p)) l = map (fun k => id ++ [k]) k1 /\
            map (fun p : A * ptree => get_node_id (snd p)) m' = map (fun k => id ++ [k]) k2) as (k1 & k2 & -> & E1 & E2).
        { symmetry in Hid. apply map_eq_app in Hid. destruct Hid as (k1 & k2 & -> & E1 & E2). eauto 6. }
        apply (wft_intro _ _ _ (k1 ++ length (l ++ m') :: k2)); auto.
        * rewrite !map_app. cbn [map snd]. rewrite E1, E2, Ei. auto.
        * apply NoDup_Add with (a := length (l ++ m')) (l := k1 ++ k2); [apply Add_app|]. split; [auto|].
          intros Hin. rewrite Forall_forall in Hkl. apply Hkl in Hin. lia.
        * rewrite Forall_forall in *. intros k Hk. rewrite app_length. cbn [length]. apply in_app_or in Hk.
          rewrite app_length in Hkl. rewrite <- Nat.add_succ_comm. 
          destruct Hk as [Hk|[<-|Hk]]; [| |].
          -- pose proof (Hkl k (in_or_app _ _ _ (or_introl Hk))). lia.
          -- rewrite app_length. lia.
          -- pose proof (Hkl k (in_or_app _ _ _ (or_intror Hk))). lia.
    - intros [|y w]; [cbn; auto|]. cbn [prefixb]. unfold cnt at 1 2. cbn [lookup get_children].
      rewrite dict_get_mid by auto.
      assert (Eo : dict_get y (l ++ m) = if eqb y x then match dict_get y (l ++ m) with Some v => Some v | None => None end
                                      else dict_get y (l ++ m')).
      { destruct (eqb_ok y x) as [->|Hne]; [destruct (dict_get x (l ++ m)); auto|].
        destruct Hc as [(v & -> & _)|(-> & _)]; auto. rewrite dict_get_mid by auto.
        destruct (eqb_ok y x); [contradiction|auto]. }
      destruct (eqb_ok y x) as [->|Hne]; cbn [andb]; [|rewrite Eo; lia].
      fold (cnt c w). rewrite Hcnt. f_equal. destruct Hc as [(v & -> & -> & _)|(-> & Hlt & -> & _)].
      + rewrite dict_get_mid, eqb_refl by auto. auto.
      + rewrite cnt_leaf. assert (En : dict_get x (l ++ m') = None).
        { apply dict_get_None. unfold keys. rewrite map_app. intros Hin. apply in_app_or in Hin.
          destruct Hin as [Hin|Hin]; [contradiction|]. apply in_map_iff in Hin. destruct Hin as (a & E & Ha).
          apply Hlt in Ha. apply ltb_ne in Ha. congruence. }
        rewrite En. auto. }
  destruct Hm as [(u & m' & ->)|Hm].
  - destruct (Nat.leb_spec (length (l ++ (x, u) :: m')) (length l)) as [Hle|_]; [rewrite app_length in Hle; cbn in Hle; lia|].
    rewrite nth_error_mid. cbn [of_option bind]. rewrite eqb_refl.
    destruct (Hcs x u) as [_ Wu]; [apply in_or_app; cbn; auto|].
    destruct (IH u Wu) as (u' & Eu & Wu' & Iu & Nu & Cu). rewrite Eu. cbn [bind]. rewrite list_set_mid. cbn [of_option bind].
    eexists. split; [reflexivity|]. destruct (Fin m' u u' (l ++ (x, u') :: m')) as [F1 F2]; auto; try lia.
    + left. exists u. auto.
  - destruct (IH (PT (id ++ [length (l ++ m)]) 0 [])) as (c & Ec & Wc & Ic & Nc & Cc); [apply wft_leaf|].
    assert (Hg : exists cs', cs' = l ++ (x, c) :: m /\
      (if length (l ++ m) <=? length l then
        do c <- append ltb s (PT (id ++ [length (l ++ m)]) 0 []); Ok (PT id (n + 1) ((l ++ m) ++ [(x, c)]))
      else
        do (y, u) <- of_option IndexError (nth_error (l ++ m) (length l)) ;
        if eqb y x then
          do u' <- append ltb s u ; do cs' <- of_option IndexError (list_set (l ++ m) (length l) (y, u')) ; Ok (PT id (n + 1) cs')
        else
          do c <- append ltb s (PT (id ++ [length (l ++ m)]) 0 []) ;
          Ok (PT id (n + 1) (firstn (length l) (l ++ m) ++ (x, c) :: skipn (length l) (l ++ m)))) = Ok (PT id (n + 1) cs')).
    { eexists. split; [reflexivity|]. rewrite Ec. cbn [bind]. destruct m as [|[y v] m].
      - rewrite app_nil_r, Nat.leb_refl. auto.
      - destruct (Nat.leb_spec (length (l ++ (y, v) :: m)) (length l)) as [Hle|_]; [rewrite app_length in Hle; cbn in Hle; lia|].
        rewrite nth_error_mid. cbn [of_option bind]. destruct (eqb_ok y x) as [->|Hne].
        + specialize (Hm (x, v) (or_introl eq_refl)). apply ltb_ne in Hm. cbn in Hm. congruence.
        + rewrite firstn_app, skipn_app, Nat.sub_diag, firstn_all, skipn_all. cbn. rewrite app_nil_r. auto. }
    destruct Hg as (cs' & Ecs & ->). eexists. split; [reflexivity|].
    cbn in Nc. destruct (Fin m (PT (id ++ [length (l ++ m)]) 0 []) c cs') as [F1 F2]; auto; try lia.
Qed.

Lemma node_lookup t w u : wft t -> node_at t w u <-> lookup t w = Some u.
Proof.
  intros W. split.
  - intros Hn. revert W. induction Hn as [t|t x c w u Hin Hn IH]; intros W; cbn [lookup]; auto.
    destruct W as [id n cs ks D ? ? ? Hcs]. cbn in *. rewrite (dict_In_get cs x c); auto.
    + apply IH. apply (Hcs x); auto.
    + apply desc_NoDup; auto.
  - revert t W; induction w as [|x w IH]; intros t W; cbn [lookup].
    + intros E; injection E as <-. constructor.
    + destruct (dict_get x (get_children t)) as [c|] eqn:E; [|discriminate]. intros E2.
      apply dict_get_In in E. econstructor; eauto. apply IH; auto. destruct W as [? ? ? ? ? ? ? ? Hcs]. apply (Hcs x); auto.
Qed.
Lemma node_wft t w u : wft t -> node_at t w u -> wft u /\ (w <> [] -> 1 <= get_nr_of_sequences u).
Proof.
  intros W Hn. revert W. induction Hn as [t|t x c w u Hin Hn IH]; intros W; [split; [auto|congruence]|].
  destruct W as [id n cs ks D ? ? ? Hcs]. destruct (Hcs x c Hin) as [Q1 Q2]. destruct (IH Q2) as [Q3 Q4]. split; [auto|].
  intros _. destruct w; [inversion Hn; subst; auto|apply Q4; discriminate].
Qed.

(** the trees that appending builds *)
Lemma append_all_ok ss : exists t, append_all ltb ss = Ok t /\ wft t /\
  forall w, cnt t w = length (filter (prefixb w) ss).
Proof.
  unfold append_all. assert (G : forall t, wft t -> exists t', foldM (fun t s => append ltb s t) ss t = Ok t' /\ wft t' /\
    forall w, cnt t' w = cnt t w + length (filter (prefixb w) ss)).
  { induction ss as [|s ss IH]; intros t W; cbn [foldM].
    - exists t. split; [auto|]. split; [auto|]. intros; cbn; lia.
    - destruct (append_ok s t W) as (t1 & E1 & W1 & _ & _ & C1). rewrite E1. cbn [bind].
      destruct (IH t1 W1) as (t2 & E2 & W2 & C2). exists t2. split; [auto|]. split; [auto|].
      intros w. rewrite C2, C1. cbn [filter]. destruct (prefixb w s); cbn; lia. }
  destruct (G new_tree (wft_leaf _ _)) as (t & E & W & C). exists t. split; [auto|]. split; [auto|].
  intros w. rewrite C. unfold new_tree. rewrite cnt_leaf. auto.
Qed.
Lemma has_size_filter {X} (p : X -> bool) (l : list X) :
  has_size (fun k => exists x, nth_error l k = Some x /\ p x = true) (length (filter p l)).
Proof.
  induction l as [|x l IH]; cbn [filter].
  - apply has_size_empty. intros k (x & E & _). destruct k; discriminate.
  - assert (HI : has_size (fun k => exists j x0, k = S j /\ nth_error l j = Some x0 /\ p x0 = true) (length (filter p l))).
    { eapply (has_size_image _ _ S _ IH); [intros; lia|]. intros k. split.
      - intros (j & x0 & -> & E). exists j. split; eauto.
      - intros (j & (x0 & E) & <-). eauto. }
    destruct (p x) eqn:E.
    + assert (H0 : has_size (fun k => k = 0) 1).
      { exists [0]. split; [constructor; [tauto|constructor]|]. split; [|auto]. intros k. cbn. intuition lia. }
      eapply has_size_ext; [|exact (has_size_or _ _ _ _ H0 HI ltac:(intros k -> (j & x0 & E2 & _); discriminate))].
      intros [|k]; cbn; split.
      * intros _. exists x. auto.
      * intros _. auto.
      * intros [E2|(j & x0 & E2 & E3)]; [discriminate|]. injection E2 as ->. eauto.
      * intros (x0 & E2). right. eauto 6.
    + eapply has_size_ext; [|exact HI]. intros [|k]; cbn; split.
      * intros (j & x0 & E2 & _). discriminate.
      * intros (x0 & E2 & E3). injection E2 as ->. congruence.
      * intros (j & x0 & E2 & E3). injection E2 as ->. eauto.
      * intros (x0 & E2). eauto 6.
Qed.

Lemma node_snoc t w u x c : node_at t w u -> In (x, c) (get_children u) -> node_at t (w ++ [x]) c.
Proof. induction 1; cbn; intros Hin; econstructor; eauto. constructor. Qed.
Lemma node_app t w u v u' : node_at t w u -> node_at u v u' -> node_at t (w ++ v) u'.
Proof. induction 1; cbn; intros Hn; auto. econstructor; eauto. Qed.
Lemma node_ids t w u : wft t -> node_at t w u -> exists p, get_node_id u = get_node_id t ++ p /\ (w = [] <-> p = []) /\
  forall x w', w = x :: w' -> exists k p' c, p = k :: p' /\ In (x, c) (get_children t) /\ get_node_id c = get_node_id t ++ [k] /\ node_at c w' u.
Proof.
  intros W Hn. revert W. induction Hn as [t|t x c w u Hin Hn IH]; intros W.
  - exists []. split; [symmetry; apply app_nil_r|]. split; [tauto|]. discriminate.
  - destruct W as [id n cs ks D Hid ? ? Hcs]. destruct (Hcs x c Hin) as [_ Wc]. destruct (IH Wc) as (p & Ep & _ & _).
    cbn in *. assert (Hk : In (get_node_id c) (map (fun k => id ++ [k]) ks)).
    { rewrite <- Hid. apply (in_map (fun p : A * ptree => get_node_id (snd p)) cs (x, c)). auto. }
    apply in_map_iff in Hk. destruct Hk as (k & Ek & _). exists (k :: p). split; [rewrite Ep, <- Ek, <- app_assoc; auto|].
    split; [split; discriminate|]. intros x' w' E. injection E as <- <-. exists k, p, c. auto.
Qed.
Lemma NoDup_map_at {X Y} (g : X -> Y) l a b : NoDup (map g l) -> In a l -> In b l -> g a = g b -> a = b.
Proof.
  induction l as [|c l IH]; cbn; [tauto|]; intros N [<-|Ha] [<-|Hb] E; try tauto; inversion N as [|? ? N1 N2]; subst; auto.
  - destruct N1. rewrite E. apply in_map; auto.
  - destruct N1. rewrite <- E. apply in_map; auto.
Qed.
Lemma node_id_inj t w u w' u' : wft t -> node_at t w u -> node_at t w' u' -> get_node_id u = get_node_id u' -> w = w'.
Proof.
  revert t w'. induction w as [|x w IH]; intros t w' W Hn Hn' E.
  - destruct (node_ids _ _ _ W Hn) as (p & Ep & Hp & _). destruct (node_ids _ _ _ W Hn') as (p' & Ep' & Hp' & _).
    rewrite E, Ep' in Ep. apply app_inv_head in Ep. subst p'. symmetry. apply Hp'. apply Hp. auto.
  - destruct (node_ids _ _ _ W Hn) as (p & Ep & Hp & Q). destruct (node_ids _ _ _ W Hn') as (p' & Ep' & Hp' & Q').
    rewrite E, Ep' in Ep. apply app_inv_head in Ep. subst p'.
    destruct w' as [|x' w']; [exfalso; assert (E2 : x :: w = []) by (apply Hp, Hp'; auto); discriminate|].
    destruct (Q x w eq_refl) as (k & q & c & -> & Hin & Ek & Hc). destruct (Q' x' w' eq_refl) as (k' & q' & c' & E2 & Hin' & Ek' & Hc').
    injection E2 as <- <-. destruct W as [id n cs ks D Hid Nk ? Hcs]. cbn in *.
    assert (Ec : (x, c) = (x', c')).
    { apply (NoDup_map_at (fun p : A * ptree => get_node_id (snd p)) cs); auto; [|cbn; congruence].
      rewrite Hid. apply FinFun.Injective_map_NoDup; auto. intros a b Eab. apply app_inj_tail in Eab. tauto. }
    injection Ec as -> ->. f_equal. apply (IH c'); auto. apply (Hcs x'); auto.
Qed.

(** level order, together with the paths *)
Definition kids (e : list A * (A * ptree)) := map (fun xc : A * ptree => (fst e ++ [fst xc], xc)) (get_children (snd (snd e))).
Fixpoint bfs (fuel : nat) (q : list (list A * (A * ptree))) : list (list A * (A * ptree)) :=
  match q, fuel with
  | e :: q', S fuel' => e :: bfs fuel' (q' ++ kids e)
  | _, _ => []
  end.
Definition total (q : list (list A * (A * ptree))) := fold_right (fun e n => S (size (snd (snd e)) + n)) 0 q.
Lemma total_app q q' : total (q ++ q') = total q + total q'.
Proof. unfold total. induction q as [|e q IH]; cbn [fold_right app]; auto. rewrite IH. lia. Qed.
Lemma total_kids e : total (kids e) = size (snd (snd e)).
Proof.
  destruct e as [w [x [id n cs]]]. unfold kids, total. cbn. induction cs as [|[y c] cs IH]; cbn; auto.
Qed.
Lemma map_snd_kids e : map snd (kids e) = get_children (snd (snd e)).
Proof. unfold kids. rewrite map_map. cbn. apply map_id. Qed.
Lemma bfs_ok fuel : forall q, total q <= fuel -> level_order fuel (map snd q) = Ok (map snd (bfs fuel q)).
Proof.
  induction fuel as [|fuel IH]; intros [|[w [x t]] q] Hf; cbn [map level_order bfs snd]; auto; cbn in Hf; [lia|].
  specialize (IH (q ++ kids (w, (x, t)))). rewrite map_app, map_snd_kids in IH. cbn in IH. rewrite IH; [auto|].
  rewrite total_app, total_kids. cbn. unfold total. lia.
Qed.
Definition apart (w w' : list A) := (forall v, w <> w' ++ v) /\ (forall v, w' <> w ++ v).
Inductive spread : list (list A) -> Prop :=
| spread_nil : spread []
| spread_cons w l : (forall w', In w' l -> apart w w') -> spread l -> spread (w :: l).
Lemma spread_app l m : spread l -> spread m -> (forall w w', In w l -> In w' m -> apart w w') -> spread (l ++ m).
Proof.
  induction 1 as [|w l Hw S IH]; intros M C; cbn; auto. constructor.
  - intros w' Hin. apply in_app_or in Hin. destruct Hin; auto. apply C; cbn; auto.
  - apply IH; auto. intros; apply C; cbn; auto.
Qed.
Lemma spread_kids w x t : wft t -> spread (map fst (kids (w, (x, t)))).
Proof.
  intros W. destruct W as [id n cs ks D _ _ _ _]. unfold kids. cbn. apply desc_NoDup in D.
  induction cs as [|[y c] cs IH]; cbn; [constructor|]. inversion D as [|? ? N1 N2]; subst. constructor; auto.
  intros w' Hin. rewrite map_map in Hin. apply in_map_iff in Hin. destruct Hin as ([z d] & <- & Hin). cbn.
  assert (Hyz : y <> z) by (intros ->; apply N1; apply in_map_iff; exists (z, d); auto).
  split; intros v E; rewrite <- app_assoc in E; apply app_inv_head in E; cbn in E; congruence.
Qed.

Section Bfs.
Variable t0 : ptree.
Hypothesis W0 : wft t0.
Definition valid (e : list A * (A * ptree)) := node_at t0 (fst e) (snd (snd e)) /\ exists p, fst e = p ++ [fst (snd e)].
Lemma kids_valid e : valid e -> Forall valid (kids e).
Proof.
  intros [V1 V2]. rewrite Forall_forall. intros d Hd. unfold kids in Hd. apply in_map_iff in Hd. destruct Hd as ([y c] & <- & Hin).
  split; cbn; [eapply node_snoc; eauto|eauto].
Qed.
Lemma bfs_valid fuel : forall q, Forall valid q -> Forall valid (bfs fuel q).
Proof.
  induction fuel as [|fuel IH]; intros [|e q] V; cbn [bfs]; auto. inversion V; subst. constructor; auto.
  apply IH. apply Forall_app. split; auto. apply kids_valid; auto.
Qed.
Lemma bfs_extend fuel : forall q e, In e (bfs fuel q) -> exists d v, In d q /\ fst e = fst d ++ v.
Proof.
  induction fuel as [|fuel IH]; intros [|d q] e; cbn [bfs]; try (intros []; fail).
  intros [<-|Hin]; [exists d, []; rewrite app_nil_r; cbn; auto|].
  apply IH in Hin. destruct Hin as (d' & v & Hd & E). apply in_app_or in Hd. destruct Hd as [Hd|Hd]; [exists d', v; cbn; auto|].
  apply in_map_iff in Hd. destruct Hd as (xc & <- & _). cbn in E. rewrite <- app_assoc in E. exists d. eexists. cbn; eauto.
Qed.
Lemma bfs_complete fuel : forall q d v u, total q <= fuel -> In d q -> node_at (snd (snd d)) v u ->
  exists e, In e (bfs fuel q) /\ fst e = fst d ++ v.
Proof.
  induction fuel as [|fuel IH]; intros [|d0 q] d v u Hf Hd Hn; try contradiction; [cbn in Hf; lia|].
  assert (Hf' : total (q ++ kids d0) <= fuel) by (rewrite total_app, total_kids; cbn in Hf; unfold total in *; lia).
  cbn [bfs]. destruct Hd as [->|Hd].
  - inversion Hn as [|? x c w ? Hin Hn']; subst.
    + exists d. rewrite app_nil_r. cbn; auto.
    + destruct (IH (q ++ kids d) (fst d ++ [x], (x, c)) w u Hf') as (e & He & E).
      * apply in_or_app. right. apply in_map_iff. exists (x, c). auto.
      * auto.
      * exists e. cbn in E. rewrite <- app_assoc in E. cbn. auto.
  - destruct (IH (q ++ kids d0) d v u Hf') as (e & He & E); auto; [apply in_or_app; auto|]. exists e. cbn. auto.
Qed.
Lemma bfs_NoDup fuel : forall q, Forall valid q -> spread (map fst q) -> NoDup (map fst (bfs fuel q)).
Proof.
  induction fuel as [|fuel IH]; intros [|e q] V S; cbn [bfs map]; try constructor.
  - inversion S as [|? ? S1 S2]; subst. intros Hin. apply in_map_iff in Hin. destruct Hin as (d & E & Hd).
    apply bfs_extend in Hd. destruct Hd as (d' & v & Hd & E'). apply in_app_or in Hd. rewrite E in E'. destruct Hd as [Hd|Hd].
    + destruct (S1 (fst d')) as [Q _]; [apply in_map; auto|]. apply (Q v). auto.
    + apply in_map_iff in Hd. destruct Hd as (xc & <- & _). cbn in E'. apply (f_equal (@length A)) in E'.
      rewrite !app_length in E'. cbn in E'. lia.
  - inversion S as [|? ? S1 S2]; subst. inversion V as [|? ? V1 V2]; subst. apply IH.
    + apply Forall_app. split; auto. apply kids_valid; auto.
    + rewrite map_app. apply spread_app; auto.
      * destruct e as [w [x t]]. apply spread_kids. destruct V1 as [V1 _]. apply (node_wft _ _ _ W0 V1).
      * intros w w' Hw Hw'. apply in_map_iff in Hw'. destruct Hw' as (d & <- & Hd). apply in_map_iff in Hd.
        destruct Hd as (xc & <- & _). cbn. destruct (S1 _ Hw) as [Q1 Q2]. split; intros v E.
        -- rewrite <- app_assoc in E. eapply Q2; eauto.
        -- (* e ++ [y] = w ++ v: either w extends e or e extends w *)
           destruct v as [|z v _] using rev_ind.
           ++ rewrite app_nil_r in E. eapply Q2. eauto.
           ++ rewrite app_assoc in E. apply app_inj_tail in E. destruct E as [E _]. eapply Q1; eauto.
Qed.
Lemma bfs_levels fuel : forall q, StronglySorted le (map (fun e => length (fst e)) q) ->
  (forall e d q', q = e :: q' -> In d q' -> length (fst d) <= S (length (fst e))) ->
  StronglySorted le (map (fun e => length (fst e)) (bfs fuel q)).
Proof.
  induction fuel as [|fuel IH]; intros [|e q] S C; cbn [bfs map]; try constructor.
  - inversion S as [|? ? S1 S2]; subst. rewrite Forall_forall in S2.
    assert (Hk : forall d, In d (kids e) -> length (fst d) = Datatypes.S (length (fst e))).
    { intros d Hd. apply in_map_iff in Hd. destruct Hd as (xc & <- & _). cbn. rewrite app_length. cbn. lia. }
    assert (Hq : forall d, In d q -> length (fst e) <= length (fst d) <= Datatypes.S (length (fst e))).
    { intros d Hd. split; [|eapply C; eauto]. apply S2. apply (in_map (fun e => length (fst e)) q d). auto. }
    apply IH.
    + clear - S1 Hk Hq. induction q as [|d q IHq]; cbn [app map].
      * clear - Hk. induction (kids e) as [|k l IHl]; cbn; constructor.
        -- apply IHl. intros; apply Hk; cbn; auto.
        -- rewrite Forall_forall. intros n Hn. apply in_map_iff in Hn. destruct Hn as (d & <- & Hd).
           rewrite (Hk k), (Hk d); cbn; auto.
      * inversion S1 as [|? ? S3 S4]; subst. constructor.
        -- apply IHq; auto. intros; apply Hq; cbn; auto.
        -- rewrite map_app. apply Forall_app. split; auto. rewrite Forall_forall. intros n Hn. apply in_map_iff in Hn.
           destruct Hn as (k & <- & Hd). rewrite (Hk k) by auto. apply Hq. cbn; auto.
    + intros a d q' E Hd. assert (Ha : In a (q ++ kids e)) by (rewrite E; cbn; auto).
      assert (Hd' : In d (q ++ kids e)) by (rewrite E; cbn; auto).
      apply in_app_or in Ha, Hd'.
      assert (length (fst e) <= length (fst a)) by (destruct Ha as [Ha|Ha]; [apply Hq; auto|rewrite (Hk a) by auto; lia]).
      assert (length (fst d) <= Datatypes.S (length (fst e))) by (destruct Hd' as [?|?]; [apply Hq; auto|rewrite (Hk d) by auto; lia]).
      lia.
  - rewrite Forall_forall. intros n Hn. apply in_map_iff in Hn. destruct Hn as (d & <- & Hd).
    apply bfs_extend in Hd. destruct Hd as (d' & v & Hd & ->). rewrite app_length.
    inversion S as [|? ? S1 S2]; subst. rewrite Forall_forall in S2. apply in_app_or in Hd. destruct Hd as [Hd|Hd].
    + enough (length (fst e) <= length (fst d')) by lia. apply S2. apply (in_map (fun e => length (fst e)) q d'). auto.
    + apply in_map_iff in Hd. destruct Hd as (xc & <- & _). cbn. rewrite app_length. lia.
Qed.
Lemma traverse_ok : exists ws l, traverse_level_order t0 = Ok l /\ NoDup ws /\ StronglySorted le (map (@length A) ws) /\
  Forall2 (fun w '(x, u) => node_at t0 w u /\ exists p, w = p ++ [x]) ws l /\
  forall w, w <> [] -> (exists u, node_at t0 w u) -> In w ws.
Proof.
  set (q := map (fun xc : A * ptree => ([fst xc], xc)) (get_children t0)).
  assert (Hq : forall x, q = kids ([], (x, t0))) by (intros; reflexivity).
  assert (Vq : Forall valid q).
  { rewrite Forall_forall. intros d Hd. apply in_map_iff in Hd. destruct Hd as ([y c] & <- & Hin). split; cbn.
    - econstructor; [eauto|constructor].
    - exists []. auto. }
  assert (Tq : total q <= size t0).
  { unfold q. clear. destruct t0 as [id n cs]. unfold total. cbn. induction cs as [|[y c] cs IH]; cbn; [lia|]. cbn in IH. lia. }
  assert (Mq : map snd q = get_children t0) by (unfold q; rewrite map_map; apply map_id).
  exists (map fst (bfs (size t0) q)), (map snd (bfs (size t0) q)). split; [|split; [|split; [|split]]].
  - unfold traverse_level_order. rewrite <- Mq. apply bfs_ok. auto.
  - apply bfs_NoDup; auto. destruct (get_children t0) as [|[x c] cs] eqn:E; [unfold q; cbn; constructor|].
    rewrite (Hq x). apply spread_kids. auto.
  - rewrite map_map. assert (Hl : forall d, In d q -> length (fst d) = 1).
    { intros d Hd. apply in_map_iff in Hd. destruct Hd as (xc & <- & _). auto. }
    apply bfs_levels.
    + clear - Hl. induction q as [|d q IH]; cbn; constructor.
      * apply IH. intros; apply Hl; cbn; auto.
      * rewrite Forall_forall. intros n Hn. apply in_map_iff in Hn. destruct Hn as (d' & <- & Hd).
        rewrite (Hl d), (Hl d'); cbn; auto.
    + intros e d q' E Hd. rewrite E in Hl. rewrite (Hl d), (Hl e); cbn; auto.
  - pose proof (bfs_valid (size t0) q Vq) as V. induction V as [|[w [x u]] l V1 V IH]; cbn; constructor; auto.
  - intros [|x w] Hne (u & Hn); [congruence|]. inversion Hn as [|? ? c ? ? Hin Hn']; subst.
    destruct (bfs_complete (size t0) q ([x], (x, c)) w u Tq) as (e & He & E); auto.
    + apply in_map_iff. exists (x, c). auto.
    + cbn in E. rewrite <- E. apply in_map. auto.
Qed.
End Bfs.
End PrefixTree.

(*P C48 Prefix trees *)
Lemma C48_nodes_are_the_prefixes : forall (A : Type) `(Eq A) (ltb : A -> A -> bool) (ss : list (list A)), strict_total ltb ->
  exists t, append_all ltb ss = Ok t /\
    (forall w, (exists u, node_at t w u) <-> w = [] \/ exists s v, In s ss /\ s = w ++ v) /\
    forall w u u', node_at t w u -> node_at t w u' -> u = u'.
Proof.
  intros A HE ltb ss Ho. destruct (append_all_ok ltb Ho ss) as (t & E & W & C). exists t. split; [auto|]. split.
  - intros w. split.
    + intros [u Hu]. destruct w as [|x w]; [auto|right]. pose proof (node_wft ltb _ _ _ W Hu) as [_ Q].
      specialize (C (x :: w)). unfold cnt in C. apply (node_lookup ltb Ho) in Hu; [|auto]. rewrite Hu in C.
      destruct (filter (prefixb (x :: w)) ss) as [|s l] eqn:El; [cbn in C; specialize (Q ltac:(discriminate)); lia|].
      assert (Hs : In s (filter (prefixb (x :: w)) ss)) by (rewrite El; cbn; auto).
      apply filter_In in Hs. destruct Hs as [Hs Hp]. apply prefixb_ok in Hp. destruct Hp as [v Hv]. exists s, v. auto.
    + intros [->|(s & v & Hs & ->)]; [exists t; constructor|].
      assert (Hf : In (w ++ v) (filter (prefixb w) ss)) by (apply filter_In; split; [auto|apply prefixb_ok; eauto]).
      specialize (C w). unfold cnt in C. destruct (lookup t w) as [u|] eqn:El.
      * exists u. apply (node_lookup ltb Ho); auto.
      * destruct (filter (prefixb w) ss); [contradiction|cbn in C; lia].
  - intros w u u' Hu Hu'. apply (node_lookup ltb Ho) in Hu, Hu'; auto. congruence.
Qed.
(** the count of a node is the number of appended sequences that start with its path *)
Lemma C48_counts : forall (A : Type) `(Eq A) (ltb : A -> A -> bool) (ss : list (list A)) t w u, strict_total ltb ->
  append_all ltb ss = Ok t -> node_at t w u ->
  has_size (fun k => exists s v, nth_error ss k = Some s /\ s = w ++ v) (get_nr_of_sequences u).
Proof.
  intros A HE ltb ss t w u Ho E Hu. destruct (append_all_ok ltb Ho ss) as (t' & E' & W & C).
  rewrite E in E'. injection E' as <-. apply (node_lookup ltb Ho) in Hu; auto. specialize (C w). unfold cnt in C.
  rewrite Hu in C. rewrite C. eapply has_size_ext; [|apply has_size_filter]. intros k. split.
  - intros (s & Es & Hp). apply prefixb_ok in Hp. destruct Hp as [v Hv]. eauto.
  - intros (s & v & Es & Hv). exists s. split; [auto|]. apply prefixb_ok. eauto.
Qed.
(** node ids are unique *)
Lemma C48_node_ids : forall (A : Type) `(Eq A) (ltb : A -> A -> bool) (ss : list (list A)) t w u w' u', strict_total ltb ->
  append_all ltb ss = Ok t -> node_at t w u -> node_at t w' u' -> get_node_id u = get_node_id u' -> w = w'.
Proof.
  intros A HE ltb ss t w u w' u' Ho E Hu Hu' Ei. destruct (append_all_ok ltb Ho ss) as (t' & E' & W & C).
  rewrite E in E'. injection E' as <-. eapply (node_id_inj ltb); eauto.
Qed.
(** children appear with strictly descending symbols *)
Lemma C48_children_sorted : forall (A : Type) `(Eq A) (ltb : A -> A -> bool) (ss : list (list A)) t w u, strict_total ltb ->
  append_all ltb ss = Ok t -> node_at t w u -> StronglySorted (fun x y => ltb y x = true) (map fst (get_children u)).
Proof.
  intros A HE ltb ss t w u Ho E Hu. destruct (append_all_ok ltb Ho ss) as (t' & E' & W & C).
  rewrite E in E'. injection E' as <-. pose proof (node_wft ltb _ _ _ W Hu) as [Wu _].
  destruct Wu as [? ? cs ? D _ _ _ _]. cbn. clear Hu. induction D as [|c l S IH F]; cbn; constructor; auto.
  rewrite Forall_forall in *. intros y Hy. apply in_map_iff in Hy. destruct Hy as (d & <- & Hd). apply F; auto.
Qed.
(** the level-order traversal lists every node but the root exactly once,
    shorter paths first *)
Lemma C48_level_order : forall (A : Type) `(Eq A) (ltb : A -> A -> bool) (ss : list (list A)) t, strict_total ltb ->
  append_all ltb ss = Ok t -> exists ws l, traverse_level_order t = Ok l /\
    Forall2 (fun w '(x, u) => node_at t w u /\ exists p, w = p ++ [x]) ws l /\
    NoDup ws /\ StronglySorted le (map (@length A) ws) /\
    forall w, In w ws <-> w <> [] /\ exists u, node_at t w u.
Proof.
  intros A HE ltb ss t Ho E. destruct (append_all_ok ltb Ho ss) as (t' & E' & W & C).
  rewrite E in E'. injection E' as <-. destruct (traverse_ok ltb Ho t W) as (ws & l & El & N & S & F & Q).
  exists ws, l. do 4 (split; [auto|]). intros w. split; [|intros [H1 H2]; auto].
  intros Hw. clear - F Hw. induction F as [|w0 [x u] ws l [F1 [p F2]] F IH]; [contradiction|].
  destruct Hw as [<-|Hw]; [|auto]. split; [|eauto]. rewrite F2. destruct p; discriminate.
Qed.
(** a leaf is a sequence that no other one extends *)
Lemma C48_leaves : forall (A : Type) `(Eq A) (ltb : A -> A -> bool) (ss : list (list A)) t w u, strict_total ltb ->
  append_all ltb ss = Ok t -> node_at t w u ->
  (is_leaf u = true <-> ~ exists s x v, In s ss /\ s = w ++ x :: v).
Proof.
  intros A HE ltb ss t w u Ho E Hu. destruct (C48_nodes_are_the_prefixes A HE ltb ss Ho) as (t' & E' & Q & U).
  rewrite E in E'. injection E' as <-. unfold is_leaf. split.
  - intros Hl (s & x & v & Hs & ->). destruct (proj2 (Q (w ++ [x]))) as [c Hc].
    { right. exists (w ++ x :: v), v. rewrite <- app_assoc. auto. }
    assert (G : forall (t : ptree A) w c x, node_at t (w ++ [x]) c -> exists u' c', node_at t w u' /\ In (x, c') (get_children u')).
    { clear. intros t w. revert t. induction w as [|y w IH]; cbn; intros t c x Hn; inversion Hn; subst.
      - exists t. eexists. split; [constructor|eauto].
      - edestruct IH as (u' & c' & Q1 & Q2); eauto. exists u', c'. split; auto. econstructor; eauto. }
    apply G in Hc. destruct Hc as (u' & c' & Hu' & Hin). rewrite (U _ _ _ Hu Hu') in Hl.
    destruct (get_children u'); [contradiction|discriminate].
  - intros Hno. destruct (get_children u) as [|[x c] cs] eqn:Ec; [auto|]. exfalso. apply Hno.
    destruct (proj1 (Q (w ++ [x]))) as [E2|(s & v & Hs & ->)].
    + exists c. eapply node_snoc; eauto. rewrite Ec; cbn; auto.
    + destruct w; discriminate.
    + exists ((w ++ [x]) ++ v), x, v. rewrite <- app_assoc in *. auto.
Qed.
