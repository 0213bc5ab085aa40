(** Datasets: grouping (C60) and data frames (C81) *)
From Coq Require Import Permutation.
From Verif.Model Require Import Base Dataset.
From Verif.Spec Require Import DatasetSpec.
From Verif.Lib Require Import ListLib DictLib.
From Verif.Proofs Require Import PetriA ParallelB DatasetA DatasetB.
Open Scope nat_scope.

Section G.
  Context {I V T : Type} `{Eq I} `{Eq V}.
  Notation heap := (heap I V T).
  Notation dataset := (dataset V).

  Lemma group_loop (h : heap) (d : dataset) n us : history true h d ->
    (forall a, In a (insts d) -> exists v, value h a n = Some v /\ In v us) ->
    forall it done gs, NoDup (done ++ it) -> incl (done ++ it) (insts d) ->
    keys gs = us ->
    (forall v g, dict_get v gs = Some g -> part h d g (filter (fun a => eqb (value h a n) (Some v)) done)) ->
    exists gs', foldM (fun gs a =>
             do y <- of_option AttributeError (nth_error h a) ;
             do v <- of_option KeyError (dict_get n (feats y)) ;
             do g <- of_option KeyError (dict_get v gs) ;
             do g' <- add_instance h g a ;
             Ok (dict_set v g' gs)) it gs = Ok gs' /\
      keys gs' = us /\
      (forall v g, dict_get v gs' = Some g -> part h d g (filter (fun a => eqb (value h a n) (Some v)) (done ++ it))).
  Proof.
    intros Hh Hval. pose proof (history_inv _ _ _ Hh) as Hi.
    induction it as [|a it IH]; intros done gs Hn Hl Hk Hg; cbn [foldM].
    - rewrite app_nil_r. eauto.
    - assert (Ha : In a (insts d)) by (apply Hl; apply in_or_app; cbn; auto).
      destruct (Hval a Ha) as (v & Ev & Hv). pose proof Ev as Ev'. unfold value in Ev'.
      destruct (nth_error h a) as [x|] eqn:Ex; [|discriminate].
      cbn [of_option bind]. rewrite Ev'. cbn [of_option bind].
      destruct (dict_get_key gs v) as [g Eg]; [rewrite Hk; auto|]. rewrite Eg. cbn [of_option bind].
      destruct (part_add h d g (filter (fun a => eqb (value h a n) (Some v)) done) a Hh (Hg v g Eg) Ha)
        as (g' & E' & P').
      + intros Hin. apply filter_In in Hin. apply NoDup_remove_2 in Hn. apply Hn. apply in_or_app. tauto.
      + intros b Hb. apply filter_In in Hb. apply Hl. apply in_or_app. tauto.
      + rewrite E'. cbn [bind]. replace (done ++ a :: it) with ((done ++ [a]) ++ it) in * by (rewrite <- app_assoc; auto).
        apply IH; auto.
        * rewrite keys_dict_set, Hk. replace (mem v us) with true; auto. symmetry. apply mem_In. auto.
        * intros w g1. rewrite dict_get_set, filter_app. cbn [filter].
          destruct (eqb_ok w v) as [->|Hne].
          -- intros E1. injection E1 as <-. rewrite Ev, eqb_refl. auto.
          -- intros E1. rewrite Ev. destruct (eqb_ok (Some v) (Some w)) as [E2|_]; [congruence|].
             rewrite app_nil_r. auto.
  Qed.
End G.

(*P C60 Dataset splitting *)
(** group_by_categorical_attribute: KeyError for an unknown attribute;
    otherwise one group per value the attribute has, each a dataset with
    exactly the instances that have this value, none of them empty, and
    every instance in a group. *)
Lemma C60_group_by : forall (I V T : Type) (EI : Eq I) (EV : Eq V) (h : heap I V T) (d : dataset V) it n,
  history true h d -> Permutation it (insts d) ->
  (~ has_attribute d n /\ group_by h d it n = Err KeyError) \/
  (exists gs, group_by h d it n = Ok gs /\ uniques d n = Some (keys gs) /\
     (forall v g, dict_get v gs = Some g -> exists l, part h d g l /\ l <> [] /\
        forall a, In a l <-> In a (insts d) /\ value h a n = Some v) /\
     (forall a, In a (insts d) -> exists v g, value h a n = Some v /\ dict_get v gs = Some g)).
Proof.
  intros I V T EI EV h d it n Hh Hit. pose proof (history_inv _ _ _ Hh) as Hi. unfold group_by, uniques.
  destruct (dict_get n (attrs d)) as [y|] eqn:Ey.
  2:{ left. split; auto. rewrite has_attribute_In. apply dict_get_None. auto. }
  right. cbn [of_option bind option_map]. destruct (v_uniq _ _ _ Hi n y Ey) as [A B].
  assert (Hval : forall a, In a (insts d) -> exists v, value h a n = Some v /\ In v (auniq y)).
  { intros a Ha. destruct (v_valid _ _ _ Hi a Ha) as [x Ex].
    destruct (dict_get_key (feats x) n) as [v Ev].
    { apply (v_feats _ _ _ Hi a x (conj Ha Ex)). eapply dict_get_Some_key; eauto. }
    exists v. assert (Ev' : value h a n = Some v) by (unfold value; rewrite Ex; auto).
    split; auto. apply B. eauto. }
  destruct (group_loop h d n (auniq y) Hh Hval it [] (map (fun v => (v, new (cats d) (nums d))) (auniq y)))
    as (gs & E & Hk & Hg).
  - apply Permutation_NoDup with (insts d); [apply Permutation_sym; auto|apply Hi].
  - intros a Ha. apply (Permutation_in _ Hit). auto.
  - unfold keys. rewrite map_map. cbn. apply map_id.
  - intros v g Eg. cbn [filter]. apply dict_get_In in Eg. apply in_map_iff in Eg. destruct Eg as (w & E & _).
    injection E as _ <-. apply new_part. auto.
  - exists gs. split; [exact E|]. split; [rewrite Hk; auto|]. cbn [app] in Hg. split.
    + intros v g Eg. exists (filter (fun a => eqb (value h a n) (Some v)) it). split; [auto|].
      assert (Hin : forall a, In a (filter (fun a => eqb (value h a n) (Some v)) it) <->
        In a (insts d) /\ value h a n = Some v).
      { intros a. rewrite filter_In, (eqb_eq (value h a n)). split; intros [Ha Ev]; split; auto.
        - apply (Permutation_in _ Hit). auto.
        - apply (Permutation_in _ (Permutation_sym Hit)). auto. }
      split; [|exact Hin]. apply dict_get_Some_key in Eg. rewrite Hk in Eg. apply B in Eg.
      destruct Eg as (a & Ha & Ev). intros E0. pose proof (proj2 (Hin a) (conj Ha Ev)) as Hf. rewrite E0 in Hf. destruct Hf.
    + intros a Ha. destruct (Hval a Ha) as (v & Ev & Hv). rewrite <- Hk in Hv.
      destruct (dict_get_key gs v Hv) as [g Eg]. eauto.
Qed.

(*P C81 Data frames *)
Lemma Forall2_nth_error_l {X Y} (P : X -> Y -> Prop) l m (F : Forall2 P l m) : forall i x,
  nth_error l i = Some x -> exists y, nth_error m i = Some y /\ P x y.
Proof. induction F; intros [|i] z E; cbn in *; try discriminate; [injection E as <-; eauto|apply IHF; auto]. Qed.
Lemma Forall2_nth_error_r {X Y} (P : X -> Y -> Prop) l m (F : Forall2 P l m) : forall i y,
  nth_error m i = Some y -> exists x, nth_error l i = Some x /\ P x y.
Proof. induction F; intros [|i] z E; cbn in *; try discriminate; [injection E as <-; eauto|apply IHF; auto]. Qed.
Section F.
  Context {I V T : Type} `{Eq I} `{Eq V}.
  Notation heap := (heap I V T).
  Notation dataset := (dataset V).

  Lemma mapM_all {X Y} (f : X -> result Y) (g : X -> Y) l :
    (forall x, In x l -> f x = Ok (g x)) -> mapM f l = Ok (map g l).
  Proof.
    induction l as [|x l IH]; intros Hall; cbn [mapM map]; auto.
    rewrite Hall by (cbn; auto). cbn [bind]. rewrite IH by (intros; apply Hall; cbn; auto). auto.
  Qed.
  Lemma mapM_some {X Y} (f : X -> result Y) l :
    (forall x, In x l -> exists y, f x = Ok y) -> exists ys, mapM f l = Ok ys /\ Forall2 (fun x y => f x = Ok y) l ys.
  Proof.
    induction l as [|x l IH]; intros Hall; cbn [mapM]; [eauto|].
    destruct (Hall x (or_introl eq_refl)) as [y Ey]. destruct IH as (ys & E & F); [intros; apply Hall; cbn; auto|].
    rewrite Ey. cbn [bind]. rewrite E. cbn [bind]. eauto.
  Qed.
  Lemma dict_of_pairs (fs : list (string * V)) : forall m,
    NoDup (keys m) ->
    NoDup (keys (fold_left (fun m '(a, v) => dict_set a v m) fs m)) /\
    (forall n, In n (keys (fold_left (fun m '(a, v) => dict_set a v m) fs m)) <-> In n (keys m) \/ In n (keys fs)) /\
    (NoDup (keys fs) -> forall n, dict_get n (fold_left (fun m '(a, v) => dict_set a v m) fs m) =
       match dict_get n fs with Some v => Some v | None => dict_get n m end).
  Proof.
    induction fs as [|[a v] fs IH]; intros m Hm; cbn [fold_left].
    - split; [auto|]. split; [cbn; tauto|auto].
    - destruct (IH (dict_set a v m)) as (A & B & C); [apply keys_dict_set_NoDup; auto|].
      split; [auto|]. split.
      + intros n. rewrite B, keys_dict_set_In. change (keys ((a, v) :: fs)) with (a :: keys fs). cbn [In].
        intuition congruence.
      + change (keys ((a, v) :: fs)) with (a :: keys fs). intros Hn n. inversion Hn; subst.
        rewrite C by auto. cbn [dict_get]. rewrite dict_get_set. destruct (eqb_ok n a) as [->|]; auto.
        destruct (dict_get a fs) eqn:Ea; auto. apply dict_get_Some_key in Ea. contradiction.
  Qed.
  Lemma dict_get_combine (cols : list string) : forall (r : list V) j n, NoDup cols -> length r = length cols ->
    nth_error cols j = Some n -> dict_get n (combine cols r) = nth_error r j.
  Proof.
    induction cols as [|c cols IH]; intros [|v r] j n Hn Hl Ej; try discriminate; [destruct j; discriminate|].
    inversion Hn; subst. destruct j; cbn [nth_error combine dict_get] in *.
    - injection Ej as ->. rewrite eqb_refl. auto.
    - destruct (eqb_ok n c) as [->|]; [|apply IH; auto]. apply nth_error_In in Ej. contradiction.
  Qed.

  Lemma create_loop (t0 : T) cols cs ns : NoDup (cs ++ ns) -> NoDup cols -> incl (cs ++ ns) cols ->
    forall rows (h0 : heap) c done news,
    Forall (fun r => length (snd r) = length cols) rows ->
    history true (h0 ++ news) c -> insts c = seq (length h0) (length news) ->
    cats c = cs -> nums c = ns -> same_attributes (new cs ns) c -> length done = length news ->
    Forall2 (fun x '(i, r) => iid x = i /\ target x = t0 /\
      (forall n, In n (keys (feats x)) <-> In n (cs ++ ns)) /\
      (forall j n, In n (cs ++ ns) -> nth_error cols j = Some n -> dict_get n (feats x) = nth_error r j)) news done ->
    NoDup (map fst done) ->
    let res := foldM (fun '(h, c) '(i, r) =>
             do fs <- mapM (fun a => do v <- of_option KeyError (dict_get a (combine cols r)) ; Ok (a, v))
                           (cs ++ ns) ;
             let h' := h ++ [{| iid := i; feats := fold_left (fun m '(a, v) => dict_set a v m) fs [];
                                target := t0 |}] in
             do c' <- add_instance h' c (length h) ;
             Ok (h', c')) rows (h0 ++ news, c) in
    (res = Err ValueError /\ ~ NoDup (map fst (done ++ rows))) \/
    (NoDup (map fst (done ++ rows)) /\ exists news' c', res = Ok (h0 ++ news', c') /\ history true (h0 ++ news') c' /\
      insts c' = seq (length h0) (length news') /\
      cats c' = cs /\ nums c' = ns /\ same_attributes (new cs ns) c' /\
      Forall2 (fun x '(i, r) => iid x = i /\ target x = t0 /\
      (forall n, In n (keys (feats x)) <-> In n (cs ++ ns)) /\
      (forall j n, In n (cs ++ ns) -> nth_error cols j = Some n -> dict_get n (feats x) = nth_error r j)) news' (done ++ rows)).
  Proof.
    intros Hnd Hcol Hincl. induction rows as [|[i r] rows IH]; intros h0 c done news Hr Hc Ec Ecs Ens Ha Hlen HF Hn; cbn [foldM].
    - right. rewrite app_nil_r. split; [auto|]. exists news, c. auto 10.
    - inversion Hr as [|? ? Hlr Hr']; subst. cbn [snd] in Hlr.
      destruct (mapM_some (fun a => do v <- of_option KeyError (dict_get a (combine cols r)) ; Ok (a, v)) (cats c ++ nums c))
        as (fs & Efs & Ffs).
      { intros a Hin. apply Hincl in Hin. apply In_nth_error in Hin. destruct Hin as [j Ej].
        rewrite (dict_get_combine cols r j a Hcol Hlr Ej).
        destruct (nth_error_lt r j) as [v Ev]; [rewrite Hlr; eapply nth_error_Some_lt; eauto|]. rewrite Ev. cbn. eauto. }
      rewrite Efs. cbn [bind]. cbv zeta.
      assert (Hkeys : keys fs = cats c ++ nums c).
      { clear - Ffs. induction Ffs as [|a p l fs E F IHF]; auto. change (keys (p :: fs)) with (fst p :: keys fs). rewrite IHF. f_equal.
        destruct (dict_get a (combine cols r)); cbn in E; [|discriminate]. injection E as <-. auto. }
      assert (Hget : forall n, dict_get n fs = if mem n (cats c ++ nums c) then dict_get n (combine cols r) else None).
      { clear - Ffs. induction Ffs as [|a p l fs E F IHF]; intros n; [auto|].
        destruct (dict_get a (combine cols r)) as [v|] eqn:Ea; cbn in E; [|discriminate]. injection E as <-.
        cbn [dict_get mem existsb]. destruct (eqb_ok n a) as [->|]; cbn [orb]; [congruence|]. apply IHF. }
      destruct (dict_of_pairs fs []) as (D1 & D2 & D3); [constructor|]. specialize (D3 ltac:(rewrite Hkeys; auto)).
      set (x := {| iid := i; feats := fold_left (fun m '(a, v) => dict_set a v m) fs []; target := t0 |}).
      assert (Hx : nth_error ((h0 ++ news) ++ [x]) (length (h0 ++ news)) = Some x).
      { rewrite nth_error_app2, Nat.sub_diag by auto. auto. }
      assert (Hkx : forall n, In n (keys (feats x)) <-> In n (cats c ++ nums c)).
      { intros n. cbn [feats x]. rewrite (D2 n), Hkeys. cbn [keys map In]. tauto. }
      assert (Hattr : forall n, has_attribute c n <-> In n (cats c ++ nums c)).
      { intros n. unfold has_attribute. rewrite (Ha n).
        change (has_attribute (new (V:=V) (cats c) (nums c)) n <-> In n (cats c ++ nums c)). rewrite has_attribute_In.
        destruct (new_ok (V:=V) (cats c) (nums c)) as (_ & _ & _ & _ & E5). rewrite <- dict_has_In. unfold dict_has.
        rewrite E5, in_app_iff, <- !mem_In. destruct (mem n (nums c)), (mem n (cats c)); cbn; intuition discriminate. }
      assert (Hc1 : history true ((h0 ++ news) ++ [x]) c).
      { eapply hist_other; [exact Hc| |apply untouched_app]. apply proper_app; auto. apply (history_inv _ _ _ Hc). }
      assert (Hid : (exists b y, member ((h0 ++ news) ++ [x]) c b y /\ iid y = iid x) <-> In i (map fst done)).
      { split.
        - intros (b & y & [Hb Ey] & Eid). rewrite Ec in Hb. apply in_seq in Hb.
          rewrite <- app_assoc, nth_error_app2 in Ey by lia. rewrite nth_error_app1 in Ey by lia.
          assert (Hy : exists p, In p done /\ iid y = fst p).
          { apply nth_error_In in Ey. clear - Ey HF. induction HF as [|y1 [i1 r1] ls lr E F IHF]; [destruct Ey|].
            destruct Ey as [->|Ey]; [exists (i1, r1); cbn; tauto|]. destruct (IHF Ey) as (p & Hp & E'). exists p. cbn; auto. }
          destruct Hy as (p & Hp & E'). cbn [iid x] in Eid. rewrite <- Eid, E'. apply in_map. auto.
        - intros Hin. apply in_map_iff in Hin. destruct Hin as ([i1 r1] & E1 & Hin). cbn in E1. subst i1.
          assert (Hy : exists b y, nth_error news b = Some y /\ iid y = i).
          { clear - Hin HF. induction HF as [|y1 [i1 r2] ls lr E F IHF]; [destruct Hin|].
            destruct Hin as [E1|Hin]; [exists 0, y1; cbn; split; auto; destruct E as [E _]; congruence|].
            destruct (IHF Hin) as (b & y & Eb & E'). exists (S b), y. auto. }
          destruct Hy as (b & y & Eb & Ey). pose proof (nth_error_Some_lt _ _ _ Eb).
          exists (length h0 + b), y. split; [split|auto].
          + rewrite Ec. apply in_seq. lia.
          + rewrite <- app_assoc, nth_error_app2 by lia. replace (length h0 + b - length h0) with b by lia.
            rewrite nth_error_app1; auto. }
      destruct (C59_add_instance _ _ _ _ _ _ c _ x Hx) as [[E Hbad]|(c' & E & _ & Hnt & F1 & F2 & F3 & F4)].
      + left. rewrite E. cbn [bind]. split; [auto|]. destruct Hbad as [Hbad|Htaken].
        * exfalso. apply Hbad. intros n. rewrite Hkx, Hattr. tauto.
        * apply Hid in Htaken. intros Hn'. rewrite map_app in Hn'. cbn [map fst] in Hn'.
          apply NoDup_remove_2 in Hn'. apply Hn'. apply in_or_app. auto.
      + rewrite E. cbn [bind]. rewrite <- app_assoc.
        destruct (IH h0 c' (done ++ [(i, r)]) (news ++ [x])) as [[G1 G2]|(G1 & G2)]; auto.
        * rewrite app_assoc. eapply hist_add; eauto.
        * rewrite F1, Ec, !app_length. cbn [length]. rewrite Nat.add_1_r, seq_S. auto.
        * intros n. rewrite (F2 n). auto.
        * rewrite !app_length. cbn. lia.
        * apply Forall2_app; auto. constructor; [|constructor]. split; [auto|]. split; [auto|]. split; [auto|].
          intros j n Hin Ej. cbn [feats x]. rewrite (D3 n), Hget, (proj2 (mem_In _ _) Hin).
          rewrite (dict_get_combine cols r j n Hcol Hlr Ej). destruct (nth_error r j); auto.
        * rewrite map_app. cbn [map fst]. apply Permutation_NoDup with (i :: map fst done); [apply Permutation_cons_append|].
          constructor; auto. intros Hin. apply Hnt. apply Hid. auto.
        * left. rewrite <- app_assoc in G2. cbn [app] in G2. auto.
        * right. rewrite <- app_assoc in G1, G2. cbn [app] in G1, G2. auto.
  Qed.
End F.

(** to_dataframe: one row per instance in the order of iteration, with its id
    as index and, in every column, its value of this attribute. *)
Lemma C81_to_dataframe : forall (I V T : Type) (EI : Eq I) (EV : Eq V) (h : heap I V T) (d : dataset V) it,
  history true h d -> Permutation it (insts d) ->
  exists rows, to_dataframe h d it = Ok (cats d ++ nums d, rows) /\ length rows = length it /\
    forall i a, nth_error it i = Some a -> exists x r, member h d a x /\ nth_error rows i = Some (iid x, r) /\
      length r = length (cats d ++ nums d) /\
      forall j n, nth_error (cats d ++ nums d) j = Some n -> exists v, nth_error r j = Some v /\ dict_get n (feats x) = Some v.
Proof.
  intros I V T EI EV h d it Hh Hit. pose proof (history_inv _ _ _ Hh) as Hi. unfold to_dataframe. cbv zeta.
  destruct (v_fresh _ _ _ Hi eq_refl) as [A B].
  match goal with |- context [mapM ?g it] => destruct (mapM_some g it) as (rows & E & F) end.
  { intros a Ha. apply (Permutation_in _ Hit) in Ha. destruct (v_valid _ _ _ Hi a Ha) as [x Ex]. rewrite Ex.
    cbn [of_option bind].
    destruct (mapM_some (fun n => of_option KeyError (dict_get n (feats x))) (cats d ++ nums d)) as (r & Er & _).
    { intros n Hn. destruct (dict_get_key (feats x) n) as [v Ev]; [|rewrite Ev; cbn; eauto].
      apply (v_feats _ _ _ Hi a x (conj Ha Ex)). auto. }
    rewrite Er. cbn [bind]. eauto. }
  exists rows. rewrite E. cbn [bind]. split; [auto|]. split.
  { clear - F. induction F; cbn; auto. }
  intros i a Ei. assert (Ha : In a (insts d)). { apply (Permutation_in _ Hit). eapply nth_error_In; eauto. }
  destruct (v_valid _ _ _ Hi a Ha) as [x Ex]. exists x.
  destruct (Forall2_nth_error_l _ _ _ F i a Ei) as (row & Erow & Ef). rewrite Ex in Ef. cbn [of_option bind] in Ef.
  destruct (mapM (fun n => of_option KeyError (dict_get n (feats x))) (cats d ++ nums d)) as [r|] eqn:Er; cbn [bind] in Ef; [|discriminate]. injection Ef as <-.
  apply mapM_Ok in Er. exists r. split; [split; auto|]. split; [auto|]. split.
  { clear - Er. induction Er; cbn; auto. }
  intros j n Ej. destruct (Forall2_nth_error_l _ _ _ Er j n Ej) as (v & Ev & En). exists v. split; [auto|].
  destruct (dict_get n (feats x)); cbn in En; congruence.
Qed.

(** create_from_pandas: ValueError exactly when an index value occurs twice;
    otherwise one instance per row, with the index as id and the values of
    the selected columns as features. *)
Lemma C81_create_from_pandas : forall (I V T : Type) (EI : Eq I) (EV : Eq V) (h : heap I V T) (t0 : T) cols rows cs ns,
  proper h -> NoDup (cs ++ ns) -> NoDup cols -> incl (cs ++ ns) cols ->
  (forall i r, In (i, r) rows -> length r = length cols) ->
  (create_from_pandas h t0 (cols, rows) cs ns = Err ValueError /\ ~ NoDup (map fst rows)) \/
  (NoDup (map fst rows) /\ exists news c, create_from_pandas h t0 (cols, rows) cs ns = Ok (h ++ news, c) /\
     history true (h ++ news) c /\ cats c = cs /\ nums c = ns /\
     insts c = seq (length h) (length rows) /\
     forall k i r, nth_error rows k = Some (i, r) -> exists x, member (h ++ news) c (length h + k) x /\ iid x = i /\
       (forall n, In n (keys (feats x)) <-> In n (cs ++ ns)) /\
       forall j n, In n (cs ++ ns) -> nth_error cols j = Some n -> dict_get n (feats x) = nth_error r j).
Proof.
  intros I V T EI EV h t0 cols rows cs ns Hp Hnd Hcol Hincl Hlen.
  destruct (new_ok (V:=V) cs ns) as (E1 & E2 & E3 & E4 & E5).
  destruct (create_loop t0 cols cs ns Hnd Hcol Hincl rows h (new cs ns) [] []) as [[G1 G2]|(G1 & news & c & G2 & G3 & G4 & G5 & G6 & G7 & G8)]; auto.
  - apply Forall_forall. intros [i r] Hin. cbn. eapply Hlen; eauto.
  - rewrite app_nil_r. apply hist_new; auto.
  - intros n. auto.
  - constructor.
  - left. rewrite app_nil_r in G1. unfold create_from_pandas. cbn [fst snd]. auto.
  - right. rewrite app_nil_r in G2. cbn [app] in *. split; auto. exists news, c.
    assert (Hl : length news = length rows) by (clear -G8; induction G8; cbn; auto).
    split; [exact G2|]. split; [auto|]. split; [auto|]. split; [auto|]. split; [rewrite G4, Hl; auto|].
    intros k i r Ek. destruct (Forall2_nth_error_r _ _ _ G8 k (i, r) Ek) as (x & Ex & F1 & _ & F2 & F3).
    exists x. split; [split|].
    + rewrite G4. apply in_seq. apply nth_error_Some_lt in Ex. lia.
    + rewrite nth_error_app2 by lia. replace (length h + k - length h) with k by lia. auto.
    + auto.
Qed.

(** The round trip through a data frame gives new instances with the same ids
    and features in a dataset with the same attributes. *)
Lemma C81_dataframe_roundtrip : forall (I V T : Type) (EI : Eq I) (EV : Eq V) (h : heap I V T) (d : dataset V) it t0,
  history true h d -> Permutation it (insts d) ->
  exists df news c, to_dataframe h d it = Ok df /\ create_from_pandas h t0 df (cats d) (nums d) = Ok (h ++ news, c) /\
    history true (h ++ news) c /\ cats c = cats d /\ nums c = nums d /\ length (insts c) = length (insts d) /\
    forall k a x, nth_error it k = Some a -> nth_error h a = Some x ->
      exists b x', nth_error (insts c) k = Some b /\ nth_error (h ++ news) b = Some x' /\
        iid x' = iid x /\ same_features x x'.
Proof.
  intros I V T EI EV h d it t0 Hh Hit. pose proof (history_inv _ _ _ Hh) as Hi.
  destruct (C81_to_dataframe _ _ _ _ _ h d it Hh Hit) as (rows & E & Hl & Hrow).
  destruct (v_fresh _ _ _ Hi eq_refl) as [A B].
  assert (Hids : NoDup (map fst rows)).
  { apply NoDup_nth_error. intros i j Hlt Eij. rewrite map_length, Hl in Hlt. rewrite !nth_error_map in Eij.
    destruct (nth_error_lt it i Hlt) as [a Ea]. destruct (Hrow i a Ea) as (x & r & Hx & Er & _).
    rewrite Er in Eij. cbn in Eij. destruct (nth_error rows j) as [[i2 r2]|] eqn:Ej; [|discriminate].
    pose proof (nth_error_Some_lt _ _ _ Ej) as Hj. rewrite Hl in Hj.
    destruct (nth_error_lt it j Hj) as [b Eb]. destruct (Hrow j b Eb) as (y & r' & Hy & Er' & _).
    rewrite Ej in Er'. injection Er' as -> ->. cbn in Eij. injection Eij as Eid.
    assert (a = b) by (eapply (v_ids _ _ _ Hi); eauto). subst b.
    assert (Hn : NoDup it). { apply Permutation_NoDup with (insts d); [apply Permutation_sym; auto|apply Hi]. }
    apply (proj1 (NoDup_nth_error it) Hn); auto. congruence. }
  destruct (C81_create_from_pandas _ _ _ _ _ h t0 (cats d ++ nums d) rows (cats d) (nums d)) as [[_ Hbad]|(_ & news & c & G2 & G3 & G4 & G5 & G6 & G7)]; auto.
  - apply Hi.
  - intros n Hn. auto.
  - intros i r Hin. apply In_nth_error in Hin. destruct Hin as [k Ek].
    pose proof (nth_error_Some_lt _ _ _ Ek) as Hk. rewrite Hl in Hk. destruct (nth_error_lt it k Hk) as [a Ea].
    destruct (Hrow k a Ea) as (x & r' & _ & Er & Hlr & _). rewrite Ek in Er. injection Er as -> ->. auto.
  - contradiction.
  - exists (cats d ++ nums d, rows), news, c. split; [auto|]. split; [auto|]. split; [auto|]. split; [auto|].
    split; [auto|]. split; [rewrite G6, seq_length, Hl; apply Permutation_length; auto|].
    intros k a x Ea Ex. destruct (Hrow k a Ea) as (x0 & r & [Ha Ex0] & Er & Hlr & Hv). rewrite Ex in Ex0. injection Ex0 as <-.
    destruct (G7 k (iid x) r Er) as (x' & [_ Ex'] & Eid & Hk & Hf). exists (length h + k), x'.
    split.
    { rewrite G6. rewrite nth_error_nth' with (d:=0); [rewrite seq_nth; auto|rewrite seq_length];
      apply nth_error_Some_lt in Er; auto. }
    split; [auto|]. split; [auto|]. intros n.
    destruct (dict_get n (feats x)) as [v|] eqn:Ev.
    + assert (Hn : In n (cats d ++ nums d)).
      { apply dict_get_Some_key in Ev. apply (v_feats _ _ _ Hi a x (conj Ha Ex)) in Ev.
        destruct (dict_get_key (attrs d) n Ev) as [y Ey]. apply (v_lists _ _ _ Hi) in Ey. apply in_or_app.
        destruct (akind y); auto. }
      pose proof Hn as Hn'. apply In_nth_error in Hn'. destruct Hn' as [j Ej]. rewrite (Hf j n Hn Ej).
      destruct (Hv j n Ej) as (w & Ew & Ew'). congruence.
    + symmetry. apply dict_get_None. rewrite Hk. intros Hn. apply B in Hn.
      apply (v_feats _ _ _ Hi a x (conj Ha Ex)) in Hn. apply dict_get_None in Ev. auto.
Qed.
