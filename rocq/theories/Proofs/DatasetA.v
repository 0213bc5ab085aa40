(** Datasets: heap lemmas and the invariant of all histories *)
From Coq Require Import Permutation.
From Verif.Model Require Import Base Dataset.
From Verif.Spec Require Import DatasetSpec.
From Verif.Lib Require Import ListLib DictLib.
From Verif.Proofs Require Import PetriA ParallelB.

Lemma remove_first_In {X} `{Eq X} (x y : X) l : In y (remove_first x l) -> In y l.
Proof.
  induction l as [|z l IH]; cbn [remove_first]; auto.
  destruct (eqb_ok x z); intros Hin; [right; auto|]. destruct Hin; [left|right]; auto.
Qed.
Lemma remove_first_In_ne {X} `{Eq X} (x y : X) l : x <> y -> In y l -> In y (remove_first x l).
Proof.
  intros Hn. induction l as [|z l IH]; cbn [remove_first]; auto.
  destruct (eqb_ok x z) as [E|]; intros [E'|Hin]; try congruence; auto; [left|right]; auto.
Qed.
Lemma remove_first_iff {X} `{Eq X} (x y : X) l : NoDup l -> In y (remove_first x l) <-> x <> y /\ In y l.
Proof.
  intros Hn. split.
  - intros Hin. split; [|eapply remove_first_In; eauto]. intros <-. revert Hin.
    induction l as [|z l IH]; cbn [remove_first]; [tauto|]. inversion Hn; subst.
    destruct (eqb_ok x z) as [->|]; [tauto|]. intros [E|Hin]; [congruence|]. apply IH; auto.
  - intros [Hne Hin]. apply remove_first_In_ne; auto.
Qed.
Lemma remove_first_NoDup {X} `{Eq X} (x : X) l : NoDup l -> NoDup (remove_first x l).
Proof.
  induction 1 as [|z l Hni Hn IH]; cbn [remove_first]; [constructor|].
  destruct (eqb_ok x z); auto. constructor; auto. intros Hin. apply Hni. eapply remove_first_In; eauto.
Qed.

Section D.
  Context {I V T : Type} `{Eq I} `{Eq V}.
  Notation heap := (heap I V T).
  Notation inst := (inst I V T).
  Notation dataset := (dataset V).
  Notation attr := (attr V).

  Lemma nth_update (h : heap) a f b :
    nth_error (update h a f) b = if a =? b then option_map f (nth_error h b) else nth_error h b.
  Proof.
    revert a b. induction h as [|x h IH]; intros a b; cbn [update].
    - destruct b; cbn; destruct (a =? _); auto.
    - destruct a as [|a], b as [|b]; cbn; auto.
  Qed.
  Lemma proper_update (h : heap) a f :
    proper h -> (forall x, NoDup (keys (feats x)) -> NoDup (keys (feats (f x)))) -> proper (update h a f).
  Proof.
    intros Hp Hf b x. rewrite nth_update. destruct (a =? b); [|apply Hp].
    destruct (nth_error h b) as [y|] eqn:E; cbn; [|discriminate]. intros E'. injection E' as <-.
    apply Hf. eapply Hp; eauto.
  Qed.

  Lemma remove_features_ok it n : forall h : heap,
    NoDup it -> (forall a, In a it -> exists x, nth_error h a = Some x /\ In n (keys (feats x))) ->
    exists h', remove_features h it n = (h', None) /\
      forall b, nth_error h' b =
        if existsb (Nat.eqb b) it then option_map (fun x => with_feats (dict_del n (feats x)) x) (nth_error h b)
        else nth_error h b.
  Proof.
    induction it as [|a it IH]; intros h Hn Hall; cbn [remove_features existsb].
    - exists h. auto.
    - inversion Hn as [|? ? Hni Hn']; subst. destruct (Hall a (or_introl eq_refl)) as (x & Ex & Hk).
      rewrite Ex, (proj2 (dict_has_In _ _) Hk).
      destruct (IH (update h a (fun x => with_feats (dict_del n (feats x)) x)) Hn') as (h' & E' & Hnth).
      { intros b Hb. destruct (Hall b (or_intror Hb)) as (y & Ey & Hy). exists y. split; auto.
        rewrite nth_update. destruct (Nat.eqb_spec a b); [congruence|auto]. }
      exists h'. split; auto. intros b. rewrite Hnth, nth_update.
      destruct (Nat.eqb_spec b a) as [->|Hne]; cbn [orb].
      + rewrite Nat.eqb_refl. replace (existsb (Nat.eqb a) it) with false; auto.
        symmetry. exact (proj2 (mem_not_In a it) Hni).
      + destruct (Nat.eqb_spec a b); [congruence|auto].
  Qed.
  Lemma set_features_ok n : forall vs (h : heap), NoDup (map snd vs) ->
    forall b, nth_error (set_features h vs n) b =
      match find (fun p : V * nat => Nat.eqb b (snd p)) vs with
      | Some (v, _) => option_map (fun x => with_feats (dict_set n v (feats x)) x) (nth_error h b)
      | None => nth_error h b
      end.
  Proof.
    induction vs as [|[v a] vs IH]; intros h Hn b; cbn [set_features find snd map]; auto.
    cbn [map snd] in Hn. inversion Hn as [|? ? Hni Hn']; subst. rewrite IH, nth_update by auto.
    destruct (Nat.eqb_spec b a) as [->|Hne].
    - rewrite Nat.eqb_refl. destruct (find _ vs) as [[v' a']|] eqn:E; auto.
      apply find_some in E. destruct E as [Hin E]. cbn [snd] in E. apply Nat.eqb_eq in E. subst a'.
      apply (in_map snd) in Hin. contradiction.
    - destruct (Nat.eqb_spec a b); [congruence|auto].
  Qed.
  Lemma proper_remove_features it n : forall h : heap, proper h -> proper (fst (remove_features h it n)).
  Proof.
    induction it as [|a it IH]; intros h Hp; cbn [remove_features]; auto.
    destruct (nth_error h a); auto. destruct (dict_has n (feats i)); auto. apply IH. apply proper_update; auto.
    intros x Hx. cbn. apply keys_dict_del_NoDup; auto.
  Qed.
  Lemma proper_set_features n vs : forall h : heap, proper h -> proper (set_features h vs n).
  Proof.
    induction vs as [|[v a] vs IH]; intros h Hp; cbn [set_features]; auto. apply IH. apply proper_update; auto.
    intros x Hx. cbn. apply keys_dict_set_NoDup; auto.
  Qed.

  (** ** constructor *)
  Lemma new_ok cs ns :
    insts (new (V:=V) cs ns) = [] /\ cats (new (V:=V) cs ns) = cs /\ nums (new (V:=V) cs ns) = ns /\
    NoDup (keys (attrs (new (V:=V) cs ns))) /\
    forall n, dict_get n (attrs (new (V:=V) cs ns)) =
      if mem n ns then Some {| akind := Numerical; auniq := [] |}
      else if mem n cs then Some {| akind := Categorical; auniq := [] |} else None.
  Proof.
    unfold new.
    set (f := fun d n => let d' := set_attr n {| akind := Categorical; auniq := [] |} d in
           {| insts := insts d'; attrs := attrs d'; cats := cats d' ++ [n]; nums := nums d' |} : dataset).
    assert (G1 : forall cs d, NoDup (keys (attrs d)) ->
      insts (fold_left f cs d) = insts d /\ cats (fold_left f cs d) = cats d ++ cs /\
      NoDup (keys (attrs (fold_left f cs d))) /\
      forall n, dict_get n (attrs (fold_left f cs d)) =
        if mem n cs then Some {| akind := Categorical; auniq := [] |} else dict_get n (attrs d)).
    { clear cs. induction cs as [|c cs IH]; intros d Hd; cbn [fold_left].
      - rewrite app_nil_r. auto.
      - destruct (IH (f d c)) as (A1 & A2 & A3 & A4); [apply keys_dict_set_NoDup; auto|].
        rewrite A1, A2. cbn [f insts cats attrs set_attr]. rewrite <- app_assoc. repeat split; auto.
        intros n. rewrite A4. cbn [f attrs set_attr]. rewrite dict_get_set. cbn [mem existsb].
        change (existsb (eqb n) cs) with (mem n cs). rewrite orb_comm. destruct (mem n cs); cbn [orb]; auto. }
    destruct (G1 cs {| insts := []; attrs := []; cats := []; nums := [] |}) as (A1 & A2 & A3 & A4);
      [constructor|].
    set (d0 := fold_left f cs _) in *.
    assert (G2 : forall l d, NoDup (keys (attrs d)) ->
      let r := fold_left (fun d n => set_attr n {| akind := Numerical; auniq := [] |} d) l d in
      insts r = insts d /\ cats r = cats d /\ nums r = nums d /\
      NoDup (keys (attrs r)) /\
      forall n, dict_get n (attrs r) =
        if mem n l then Some {| akind := Numerical; auniq := [] |} else dict_get n (attrs (V:=V) d)).
    { clear. induction l as [|c l IH]; intros d Hd; cbn [fold_left]; cbv zeta.
      - repeat split; auto.
      - destruct (IH (set_attr c {| akind := Numerical; auniq := [] |} d)) as (A1 & A2 & A3 & A4 & A5);
          [apply keys_dict_set_NoDup; auto|].
        rewrite A1, A2, A3. cbn [insts cats nums attrs set_attr]. repeat split; auto.
        intros n. rewrite A5. cbn [attrs set_attr]. rewrite dict_get_set. cbn [mem existsb].
        change (existsb (eqb n) l) with (mem n l). rewrite orb_comm. destruct (mem n l); cbn [orb]; auto. }
    destruct (G2 ns {| insts := insts d0; attrs := attrs d0; cats := cats d0; nums := ns |})
      as (B1 & B2 & B3 & B4 & B5); [auto|]. cbn [insts cats nums attrs] in *.
    split; [rewrite B1; auto|]. split; [rewrite B2; auto|]. split; [auto|]. split; [auto|].
    intros n. rewrite B5, A4. auto.
  Qed.

  (** ** add_instance *)
  Lemma same_names_ok l m : same_names l m = true <-> (forall k, In k l <-> In k m).
  Proof.
    unfold same_names. rewrite andb_true_iff, !forallb_forall. split.
    - intros [A B] k. split; intros Hk; [apply A in Hk|apply B in Hk]; apply mem_In in Hk; auto.
    - intros E. split; intros k Hk; apply mem_In; apply E; auto.
  Qed.
  Lemma contains_ok (h : heap) (d : dataset) i :
    contains h d i = true <-> exists a x, member h d a x /\ iid x = i.
  Proof.
    unfold contains. rewrite existsb_exists. unfold has_id, member. split.
    - intros (a & Ha & E). destruct (nth_error h a) as [x|] eqn:Ex; [|discriminate].
      apply (proj1 (eqb_eq _ _)) in E. eauto 6.
    - intros (a & x & [Ha Ex] & E). exists a. split; auto. rewrite Ex. apply eqb_eq. auto.
  Qed.
  Lemma add_values_ok (fs : dict string V) (ds : dict string attr) :
    (forall k, In k (keys ds) -> In k (keys fs)) ->
    exists ds', mapM (fun '(n, y) => do v <- of_option KeyError (dict_get n fs) ; Ok (n, add_value v y)) ds = Ok ds' /\
      keys ds' = keys ds /\
      forall n, dict_get n ds' =
        match dict_get n ds, dict_get n fs with
        | Some y, Some v => Some (add_value v y)
        | _, _ => None
        end.
  Proof.
    induction ds as [|[k y] ds IH]; intros Hall; cbn [mapM].
    - exists []. auto.
    - destruct (dict_get_key fs k) as [v Ev]; [apply Hall; cbn; auto|]. rewrite Ev. cbn [of_option bind].
      destruct IH as (ds' & E' & Ek & Eg); [intros; apply Hall; cbn; auto|]. rewrite E'. cbn [bind].
      eexists. split; [reflexivity|]. split; [cbn; f_equal; auto|].
      intros n. cbn [dict_get]. destruct (eqb_ok n k) as [->|]; [rewrite Ev; auto|apply Eg].
  Qed.

  Lemma add_instance_ok (h : heap) (d : dataset) a x :
    nth_error h a = Some x ->
    (forall k, In k (keys (feats x)) <-> In k (keys (attrs d))) ->
    (forall b y, member h d b y -> iid y <> iid x) ->
    exists d', add_instance h d a = Ok d' /\
      insts d' = insts d ++ [a] /\ cats d' = cats d /\ nums d' = nums d /\ keys (attrs d') = keys (attrs d) /\
      forall n, dict_get n (attrs d') =
        match dict_get n (attrs d), dict_get n (feats x) with
        | Some y, Some v => Some (add_value v y)
        | _, _ => None
        end.
  Proof.
    intros Ex Hk Hid. unfold add_instance. rewrite Ex. cbn [of_option bind].
    rewrite (proj2 (same_names_ok _ _) Hk). cbn [negb].
    destruct (contains h d (iid x)) eqn:Ec.
    { apply contains_ok in Ec. destruct Ec as (b & y & Hm & E). exfalso. eapply Hid; eauto. }
    destruct (add_values_ok (feats x) (attrs d)) as (ds' & E' & Ek & Eg); [intros; apply Hk; auto|].
    rewrite E'. cbn [bind]. eexists. split; [reflexivity|]. cbn. auto.
  Qed.
  Lemma add_instance_cases (h : heap) (d : dataset) a x :
    nth_error h a = Some x ->
    add_instance h d a = Err ValueError \/
    ((forall k, In k (keys (feats x)) <-> In k (keys (attrs d))) /\
     (forall b y, member h d b y -> iid y <> iid x)).
  Proof.
    intros Ex. unfold add_instance. rewrite Ex. cbn [of_option bind].
    destruct (same_names _ _) eqn:En; cbn [negb]; [|auto].
    destruct (contains h d (iid x)) eqn:Ec; [auto|]. right. split; [apply same_names_ok; auto|].
    intros b y Hm E. assert (contains h d (iid x) = true); [|congruence]. apply contains_ok. eauto.
  Qed.
  Lemma add_instance_Ok (h : heap) (d : dataset) a d' :
    add_instance h d a = Ok d' ->
    exists x, nth_error h a = Some x /\
     (forall k, In k (keys (feats x)) <-> In k (keys (attrs d))) /\
     (forall b y, member h d b y -> iid y <> iid x).
  Proof.
    intros E. destruct (nth_error h a) as [x|] eqn:Ex.
    - exists x. split; auto. destruct (add_instance_cases h d a x Ex) as [E'|]; auto. congruence.
    - unfold add_instance in E. rewrite Ex in E. discriminate.
  Qed.

  (** ** the invariant *)
  Record inv (fresh : bool) (h : heap) (d : dataset) : Prop := {
    v_proper : proper h;
    v_NoDup : NoDup (insts d);
    v_valid : forall a, In a (insts d) -> exists x, nth_error h a = Some x;
    v_ids : forall a b x y, member h d a x -> member h d b y -> iid x = iid y -> a = b;
    v_attrs : NoDup (keys (attrs d));
    v_feats : forall a x, member h d a x -> forall n, In n (keys (feats x)) <-> In n (keys (attrs d));
    v_uniq : forall n y, dict_get n (attrs d) = Some y ->
       NoDup (auniq y) /\ forall v, In v (auniq y) <-> exists a, In a (insts d) /\ value h a n = Some v;
    v_lists : forall n y, dict_get n (attrs d) = Some y ->
       In n (match akind y with Categorical => cats d | Numerical => nums d end);
    v_fresh : fresh = true -> NoDup (cats d ++ nums d) /\
       forall n, In n (cats d ++ nums d) -> In n (keys (attrs d))
  }.

  Lemma inv_new fresh (h : heap) cs ns : proper h -> (fresh = true -> NoDup (cs ++ ns)) -> inv fresh h (new cs ns).
  Proof.
    intros Hp Hf. destruct (new_ok cs ns) as (E1 & E2 & E3 & E4 & E5).
    constructor; auto.
    - rewrite E1. constructor.
    - rewrite E1. intros a [].
    - unfold member. rewrite E1. intros a b x y [[] _].
    - unfold member. rewrite E1. intros a x [[] _].
    - intros n y. rewrite E5, E1. intros E.
      assert (Eu : auniq y = []) by (revert E; destruct (mem n ns); [|destruct (mem n cs)]; intros E; inversion E; auto).
      rewrite Eu. split; [constructor|]. intros v. split; [intros []|intros (a & [] & _)].
    - intros n y. rewrite E5, E2, E3. intros E.
      destruct (mem n ns) eqn:Em1; [|destruct (mem n cs) eqn:Em2]; inversion E; subst y; cbn;
        apply mem_In; auto.
    - intros Eb. rewrite E2, E3. split; auto. intros n Hn. apply dict_has_In. unfold dict_has. rewrite E5.
      apply in_app_or in Hn. destruct (mem n ns) eqn:Em1; auto. destruct (mem n cs) eqn:Em2; auto.
      apply mem_not_In in Em1. apply mem_not_In in Em2. tauto.
  Qed.

  Lemma inv_untouched fresh (h h' : heap) d : inv fresh h d -> proper h' -> untouched d h h' -> inv fresh h' d.
  Proof.
    intros Hi Hp Hu.
    assert (Hback : forall a x', member h' d a x' -> exists x, member h d a x /\ iid x' = iid x /\ feats x' = feats x).
    { intros a x' [Ha Ex']. destruct (v_valid _ _ _ Hi a Ha) as [x Ex]. exists x. split; [split; auto|].
      destruct (Hu a x (conj Ha Ex)) as (x1 & E1 & E2 & E3). rewrite Ex' in E1. injection E1 as <-. auto. }
    assert (Hval : forall a n, In a (insts d) -> value h' a n = value h a n).
    { intros a n Ha. destruct (v_valid _ _ _ Hi a Ha) as [x Ex].
      destruct (Hu a x (conj Ha Ex)) as (x1 & E1 & E2 & E3). unfold value. rewrite Ex, E1, E3. auto. }
    constructor; auto; try (eapply Hi; eauto; fail).
    - intros a Ha. destruct (v_valid _ _ _ Hi a Ha) as [x Ex].
      destruct (Hu a x (conj Ha Ex)) as (x1 & E1 & _). eauto.
    - intros a b x y Hx Hy E. apply Hback in Hx. apply Hback in Hy.
      destruct Hx as (x1 & Hx & Ex & _), Hy as (y1 & Hy & Ey & _). eapply Hi; eauto. congruence.
    - intros a x Hx n. apply Hback in Hx. destruct Hx as (x1 & Hx & _ & Ex). rewrite Ex. eapply Hi; eauto.
    - intros n y E. destruct (v_uniq _ _ _ Hi n y E) as [A B]. split; auto. intros v. rewrite B. split.
      + intros (a & Ha & Ev). exists a. rewrite Hval; auto.
      + intros (a & Ha & Ev). exists a. rewrite Hval in Ev; auto.
  Qed.

  Lemma inv_add fresh (h : heap) d a d' : inv fresh h d -> add_instance h d a = Ok d' -> inv fresh h d'.
  Proof.
    intros Hi E. destruct (add_instance_Ok _ _ _ _ E) as (x & Ex & Hk & Hid).
    destruct (add_instance_ok h d a x Ex Hk Hid) as (d1 & E1 & F1 & F2 & F3 & F4 & F5).
    rewrite E in E1. injection E1 as <-.
    assert (Hni : ~ In a (insts d)). { intros Hin. eapply Hid; [split; eauto|auto]. }
    constructor; try (rewrite ?F1, ?F2, ?F3, ?F4; apply Hi).
    - rewrite F1. apply Permutation_NoDup with (a :: insts d); [apply Permutation_cons_append|].
      constructor; auto. apply Hi.
    - rewrite F1. intros b Hb. apply in_app_or in Hb. destruct Hb as [Hb|[<-|[]]]; [apply Hi; auto|eauto].
    - intros b c y z [Hb Ey] [Hc Ez] Eid. rewrite F1 in Hb, Hc. apply in_app_or in Hb. apply in_app_or in Hc.
      destruct Hb as [Hb|[<-|[]]], Hc as [Hc|[<-|[]]]; auto.
      + eapply Hi; [split; eauto|split; eauto|auto].
      + exfalso. apply (Hid b y (conj Hb Ey)). rewrite Ex in Ez. injection Ez as <-. auto.
      + exfalso. apply (Hid c z (conj Hc Ez)). rewrite Ex in Ey. injection Ey as <-. auto.
    - intros b y [Hb Ey] n. rewrite F4. rewrite F1 in Hb. apply in_app_or in Hb.
      destruct Hb as [Hb|[<-|[]]]; [eapply Hi; split; eauto|]. rewrite Ex in Ey. injection Ey as <-. auto.
    - intros n y E'. rewrite F5 in E'. destruct (dict_get n (attrs d)) as [y0|] eqn:E0; [|discriminate].
      destruct (dict_get n (feats x)) as [v0|] eqn:Ev; [|discriminate]. injection E' as <-.
      destruct (v_uniq _ _ _ Hi n y0 E0) as [A B]. cbn. split; [apply set_add_NoDup; auto|].
      intros v. rewrite set_add_In, B, F1. split.
      + intros [->|(b & Hb & Eb)].
        * exists a. split; [apply in_or_app; cbn; auto|]. unfold value. rewrite Ex. auto.
        * exists b. split; [apply in_or_app; auto|auto].
      + intros (b & Hb & Eb). apply in_app_or in Hb. destruct Hb as [Hb|[<-|[]]]; [eauto|].
        left. unfold value in Eb. rewrite Ex in Eb. congruence.
    - intros n y E'. rewrite F5 in E'. destruct (dict_get n (attrs d)) as [y0|] eqn:E0; [|discriminate].
      destruct (dict_get n (feats x)) as [v0|] eqn:Ev; [|discriminate]. injection E' as <-.
      rewrite F2, F3. apply (v_lists _ _ _ Hi n y0 E0).
  Qed.

  (** what remove_attribute does in a good state *)
  Lemma remove_attribute_ok fresh (h : heap) d it n y :
    inv fresh h d -> Permutation it (insts d) -> dict_get n (attrs d) = Some y ->
    exists h' d', remove_attribute h d it n = (h', d', None) /\
      insts d' = insts d /\ attrs d' = dict_del n (attrs d) /\
      cats d' = match akind y with Categorical => remove_first n (cats d) | Numerical => cats d end /\
      nums d' = match akind y with Categorical => nums d | Numerical => remove_first n (nums d) end /\
      forall b, nth_error h' b =
        if existsb (Nat.eqb b) it then option_map (fun x => with_feats (dict_del n (feats x)) x) (nth_error h b)
        else nth_error h b.
  Proof.
    intros Hi Hit E. unfold remove_attribute. rewrite E.
    assert (Hm : mem n (match akind y with Categorical => cats d | Numerical => nums d end) = true).
    { apply mem_In. apply (v_lists _ _ _ Hi n y E). }
    rewrite Hm.
    destruct (remove_features_ok it n h) as (h' & E' & Hnth).
    { apply Permutation_NoDup with (insts d); [apply Permutation_sym; auto|apply Hi]. }
    { intros a Ha. apply (Permutation_in _ Hit) in Ha. destruct (v_valid _ _ _ Hi a Ha) as [x Ex].
      exists x. split; auto. apply (v_feats _ _ _ Hi a x (conj Ha Ex)). eapply dict_get_Some_key; eauto. }
    cbv zeta. rewrite E'. do 2 eexists. split; [reflexivity|].
    destruct (akind y); cbn; repeat split; auto.
  Qed.
  Lemma mem_perm (it l : list nat) b : Permutation it l -> existsb (Nat.eqb b) it = true <-> In b l.
  Proof.
    intros Hp. split; intros Hin.
    - apply (Permutation_in _ Hp). exact (proj1 (mem_In b it) Hin).
    - exact (proj2 (mem_In b it) (Permutation_in _ (Permutation_sym Hp) Hin)).
  Qed.

  Lemma inv_remove fresh (h : heap) d it n h' d' e :
    inv fresh h d -> Permutation it (insts d) -> remove_attribute h d it n = (h', d', e) -> inv fresh h' d'.
  Proof.
    intros Hi Hit E. destruct (dict_get n (attrs d)) as [y|] eqn:Ey.
    2:{ unfold remove_attribute in E. rewrite Ey in E. injection E as <- <- <-. auto. }
    destruct (remove_attribute_ok fresh h d it n y Hi Hit Ey) as (h1 & d1 & E1 & F1 & F2 & F3 & F4 & F5).
    rewrite E in E1. injection E1 as <- <- ->.
    assert (Hmem : forall b x', member h' d' b x' ->
      exists x, member h d b x /\ x' = with_feats (dict_del n (feats x)) x).
    { intros b x' [Hb Ex']. rewrite F1 in Hb. rewrite F5 in Ex'.
      rewrite (proj2 (mem_perm it (insts d) b Hit) Hb) in Ex'.
      destruct (nth_error h b) as [x|] eqn:Ex; cbn in Ex'; [|discriminate]. injection Ex' as <-.
      exists x. split; auto. split; auto. }
    assert (Hval : forall b m, In b (insts d) -> m <> n -> value h' b m = value h b m).
    { intros b m Hb Hm. destruct (v_valid _ _ _ Hi b Hb) as [x Ex]. unfold value. rewrite F5.
      rewrite (proj2 (mem_perm it (insts d) b Hit) Hb), Ex. cbn.
      rewrite dict_get_del by (eapply (v_proper _ _ _ Hi); eauto).
      destruct (eqb_ok m n); [congruence|auto]. }
    constructor.
    - intros b x Ex. rewrite F5 in Ex. destruct (existsb _ it); [|eapply (v_proper _ _ _ Hi); eauto].
      destruct (nth_error h b) as [x0|] eqn:E0; cbn in Ex; [|discriminate]. injection Ex as <-. cbn.
      apply keys_dict_del_NoDup. eapply (v_proper _ _ _ Hi); eauto.
    - rewrite F1. apply Hi.
    - rewrite F1. intros b Hb. destruct (v_valid _ _ _ Hi b Hb) as [x Ex]. rewrite F5, Ex.
      destruct (existsb _ it); cbn; eauto.
    - intros a b x z Hx Hz Eid. apply Hmem in Hx. apply Hmem in Hz.
      destruct Hx as (x1 & Hx & ->), Hz as (z1 & Hz & ->). eapply Hi; eauto.
    - rewrite F2. apply keys_dict_del_NoDup. apply Hi.
    - intros b x Hx m. apply Hmem in Hx. destruct Hx as (x1 & Hx & ->). cbn [with_feats feats]. rewrite F2.
      rewrite !keys_dict_del_In; [|apply Hi|eapply (v_proper _ _ _ Hi); apply Hx].
      rewrite (v_feats _ _ _ Hi b x1 Hx m). tauto.
    - intros m z. rewrite F2, dict_get_del by apply Hi. destruct (eqb_ok m n) as [|Hne]; [discriminate|].
      intros Em. destruct (v_uniq _ _ _ Hi m z Em) as [A B]. split; auto. intros v. rewrite B, F1. split.
      + intros (a & Ha & Ev). exists a. rewrite Hval; auto.
      + intros (a & Ha & Ev). exists a. rewrite Hval in Ev; auto.
    - intros m z. rewrite F2, dict_get_del by apply Hi. destruct (eqb_ok m n) as [|Hne]; [discriminate|].
      intros Em. pose proof (v_lists _ _ _ Hi m z Em) as Hl. rewrite F3, F4.
      destruct (akind z), (akind y); auto; apply remove_first_In_ne; auto.
    - intros Hf. destruct (v_fresh _ _ _ Hi Hf) as [A B]. rewrite F2, F3, F4.
      pose proof (v_lists _ _ _ Hi n y Ey) as Hl.
      assert (Hc : NoDup (cats d)) by (apply NoDup_app_l in A; auto).
      assert (Hm : NoDup (nums d)).
      { apply NoDup_app_l with (cats d). apply Permutation_NoDup with (cats d ++ nums d); auto.
        apply Permutation_app_comm. }
      assert (Hdis : forall z, In z (cats d) -> In z (nums d) -> False).
      { intros z. clear - A. revert A. induction (cats d) as [|c cs IH]; cbn; [tauto|].
        intros A [->|Hc] Hn; inversion A; subst; [apply H1; apply in_or_app; auto|apply IH; auto]. }
      assert (Happ : forall l m : list string, NoDup l -> NoDup m -> (forall z, In z l -> In z m -> False) -> NoDup (l ++ m)).
      { clear. induction l as [|c l IH]; cbn; auto. intros m Hl Hm Hd. inversion Hl; subst. constructor.
        - rewrite in_app_iff. intros [|]; [contradiction|]. eapply Hd; cbn; eauto.
        - apply IH; auto. intros; eapply Hd; cbn; eauto. }
      split.
      + destruct (akind y); apply Happ; try (apply remove_first_NoDup); auto.
        * intros z Hz. apply Hdis. eapply remove_first_In; eauto.
        * intros z Hz Hz'. apply (Hdis z Hz). eapply remove_first_In; eauto.
      + intros z Hz. rewrite keys_dict_del_In by apply Hi. rewrite in_app_iff in Hz.
        destruct (akind y).
        * rewrite remove_first_iff in Hz by auto. split.
          -- intros ->. destruct Hz as [[Hz _]|Hz]; [auto|]. eapply Hdis; eauto.
          -- apply B. apply in_or_app. tauto.
        * rewrite remove_first_iff in Hz by auto. split.
          -- intros ->. destruct Hz as [Hz|[Hz _]]; [|auto]. eapply Hdis; eauto.
          -- apply B. apply in_or_app. tauto.
  Qed.

  Lemma map_snd_combine {X Y} (l : list X) (m : list Y) : length l = length m -> map snd (combine l m) = m.
  Proof.
    revert m; induction l as [|x l IH]; destruct m; cbn; intros E; try discriminate; f_equal; auto.
  Qed.
  Lemma find_combine (vs : list V) : forall (it : list nat) b, length vs = length it -> NoDup it ->
    match find (fun p : V * nat => Nat.eqb b (snd p)) (combine vs it) with
    | Some (v, _) => exists i, nth_error it i = Some b /\ nth_error vs i = Some v
    | None => ~ In b it
    end.
  Proof.
    induction vs as [|v vs IH]; destruct it as [|a it]; cbn [combine find snd length]; intros b E Hn; try discriminate; auto.
    inversion Hn; subst. destruct (Nat.eqb_spec b a) as [->|Hne].
    - exists 0. auto.
    - specialize (IH it b). destruct (find _ _) as [[w c]|].
      + destruct IH as (i & E1 & E2); [congruence|auto|]. exists (S i). auto.
      + cbn [In]. intros [|Hin]; [congruence|]. apply IH; auto.
  Qed.

  Lemma add_attribute_ok fresh (h : heap) d it k n vs :
    inv fresh h d -> Permutation it (insts d) -> length (insts d) = length vs ->
    exists h' d', add_attribute k h d it n vs = (h', d', None) /\
      insts d' = insts d /\ attrs d' = dict_set n {| akind := k; auniq := set_of vs |} (attrs d) /\
      cats d' = match k with Categorical => cats d ++ [n] | Numerical => cats d end /\
      nums d' = match k with Categorical => nums d | Numerical => nums d ++ [n] end /\
      (forall i a v, nth_error it i = Some a -> nth_error vs i = Some v ->
         nth_error h' a = option_map (fun x => with_feats (dict_set n v (feats x)) x) (nth_error h a)) /\
      (forall a, ~ In a it -> nth_error h' a = nth_error h a).
  Proof.
    intros Hi Hit Hl. unfold add_attribute. rewrite Hl, Nat.eqb_refl. do 2 eexists. split; [reflexivity|].
    cbn. repeat split; auto.
    - intros i a v Ei Ev. assert (Hn : NoDup it).
      { apply Permutation_NoDup with (insts d); [apply Permutation_sym; auto|apply Hi]. }
      assert (Hll : length vs = length it).
      { rewrite (Permutation_length Hit). auto. }
      rewrite set_features_ok by (rewrite map_snd_combine; auto).
      pose proof (find_combine vs it a Hll Hn) as Hf. destruct (find _ _) as [[w c]|].
      + destruct Hf as (j & Ej & Ew).
        assert (i = j). { apply (proj1 (NoDup_nth_error it) Hn); [eapply nth_error_Some_lt; eauto|congruence]. }
        subst j. assert (w = v) by congruence. subst. auto.
      + exfalso. apply Hf. eapply nth_error_In; eauto.
    - intros a Ha. assert (Hn : NoDup it).
      { apply Permutation_NoDup with (insts d); [apply Permutation_sym; auto|apply Hi]. }
      assert (Hll : length vs = length it).
      { rewrite (Permutation_length Hit). auto. }
      rewrite set_features_ok by (rewrite map_snd_combine; auto).
      pose proof (find_combine vs it a Hll Hn) as Hf. destruct (find _ _) as [[w c]|]; auto.
      destruct Hf as (j & Ej & Ew). exfalso. apply Ha. eapply nth_error_In; eauto.
  Qed.

  Lemma inv_attribute fresh (h : heap) d it k n vs h' d' e :
    inv fresh h d -> Permutation it (insts d) -> (fresh = true -> ~ In n (keys (attrs d))) ->
    add_attribute k h d it n vs = (h', d', e) -> inv fresh h' d'.
  Proof.
    intros Hi Hit Hfr E. destruct (Nat.eq_dec (length (insts d)) (length vs)) as [Hl|Hl].
    2:{ unfold add_attribute in E. destruct (Nat.eqb_spec (length (insts d)) (length vs)); [contradiction|].
        injection E as <- <- <-. auto. }
    destruct (add_attribute_ok fresh h d it k n vs Hi Hit Hl) as (h1 & d1 & E1 & F1 & F2 & F3 & F4 & F5 & F6).
    assert (Hp : proper h').
    { unfold add_attribute in E. rewrite Hl, Nat.eqb_refl in E.
      replace h' with (set_features h (combine vs it) n) by congruence. apply proper_set_features. apply Hi. }
    rewrite E in E1. injection E1 as <- <- ->.
    assert (Hlt : length vs = length it) by (rewrite (Permutation_length Hit); auto).
    assert (Hpos : forall a, In a (insts d) -> exists i v, nth_error it i = Some a /\ nth_error vs i = Some v).
    { intros a Ha. apply (Permutation_in _ (Permutation_sym Hit)) in Ha. apply In_nth_error in Ha.
      destruct Ha as [i Ei]. destruct (nth_error_lt vs i) as [v Ev]; [rewrite Hlt; eapply nth_error_Some_lt; eauto|].
      eauto. }
    assert (Hmem : forall a x', member h' d' a x' ->
      exists x i v, member h d a x /\ nth_error it i = Some a /\ nth_error vs i = Some v /\
        x' = with_feats (dict_set n v (feats x)) x).
    { intros a x' [Ha Ex']. rewrite F1 in Ha. destruct (Hpos a Ha) as (i & v & Ei & Ev).
      rewrite (F5 i a v Ei Ev) in Ex'. destruct (nth_error h a) as [x|] eqn:Ex; [|discriminate].
      cbn in Ex'. injection Ex' as <-. exists x, i, v. repeat split; auto. }
    constructor; auto.
    - rewrite F1. apply Hi.
    - rewrite F1. intros a Ha. destruct (Hpos a Ha) as (i & v & Ei & Ev). rewrite (F5 i a v Ei Ev).
      destruct (v_valid _ _ _ Hi a Ha) as [x Ex]. rewrite Ex. cbn. eauto.
    - intros a b x z Hx Hz Eid. apply Hmem in Hx. apply Hmem in Hz.
      destruct Hx as (x1 & i & v & Hx & _ & _ & ->), Hz as (z1 & j & w & Hz & _ & _ & ->). eapply Hi; eauto.
    - rewrite F2. apply keys_dict_set_NoDup. apply Hi.
    - intros a x Hx m. apply Hmem in Hx. destruct Hx as (x1 & i & v & Hx & _ & _ & ->). cbn [with_feats feats].
      rewrite F2, !keys_dict_set_In. rewrite (v_feats _ _ _ Hi a x1 Hx m). tauto.
    - intros m y. rewrite F2, dict_get_set. destruct (eqb_ok m n) as [->|Hne].
      + intros Ey. injection Ey as <-. cbn. split; [apply set_of_NoDup|]. intros v. rewrite set_of_In, F1. split.
        * intros Hv. apply In_nth_error in Hv. destruct Hv as [i Ev].
          destruct (nth_error_lt it i) as [a Ea]; [rewrite <- Hlt; eapply nth_error_Some_lt; eauto|].
          assert (Ha : In a (insts d)). { apply (Permutation_in _ Hit). eapply nth_error_In; eauto. }
          exists a. split; auto. unfold value. rewrite (F5 i a v Ea Ev).
          destruct (v_valid _ _ _ Hi a Ha) as [x Ex]. rewrite Ex. cbn. rewrite dict_get_set, eqb_refl. auto.
        * intros (a & Ha & Ev'). destruct (Hpos a Ha) as (i & w & Ei & Ew). unfold value in Ev'.
          rewrite (F5 i a w Ei Ew) in Ev'. destruct (v_valid _ _ _ Hi a Ha) as [x Ex]. rewrite Ex in Ev'.
          cbn in Ev'. rewrite dict_get_set, eqb_refl in Ev'. injection Ev' as <-. eapply nth_error_In; eauto.
      + intros Ey. destruct (v_uniq _ _ _ Hi m y Ey) as [A B]. split; auto. intros v. rewrite B, F1.
        assert (Hval : forall a, In a (insts d) -> value h' a m = value h a m).
        { intros a Ha. destruct (Hpos a Ha) as (i & w & Ei & Ew). unfold value. rewrite (F5 i a w Ei Ew).
          destruct (nth_error h a); cbn; auto. rewrite dict_get_set. destruct (eqb_ok m n); congruence. }
        split; intros (a & Ha & Ev); exists a; [rewrite Hval|rewrite Hval in Ev]; auto.
    - intros m y. rewrite F2, dict_get_set, F3, F4. destruct (eqb_ok m n) as [->|Hne].
      + intros Ey. injection Ey as <-. cbn. destruct k; apply in_or_app; cbn; auto.
      + intros Ey. pose proof (v_lists _ _ _ Hi m y Ey). destruct (akind y), k; auto; apply in_or_app; auto.
    - intros Hf. destruct (v_fresh _ _ _ Hi Hf) as [A B]. rewrite F2, F3, F4.
      assert (Hni : ~ In n (cats d ++ nums d)). { intros Hin. apply (Hfr Hf). auto. }
      assert (Hperm : Permutation (n :: (cats d ++ nums d))
         (match k with Categorical => cats d ++ [n] | Numerical => cats d end ++
          match k with Categorical => nums d | Numerical => nums d ++ [n] end)).
      { destruct k.
        - rewrite <- app_assoc. cbn. apply Permutation_middle.
        - rewrite app_assoc. apply Permutation_cons_append. }
      split.
      + apply (Permutation_NoDup Hperm). constructor; auto.
      + intros z Hz. apply (Permutation_in _ (Permutation_sym Hperm)) in Hz. rewrite keys_dict_set_In.
        destruct Hz as [<-|Hz]; auto.
  Qed.

  Lemma has_attribute_In (d : dataset) n : has_attribute d n <-> In n (keys (attrs d)).
  Proof.
    unfold has_attribute, kind_of. rewrite <- dict_has_In. unfold dict_has.
    destruct (dict_get n (attrs d)); cbn; split; congruence.
  Qed.
  Lemma history_inv fresh (h : heap) d : history fresh h d -> inv fresh h d.
  Proof.
    induction 1.
    - apply inv_new; auto.
    - eapply inv_untouched; eauto.
    - eapply inv_add; eauto.
    - eapply inv_remove; eauto.
    - eapply inv_attribute; eauto. intros Hf Hin. apply (H3 Hf). apply has_attribute_In. auto.
  Qed.
End D.
