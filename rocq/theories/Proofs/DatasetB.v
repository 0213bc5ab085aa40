(** Datasets: bookkeeping (C59) and splitting (C60) *)
From Coq Require Import Permutation QArith Qround Floats.SpecFloat.
From Verif.Model Require Import Base Dataset.
From Verif.Spec Require Import DatasetSpec.
From Verif.Lib Require Import ListLib DictLib.
From Verif.Proofs Require Import PetriA ParallelB DatasetA.
Open Scope nat_scope.

(*P C59 Dataset bookkeeping *)

(** In every reachable state the members are existing objects, none is in
    the dataset twice, and no two have the same id. *)
Lemma C59_unique_ids : forall (I V T : Type) (EI : Eq I) (EV : Eq V) fresh (h : heap I V T) (d : dataset V),
  history fresh h d ->
  NoDup (insts d) /\
  (forall a, In a (insts d) -> exists x, member h d a x) /\
  (forall a b x y, member h d a x -> member h d b y -> iid x = iid y -> a = b).
Proof.
  intros I V T EI EV fresh h d Hh. apply history_inv in Hh. split; [apply Hh|]. split; [|apply Hh].
  intros a Ha. destruct (v_valid _ _ _ Hh a Ha) as [x Ex]. exists x. split; auto.
Qed.

(** In every reachable state each member has exactly the attributes of the dataset. *)
Lemma C59_features_match : forall (I V T : Type) (EI : Eq I) (EV : Eq V) fresh (h : heap I V T) (d : dataset V),
  history fresh h d ->
  forall a x, member h d a x -> forall n, In n (keys (feats x)) <-> has_attribute d n.
Proof.
  intros I V T EI EV fresh h d Hh a x Hm n. rewrite has_attribute_In. apply history_inv in Hh.
  eapply Hh; eauto.
Qed.

(** In every reachable state the unique values of an attribute are exactly
    the values its members have, each listed once. *)
Lemma C59_unique_values : forall (I V T : Type) (EI : Eq I) (EV : Eq V) fresh (h : heap I V T) (d : dataset V),
  history fresh h d ->
  forall n us, uniques d n = Some us ->
    NoDup us /\ forall v, In v us <-> exists a x, member h d a x /\ dict_get n (feats x) = Some v.
Proof.
  intros I V T EI EV fresh h d Hh n us E. apply history_inv in Hh. unfold uniques in E.
  destruct (dict_get n (attrs d)) as [y|] eqn:Ey; [|discriminate]. injection E as <-.
  destruct (v_uniq _ _ _ Hh n y Ey) as [A B]. split; auto. intros v. rewrite B. unfold value, member. split.
  - intros (a & Ha & Ev). destruct (nth_error h a) as [x|] eqn:Ex; [|discriminate]. eauto 6.
  - intros (a & x & [Ha Ex] & Ev). exists a. rewrite Ex. auto.
Qed.

(** If attribute names are never reused, get_categorical_attribute_names and
    get_numerical_attribute_names list exactly the attributes of that kind,
    each once. *)
Lemma C59_attribute_names : forall (I V T : Type) (EI : Eq I) (EV : Eq V) (h : heap I V T) (d : dataset V),
  history true h d ->
  NoDup (cats d ++ nums d) /\
  forall n, (In n (cats d) <-> kind_of d n = Some Categorical) /\ (In n (nums d) <-> kind_of d n = Some Numerical).
Proof.
  intros I V T EI EV h d Hh. apply history_inv in Hh. destruct (v_fresh _ _ _ Hh eq_refl) as [A B].
  split; auto. intros n. unfold kind_of.
  assert (Hdis : In n (cats d) -> In n (nums d) -> False).
  { clear - A. revert A. induction (cats d) as [|c cs IH]; cbn; [tauto|].
    intros A [->|Hc] Hn; inversion A; subst; [apply H1; apply in_or_app; auto|apply IH; auto]. }
  destruct (dict_get n (attrs d)) as [y|] eqn:Ey; cbn.
  - pose proof (v_lists _ _ _ Hh n y Ey) as Hl. destruct (akind y); split; split; intros; auto; try discriminate;
      exfalso; auto.
  - assert (Hni : ~ In n (cats d ++ nums d)). { intros Hin. apply B in Hin. apply dict_get_None in Ey. auto. }
    rewrite in_app_iff in Hni. split; split; intros; try discriminate; tauto.
Qed.

(** add_instance: the instance is rejected with a ValueError exactly when its
    features are not the attributes or its id is taken (it never replaces an
    instance, whatever the docstring says); otherwise it becomes a member and
    nothing else about the dataset but the unique values changes. *)
Lemma C59_add_instance : forall (I V T : Type) (EI : Eq I) (EV : Eq V) (h : heap I V T) (d : dataset V) a x,
  nth_error h a = Some x ->
  let fits := forall n, In n (keys (feats x)) <-> has_attribute d n in
  let taken := exists b y, member h d b y /\ iid y = iid x in
  (add_instance h d a = Err ValueError /\ (~ fits \/ taken)) \/
  (exists d', add_instance h d a = Ok d' /\ fits /\ ~ taken /\
     insts d' = insts d ++ [a] /\ same_attributes d d' /\ cats d' = cats d /\ nums d' = nums d).
Proof.
  intros I V T EI EV h d a x Ex fits taken.
  destruct (same_names (keys (feats x)) (keys (attrs d))) eqn:En.
  - assert (Hk := proj1 (same_names_ok _ _) En).
    assert (Hf : fits) by (intros n; rewrite has_attribute_In; auto).
    destruct (contains h d (iid x)) eqn:Ec.
    + left. split.
      * unfold add_instance. rewrite Ex. cbn [of_option bind]. rewrite En, Ec. reflexivity.
      * right. apply contains_ok in Ec. auto.
    + right. assert (Ht : ~ taken). { intros Ht. apply contains_ok in Ht. congruence. }
      destruct (add_instance_ok h d a x Ex Hk) as (d' & E & F1 & F2 & F3 & F4 & F5).
      { intros b y Hm E. apply Ht. exists b, y. auto. }
      exists d'. split; [auto|]. split; [auto|]. split; [auto|]. split; [auto|]. split; [|auto].
      intros n. unfold kind_of. rewrite F5. destruct (dict_get n (attrs d)) as [y|] eqn:Ey; cbn; auto.
      destruct (dict_get_key (feats x) n) as [v Ev].
      { apply Hk. eapply dict_get_Some_key; eauto. }
      rewrite Ev. reflexivity.
  - left. split.
    + unfold add_instance. rewrite Ex. cbn [of_option bind]. rewrite En. reflexivity.
    + left. intros Hf. assert (same_names (keys (feats x)) (keys (attrs d)) = true); [|congruence].
      apply same_names_ok. intros k. rewrite (Hf k). apply has_attribute_In.
Qed.

(** remove_attribute: KeyError and no change when there is no such attribute;
    otherwise exactly this attribute disappears from the dataset and from its
    members, and no other object is written. *)
Lemma C59_remove_attribute : forall (I V T : Type) (EI : Eq I) (EV : Eq V) fresh (h : heap I V T) (d : dataset V) it n,
  history fresh h d -> Permutation it (insts d) ->
  (~ has_attribute d n /\ remove_attribute h d it n = (h, d, Some KeyError)) \/
  (has_attribute d n /\ exists h' d', remove_attribute h d it n = (h', d', None) /\
     insts d' = insts d /\
     (forall m, kind_of d' m = if eqb m n then None else kind_of d m) /\
     (forall a x, member h d a x -> exists x', nth_error h' a = Some x' /\ iid x' = iid x /\ target x' = target x /\
        forall m, dict_get m (feats x') = if eqb m n then None else dict_get m (feats x)) /\
     (forall a, ~ In a (insts d) -> nth_error h' a = nth_error h a)).
Proof.
  intros I V T EI EV fresh h d it n Hh Hit. apply history_inv in Hh.
  destruct (dict_get n (attrs d)) as [y|] eqn:Ey.
  - right. split; [apply has_attribute_In; eapply dict_get_Some_key; eauto|].
    destruct (remove_attribute_ok fresh h d it n y Hh Hit Ey) as (h1 & d1 & E1 & F1 & F2 & F3 & F4 & F5).
    exists h1, d1. split; [auto|]. split; [auto|]. split; [|split].
    + intros m. unfold kind_of. rewrite F2, dict_get_del by apply Hh. destruct (eqb m n); auto.
    + intros a x [Ha Ex]. rewrite F5, (proj2 (mem_perm it (insts d) a Hit) Ha), Ex. cbn [option_map].
      eexists. split; [reflexivity|]. cbn [iid target feats with_feats]. split; [auto|]. split; [auto|].
      intros m. apply dict_get_del. eapply (v_proper _ _ _ Hh); eauto.
    + intros a Ha. rewrite F5. destruct (existsb (Nat.eqb a) it) eqn:E; auto.
      exfalso. apply Ha. apply (mem_perm it); auto.
  - left. split; [rewrite has_attribute_In; apply dict_get_None; auto|].
    unfold remove_attribute. rewrite Ey. auto.
Qed.

(** add_categorical_attribute / add_numerical_attribute: ValueError and no
    change when there is not one value per instance; otherwise the i-th
    instance of the iteration gets the i-th value, the attribute has the
    given kind, everything else stays and no other object is written. *)
Lemma C59_add_attribute : forall (I V T : Type) (EI : Eq I) (EV : Eq V) fresh (h : heap I V T) (d : dataset V) it k n vs,
  history fresh h d -> Permutation it (insts d) ->
  (length vs <> length (insts d) /\ add_attribute k h d it n vs = (h, d, Some ValueError)) \/
  (length vs = length (insts d) /\ exists h' d', add_attribute k h d it n vs = (h', d', None) /\
     insts d' = insts d /\
     (forall m, kind_of d' m = if eqb m n then Some k else kind_of d m) /\
     (forall i a v x, nth_error it i = Some a -> nth_error vs i = Some v -> nth_error h a = Some x ->
        exists x', nth_error h' a = Some x' /\ iid x' = iid x /\ target x' = target x /\
          forall m, dict_get m (feats x') = if eqb m n then Some v else dict_get m (feats x)) /\
     (forall a, ~ In a (insts d) -> nth_error h' a = nth_error h a)).
Proof.
  intros I V T EI EV fresh h d it k n vs Hh Hit. apply history_inv in Hh.
  destruct (Nat.eq_dec (length (insts d)) (length vs)) as [Hl|Hl].
  - right. split; [auto|].
    destruct (add_attribute_ok fresh h d it k n vs Hh Hit Hl) as (h1 & d1 & E1 & F1 & F2 & F3 & F4 & F5 & F6).
    exists h1, d1. split; [auto|]. split; [auto|]. split; [|split].
    + intros m. unfold kind_of. rewrite F2, dict_get_set. destruct (eqb m n); auto.
    + intros i a v x Ei Ev Ex. rewrite (F5 i a v Ei Ev), Ex. cbn [option_map].
      eexists. split; [reflexivity|]. cbn [iid target feats with_feats]. split; [auto|]. split; [auto|].
      intros m. rewrite dict_get_set. destruct (eqb m n); auto.
    + intros a Ha. apply F6. intros Hin. apply Ha. apply (Permutation_in _ Hit); auto.
  - left. split; [auto|]. unfold add_attribute.
    destruct (Nat.eqb_spec (length (insts d)) (length vs)); [contradiction|auto].
Qed.

Section D.
  Context {I V T : Type} `{Eq I} `{Eq V}.
  Notation heap := (heap I V T).
  Notation inst := (inst I V T).
  Notation dataset := (dataset V).

  Lemma kind_keys (d c : dataset) n : kind_of c n = kind_of d n -> In n (keys (attrs c)) <-> In n (keys (attrs d)).
  Proof. intros E. rewrite <- !has_attribute_In. unfold has_attribute. rewrite E. tauto. Qed.
  Lemma new_part (h : heap) d : history true h d -> part h d (new (cats d) (nums d)) [].
  Proof.
    intros Hh. destruct (C59_attribute_names _ _ _ _ _ h d Hh) as [A B].
    destruct (new_ok (V:=V) (cats d) (nums d)) as (E1 & E2 & E3 & E4 & E5).
    constructor; auto.
    - intros n. unfold kind_of at 1. rewrite E5. destruct (B n) as [B1 B2].
      destruct (mem n (nums d)) eqn:Em.
      + cbn. symmetry. apply B2. apply mem_In; auto.
      + destruct (mem n (cats d)) eqn:Ec.
        * cbn. symmetry. apply B1. apply mem_In; auto.
        * cbn. apply mem_not_In in Em. apply mem_not_In in Ec.
          destruct (kind_of d n) as [[|]|]; auto; exfalso; [apply Ec|apply Em]; tauto.
    - apply hist_new; auto. apply history_inv in Hh. apply Hh.
  Qed.
  Lemma part_add (h : heap) d s l a :
    history true h d -> part h d s l -> In a (insts d) -> ~ In a l -> incl l (insts d) ->
    exists s', add_instance h s a = Ok s' /\ part h d s' (l ++ [a]).
  Proof.
    intros Hh Hp Ha Hni Hl. pose proof (history_inv _ _ _ Hh) as Hi.
    destruct (v_valid _ _ _ Hi a Ha) as [x Ex].
    destruct (C59_add_instance _ _ _ _ _ h s a x Ex) as [[E Hbad]|(s' & E & _ & _ & F1 & F2 & F3 & F4)].
    - exfalso. destruct Hbad as [Hbad|(b & y & [Hb Ey] & Eid)].
      + apply Hbad. intros n. rewrite (v_feats _ _ _ Hi a x (conj Ha Ex) n), <- has_attribute_In.
        unfold has_attribute. rewrite (p_attrs _ _ _ _ Hp n). tauto.
      + rewrite (p_insts _ _ _ _ Hp) in Hb. apply Hni.
        replace a with b; auto. eapply (v_ids _ _ _ Hi); eauto; split; auto.
    - exists s'. split; auto. constructor.
      + rewrite F1, (p_insts _ _ _ _ Hp). auto.
      + rewrite F3. apply Hp.
      + rewrite F4. apply Hp.
      + intros n. rewrite (F2 n). apply Hp.
      + eapply hist_add; [apply Hp|exact E].
  Qed.
  Lemma parts (h : heap) d l : forall s l0,
    history true h d -> part h d s l0 -> NoDup (l0 ++ l) -> incl (l0 ++ l) (insts d) ->
    exists s', foldM (add_instance h) l s = Ok s' /\ part h d s' (l0 ++ l).
  Proof.
    induction l as [|a l IH]; intros s l0 Hh Hp Hn Hl; cbn [foldM].
    - rewrite app_nil_r. eauto.
    - destruct (part_add h d s l0 a Hh Hp) as (s1 & E1 & Hp1).
      + apply Hl. apply in_or_app. cbn. auto.
      + intros Hin. apply NoDup_remove_2 in Hn. apply Hn. apply in_or_app. auto.
      + intros b Hb. apply Hl. apply in_or_app. auto.
      + rewrite E1. cbn [bind]. replace (l0 ++ a :: l) with ((l0 ++ [a]) ++ l) in * by (rewrite <- app_assoc; auto).
        apply IH; auto.
  Qed.
  Lemma sub_part (h : heap) d l :
    history true h d -> NoDup l -> incl l (insts d) ->
    exists s, get_subdataset h d l = Ok s /\ part h d s l.
  Proof. intros Hh Hn Hl. apply (parts h d l _ [] Hh (new_part h d Hh)); auto. Qed.
End D.

(** A name used twice: after adding an attribute over an existing one of the
    same kind and removing it again, the attribute is gone but its name is
    still listed, and from then on no non-empty sub-dataset can be built. *)
Lemma C59_reused_name : forall (I V T : Type) (EI : Eq I) (EV : Eq V) fresh (h : heap I V T) (d : dataset V) it k n vs h1 d1 h2 d2 e,
  history fresh h d -> Permutation it (insts d) -> kind_of d n = Some k ->
  add_attribute k h d it n vs = (h1, d1, None) -> remove_attribute h1 d1 it n = (h2, d2, e) ->
  e = None /\ ~ has_attribute d2 n /\ In n (match k with Categorical => cats d2 | Numerical => nums d2 end) /\
  forall a l, In a (insts d2) -> get_subdataset h2 d2 (a :: l) = Err ValueError.
Proof.
  intros I V T EI EV fresh h d it k n vs h1 d1 h2 d2 e Hh Hit Hk Ea Er.
  assert (Hh0 : history false h d).
  { clear -Hh. induction Hh; [apply hist_new; auto; discriminate|..].
    - eapply hist_other; eauto.
    - eapply hist_add; eauto.
    - eapply hist_remove; eauto.
    - eapply hist_attribute; eauto. discriminate. }
  assert (H1 : history false h1 d1).
  { eapply hist_attribute; eauto. discriminate. }
  pose proof (history_inv _ _ _ Hh) as Hi. pose proof (history_inv _ _ _ H1) as Hi1.
  destruct (Nat.eq_dec (length (insts d)) (length vs)) as [Hl|Hl].
  2:{ unfold add_attribute in Ea. destruct (Nat.eqb_spec (length (insts d)) (length vs)); [contradiction|discriminate]. }
  destruct (add_attribute_ok fresh h d it k n vs Hi Hit Hl) as (h1' & d1' & E1 & F1 & F2 & F3 & F4 & F5 & F6).
  rewrite Ea in E1. injection E1 as <- <-.
  assert (Hit1 : Permutation it (insts d1)) by (rewrite F1; auto).
  assert (Ey : dict_get n (attrs d1) = Some {| akind := k; auniq := set_of vs |})
    by (rewrite F2, dict_get_set, eqb_refl; auto).
  destruct (remove_attribute_ok false h1 d1 it n _ Hi1 Hit1 Ey) as (h2' & d2' & E2 & G1 & G2 & G3 & G4 & G5).
  rewrite Er in E2. injection E2 as <- <- ->. cbn [akind] in G3, G4.
  assert (H2 : history false h2 d2) by (eapply hist_remove; eauto).
  assert (Hna : ~ has_attribute d2 n).
  { rewrite has_attribute_In, G2, keys_dict_del_In by apply Hi1. intros [Hx _]. auto. }
  assert (Hstill : In n (match k with Categorical => cats d2 | Numerical => nums d2 end)).
  { unfold kind_of in Hk. destruct (dict_get n (attrs d)) as [y|] eqn:E0; [|discriminate]. cbn in Hk.
    pose proof (v_lists _ _ _ Hi n y E0) as Hin. replace (akind y) with k in Hin by congruence.
    assert (G : forall l, In n l -> In n (remove_first n (l ++ [n]))).
    { clear. induction l as [|z l IH]; cbn [app remove_first]; [intros []|].
      destruct (eqb_ok n z) as [E|E]; intros [E'|Hin]; try congruence; try (apply in_or_app; cbn; auto; fail).
      right. auto. }
    destruct k; [rewrite G3, F3|rewrite G4, F4]; apply G; auto. }
  split; [auto|]. split; [auto|]. split; [auto|].
  intros a l Ha. unfold get_subdataset. cbn [foldM].
  destruct (v_valid _ _ _ (history_inv _ _ _ H2) a Ha) as [x Ex].
  destruct (C59_add_instance _ _ _ _ _ h2 (new (cats d2) (nums d2)) a x Ex) as [[E _]|(s' & E & Hfit & _)].
  - rewrite E. reflexivity.
  - exfalso. apply Hna. apply (C59_features_match _ _ _ _ _ _ _ _ H2 a x (conj Ha Ex) n). apply Hfit.
    apply has_attribute_In. apply dict_has_In. unfold dict_has.
    destruct (new_ok (V:=V) (cats d2) (nums d2)) as (_ & _ & _ & _ & E5). rewrite E5.
    destruct (mem n (nums d2)) eqn:Em; auto. destruct (mem n (cats d2)) eqn:Ec; auto. exfalso.
    apply mem_not_In in Em. apply mem_not_In in Ec. destruct k; auto.
Qed.

(** get_subdataset, split, random_subset and group_by share the instances:
    removing an attribute from the part takes the feature away from the
    instances of the whole, which still claims to have the attribute. *)
Lemma C59_shared_instances : forall (I V T : Type) (EI : Eq I) (EV : Eq V) (h : heap I V T) (d s : dataset V) l it n h' s',
  history true h d -> part h d s l -> incl l (insts d) -> Permutation it (insts s) ->
  remove_attribute h s it n = (h', s', None) ->
  has_attribute d n /\ forall a, In a l -> exists x, member h' d a x /\ ~ In n (keys (feats x)).
Proof.
  intros I V T EI EV h d s l it n h' s' Hh Hp Hl Hit E.
  destruct (C59_remove_attribute _ _ _ _ _ true h s it n (p_hist _ _ _ _ Hp) Hit)
    as [[_ E']|(Hs & h1 & s1 & E' & F1 & F2 & F3 & F4)]; [congruence|].
  rewrite E in E'. injection E' as <- <-. split.
  - unfold has_attribute in *. rewrite <- (p_attrs _ _ _ _ Hp n). auto.
  - intros a Ha. pose proof (history_inv _ _ _ Hh) as Hi. destruct (v_valid _ _ _ Hi a (Hl a Ha)) as [x Ex].
    destruct (F3 a x) as (x' & Ex' & _ & _ & Eg); [split; auto; rewrite (p_insts _ _ _ _ Hp); auto|].
    exists x'. split; [split; auto|]. apply dict_get_None. rewrite Eg, eqb_refl. auto.
Qed.

Section C.
  Context {I V T : Type} `{Eq I} `{Eq V}.
  Notation heap := (heap I V T).
  Notation dataset := (dataset V).
  Lemma untouched_app (d : dataset) (h : heap) x : untouched d h (h ++ [x]).
  Proof.
    intros a y [Ha Ey]. exists y. split; auto. rewrite nth_error_app1; auto. eapply nth_error_Some_lt; eauto.
  Qed.
  Lemma proper_app (h : heap) x : proper h -> NoDup (keys (feats x)) -> proper (h ++ [x]).
  Proof.
    intros Hp Hx a y Ey. destruct (Nat.lt_ge_cases a (length h)) as [Hlt|Hge].
    - rewrite nth_error_app1 in Ey by auto. eapply Hp; eauto.
    - rewrite nth_error_app2 in Ey by auto. apply nth_error_In in Ey. destruct Ey as [<-|[]]. auto.
  Qed.
  Lemma copies (d : dataset) (h0 : heap) : history true h0 d ->
    forall it done c (news : list (inst I V T)),
    NoDup (done ++ it) -> incl (done ++ it) (insts d) ->
    history true (h0 ++ news) c -> insts c = seq (length h0) (length news) ->
    map Some news = map (nth_error h0) done ->
    same_attributes d c -> cats c = cats d -> nums c = nums d ->
    exists news' c',
      foldM (fun '(h, c) a =>
             do x <- of_option AttributeError (nth_error h a) ;
             let h' := h ++ [x] in
             do c' <- add_instance h' c (length h) ;
             Ok (h', c')) it (h0 ++ news, c) = Ok (h0 ++ news', c') /\
      history true (h0 ++ news') c' /\ insts c' = seq (length h0) (length news') /\
      map Some news' = map (nth_error h0) (done ++ it) /\
      same_attributes d c' /\ cats c' = cats d /\ nums c' = nums d.
  Proof.
    intros Hh. pose proof (history_inv _ _ _ Hh) as Hi.
    induction it as [|a it IH]; intros done c news Hn Hl Hc Ec En Ha Ecs Ens; cbn [foldM].
    - rewrite app_nil_r. exists news, c. auto 10.
    - assert (Hain : In a (insts d)). { apply Hl. apply in_or_app. cbn. auto. }
      destruct (v_valid _ _ _ Hi a Hain) as [x Ex].
      rewrite nth_error_app1 by (eapply nth_error_Some_lt; eauto). rewrite Ex. cbn [of_option bind].
      cbv zeta. set (h1 := (h0 ++ news) ++ [x]).
      assert (Hx : nth_error h1 (length (h0 ++ news)) = Some x).
      { unfold h1. rewrite nth_error_app2, Nat.sub_diag by auto. auto. }
      assert (Hc1 : history true h1 c).
      { eapply hist_other; [exact Hc| |apply untouched_app]. apply proper_app.
        - apply (history_inv _ _ _ Hc).
        - eapply (v_proper _ _ _ Hi); eauto. }
      destruct (C59_add_instance _ _ _ _ _ h1 c _ x Hx) as [[E Hbad]|(c' & E & _ & _ & F1 & F2 & F3 & F4)].
      { exfalso. destruct Hbad as [Hbad|(b & y & [Hb Ey] & Eid)].
        - apply Hbad. intros n. rewrite (v_feats _ _ _ Hi a x (conj Hain Ex) n), <- has_attribute_In.
          unfold has_attribute. rewrite (Ha n). tauto.
        - rewrite Ec in Hb. apply in_seq in Hb.
          assert (Ey' : nth_error (map Some news) (b - length h0) = Some (Some y)).
          { rewrite nth_error_map. unfold h1 in Ey. rewrite <- app_assoc in Ey.
            rewrite nth_error_app2 in Ey by lia. rewrite nth_error_app1 in Ey by lia. rewrite Ey. auto. }
          rewrite En, nth_error_map in Ey'. destruct (nth_error done (b - length h0)) as [a'|] eqn:Ea'; [|discriminate].
          cbn in Ey'. injection Ey' as Ey'. apply nth_error_In in Ea'.
          assert (a' = a). { eapply (v_ids _ _ _ Hi); eauto; split; eauto. apply Hl. apply in_or_app. auto. }
          subst a'. apply NoDup_remove_2 in Hn. apply Hn. apply in_or_app. auto. }
      rewrite E. cbn [bind]. unfold h1 in *. rewrite <- app_assoc in *.
      destruct (IH (done ++ [a]) c' (news ++ [x])) as (news' & c2 & E2 & R); auto.
      + rewrite <- app_assoc. auto.
      + rewrite <- app_assoc. auto.
      + eapply hist_add; eauto.
      + rewrite F1, Ec, !app_length. cbn [length]. rewrite Nat.add_1_r, seq_S. auto.
      + rewrite !map_app, En. cbn [map]. rewrite Ex. auto.
      + intros n. rewrite (F2 n). auto.
      + congruence.
      + congruence.
      + exists news', c2. split; auto. rewrite <- app_assoc in R. auto.
  Qed.
End C.

(** copy: the copy has the same attributes and, in the same order, new
    instances with the ids, features and targets of the old ones; the old
    objects are as before, and none of them is in the copy. *)
Lemma C59_copy : forall (I V T : Type) (EI : Eq I) (EV : Eq V) (h : heap I V T) (d : dataset V) it,
  history true h d -> Permutation it (insts d) ->
  exists h' c, copy h d it = Ok (h', c) /\ history true h' c /\ history true h' d /\
    same_attributes d c /\ cats c = cats d /\ nums c = nums d /\
    map (nth_error h') (insts c) = map (nth_error h) it /\
    (forall a, a < length h -> nth_error h' a = nth_error h a) /\
    (forall a, In a (insts c) -> length h <= a /\ ~ In a (insts d)).
Proof.
  intros I V T EI EV h d it Hh Hit. pose proof (history_inv _ _ _ Hh) as Hi.
  pose proof (new_part h d Hh) as Hp.
  destruct (copies d h Hh it [] (new (cats d) (nums d)) []) as (news & c & E & Hc & Ec & En & Ea & Ecs & Ens).
  - cbn. apply Permutation_NoDup with (insts d); [apply Permutation_sym; auto|apply Hi].
  - intros a Ha. apply (Permutation_in _ Hit); auto.
  - rewrite app_nil_r. apply Hp.
  - apply Hp.
  - auto.
  - apply Hp.
  - apply Hp.
  - apply Hp.
  - rewrite app_nil_r in E. cbn [app] in En. exists (h ++ news), c. split; [exact E|]. split; [auto|].
    split.
    { eapply hist_other; [exact Hh| |].
      - apply (history_inv _ _ _ Hc).
      - intros a y [Ha Ey]. exists y. split; auto. rewrite nth_error_app1; auto. eapply nth_error_Some_lt; eauto. }
    split; [auto|]. split; [auto|]. split; [auto|]. split; [|split].
    + rewrite <- En, Ec. clear. rewrite (nth_error_ext (map (nth_error (h ++ news)) (seq (length h) (length news))) (map Some news)); auto.
      intros i. rewrite !nth_error_map. destruct (Nat.lt_ge_cases i (length news)) as [Hlt|Hge].
      * replace (nth_error (seq (length h) (length news)) i) with (Some (length h + i)).
        -- cbn. rewrite nth_error_app2 by lia. replace (length h + i - length h) with i by lia.
           destruct (nth_error_lt news i Hlt) as [x Ex]. rewrite Ex. auto.
        -- symmetry. rewrite nth_error_nth' with (d:=0) by (rewrite seq_length; auto).
           rewrite seq_nth by auto. auto.
      * rewrite (proj2 (nth_error_None (seq (length h) (length news)) i)) by (rewrite seq_length; auto).
        rewrite (proj2 (nth_error_None news i)) by auto. auto.
    + intros a Hlt. apply nth_error_app1; auto.
    + intros a Ha. rewrite Ec in Ha. apply in_seq in Ha. split; [lia|]. intros Hin. destruct (v_valid _ _ _ Hi a Hin) as [x Ex].
      apply nth_error_Some_lt in Ex. lia.
Qed.

(*P C60 Dataset splitting *)

(** get_subdataset with distinct members gives a dataset with exactly these. *)
Lemma C60_subdataset : forall (I V T : Type) (EI : Eq I) (EV : Eq V) (h : heap I V T) (d : dataset V) l,
  history true h d -> NoDup l -> incl l (insts d) ->
  exists s, get_subdataset h d l = Ok s /\ part h d s l.
Proof. intros I V T EI EV h d l Hh Hn Hl. apply sub_part; auto. Qed.

Lemma split_at_ok {I V T} `{Eq I} `{Eq V} (h : heap I V T) (d : dataset V) sh i :
  history true h d -> Permutation sh (insts d) ->
  let k := py_index sh i in
  exists train test, split_at h d sh i = Ok (train, test) /\
    part h d train (firstn k sh) /\ part h d test (skipn k sh).
Proof.
  intros Hh Hsh k. pose proof (history_inv _ _ _ Hh) as Hi.
  assert (Hn : NoDup sh). { apply Permutation_NoDup with (insts d); [apply Permutation_sym; auto|apply Hi]. }
  rewrite <- (firstn_skipn k sh) in Hn.
  assert (Hl : incl (firstn k sh ++ skipn k sh) (insts d)).
  { rewrite firstn_skipn. intros a Ha. apply (Permutation_in _ Hsh); auto. }
  destruct (sub_part h d (firstn k sh) Hh) as (train & E1 & P1).
  { apply NoDup_app_l in Hn. auto. }
  { intros a Ha. apply Hl. apply in_or_app. auto. }
  destruct (sub_part h d (skipn k sh) Hh) as (test & E2 & P2).
  { apply NoDup_app_l with (firstn k sh). eapply Permutation_NoDup; [|exact Hn]. apply Permutation_app_comm. }
  { intros a Ha. apply Hl. apply in_or_app. auto. }
  exists train, test. unfold split_at. fold k. rewrite E1. cbn [bind]. rewrite E2. auto.
Qed.

(** split in exact arithmetic: for every shuffle, the two parts are datasets
    with the same attributes that together contain every instance once; the
    test set has at least the requested proportion, is the smallest such
    part, and is not empty unless the dataset is. *)
Lemma C60_split : forall (I V T : Type) (EI : Eq I) (EV : Eq V) (h : heap I V T) (d : dataset V) shuffled (p : Q),
  history true h d -> Permutation shuffled (insts d) ->
  (0 < p)%Q -> (p < 1)%Q ->
  exists train test l m, split h d shuffled p = Ok (train, test) /\
    part h d train l /\ part h d test m /\ l ++ m = shuffled /\
    (let share := inject_Z (Z.of_nat (length (insts d))) * p in
     share <= inject_Z (Z.of_nat (length m)) /\ inject_Z (Z.of_nat (length m)) < share + 1)%Q /\
    (insts d <> [] -> m <> []).
Proof.
  intros I V T EI EV h d sh p Hh Hsh Hp0 Hp1. unfold split.
  replace (Qle_bool p 0) with false.
  2:{ symmetry. apply not_true_is_false. intros E. apply Qle_bool_iff in E. apply (Qlt_not_le _ _ Hp0); auto. }
  replace (Qle_bool 1 p) with false.
  2:{ symmetry. apply not_true_is_false. intros E. apply Qle_bool_iff in E. apply (Qlt_not_le _ _ Hp1); auto. }
  cbn [negb andb]. cbv zeta. set (N := length (insts d)). set (n := inject_Z (Z.of_nat N)).
  destruct (split_at_ok h d sh (Qfloor (n - n * p)) Hh Hsh) as (train & test & E & P1 & P2).
  exists train, test. do 2 eexists. split; [exact E|]. split; [exact P1|]. split; [exact P2|].
  split; [apply firstn_skipn|].
  assert (Hn0 : (0 <= n)%Q). { unfold n. change 0%Q with (inject_Z 0). rewrite <- Zle_Qle. lia. }
  assert (Hx0 : (0 <= n - n * p)%Q).
  { setoid_replace (n - n * p)%Q with (n * (1 - p))%Q by ring. apply Qmult_le_0_compat; auto.
    apply Qlt_le_weak. apply (proj1 (Qlt_minus_iff p 1)). auto. }
  assert (Hnp : (0 <= n * p)%Q). { apply Qmult_le_0_compat; auto. apply Qlt_le_weak; auto. }
  pose proof (Qfloor_le (n - n * p)) as Hfl. pose proof (Qlt_floor (n - n * p)) as Hfl2.
  assert (Hf0 : (0 <= Qfloor (n - n * p))%Z).
  { change 0%Z with (Qfloor (inject_Z 0)). apply Qfloor_resp_le. auto. }
  set (f := Qfloor (n - n * p)) in *.
  assert (Hfn : (f <= Z.of_nat N)%Z).
  { rewrite Zle_Qle. eapply Qle_trans; [exact Hfl|]. fold n.
    setoid_replace n with (n - 0)%Q at 3 by ring. unfold Qminus. apply Qplus_le_compat; [apply Qle_refl|].
    apply Qopp_le_compat. auto. }
  assert (Hlen : length sh = N) by (apply Permutation_length; auto).
  assert (Hk : py_index sh f = Z.to_nat f).
  { unfold py_index. destruct (f <? 0)%Z eqn:Ef; [apply Z.ltb_lt in Ef; lia|]. lia. }
  rewrite Hk.
  assert (Hm : inject_Z (Z.of_nat (length (skipn (Z.to_nat f) sh))) == n - inject_Z f).
  { rewrite skipn_length, Hlen. unfold n, Qminus. rewrite <- inject_Z_opp, <- inject_Z_plus.
    replace (Z.of_nat (N - Z.to_nat f)) with (Z.of_nat N + - f)%Z by lia. reflexivity. }
  assert (Hlo : (n * p <= inject_Z (Z.of_nat (length (skipn (Z.to_nat f) sh))))%Q).
  { rewrite Hm. apply Qplus_le_l with (inject_Z f - n * p)%Q.
    setoid_replace (n * p + (inject_Z f - n * p))%Q with (inject_Z f) by ring.
    setoid_replace (n - inject_Z f + (inject_Z f - n * p))%Q with (n - n * p)%Q by ring. auto. }
  split.
  - split; auto. rewrite Hm.
    apply Qplus_lt_l with (inject_Z f - n * p)%Q.
    setoid_replace (n * p + 1 + (inject_Z f - n * p))%Q with (inject_Z f + inject_Z 1)%Q by (unfold inject_Z at 3; ring).
    setoid_replace (n - inject_Z f + (inject_Z f - n * p))%Q with (n - n * p)%Q by ring.
    rewrite <- inject_Z_plus. auto.
  - intros Hne Ed. rewrite Ed in Hlo. cbn [length] in Hlo.
    assert (Hpos : (0 < n)%Q).
    { unfold n. change 0%Q with (inject_Z 0). rewrite <- Zlt_Qlt. unfold N. destruct (insts d); [congruence|cbn; lia]. }
    apply (Qlt_not_le 0 (n * p)); auto.
    setoid_replace 0%Q with (n * 0)%Q by ring. rewrite Qmult_lt_l; auto.
Qed.

(** split with a proportion outside (0,1) raises a ValueError *)
Lemma C60_split_bad_proportion : forall (I V T : Type) (EI : Eq I) (EV : Eq V) (h : heap I V T) (d : dataset V) shuffled (p : Q),
  (p <= 0 \/ 1 <= p)%Q -> split h d shuffled p = Err ValueError.
Proof.
  intros I V T EI EV h d sh p Hp. unfold split.
  destruct Hp as [Hp|Hp]; apply Qle_bool_iff in Hp; rewrite Hp; cbn [negb andb]; auto.
  rewrite andb_false_r. auto.
Qed.

(** split in binary64 arithmetic: still, for every proportion and shuffle,
    every instance is in exactly one of the two parts. *)
Lemma C60_split_float : forall (I V T : Type) (EI : Eq I) (EV : Eq V) (h : heap I V T) (d : dataset V) shuffled p,
  history true h d -> Permutation shuffled (insts d) ->
  split_float h d shuffled p = Err ValueError \/
  exists train test l m, split_float h d shuffled p = Ok (train, test) /\
    part h d train l /\ part h d test m /\ l ++ m = shuffled.
Proof.
  intros I V T EI EV h d sh p Hh Hsh. unfold split_float. destruct (_ && _); [|auto]. right. cbv zeta.
  destruct (split_at_ok h d sh (int_of_float (SFsub 53 1024 (float_of_nat (length (insts d)))
    (SFmul 53 1024 (float_of_nat (length (insts d))) p))) Hh Hsh) as (train & test & E & P1 & P2).
  exists train, test. do 2 eexists. split; [exact E|]. split; [exact P1|]. split; [exact P2|]. apply firstn_skipn.
Qed.

(** but the documented guarantee of a non-empty test set is lost to rounding:
    there is a proportion in (0,1) for which the test set of every dataset
    with one instance is empty. *)
Lemma C60_split_float_empty : exists p : spec_float,
  SFltb (S754_zero false) p = true /\ SFltb p (float_of_nat 1) = true /\
  forall (I V T : Type) (EI : Eq I) (EV : Eq V) (h : heap I V T) (d : dataset V) shuffled,
  history true h d -> Permutation shuffled (insts d) -> length (insts d) = 1 ->
  exists train test, split_float h d shuffled p = Ok (train, test) /\ part h d train shuffled /\ part h d test [].
Proof.
  exists (SFldexp 53 1024 (float_of_nat 1) (-60)). split; [vm_compute; reflexivity|]. split; [vm_compute; reflexivity|].
  intros I V T EI EV h d sh Hh Hsh Hl. unfold split_float. rewrite Hl.
  replace (SFltb _ _ && SFltb _ _) with true by (vm_compute; reflexivity). cbv zeta.
  replace (int_of_float _) with 1%Z by (vm_compute; reflexivity).
  assert (Hlen : length sh = 1) by (rewrite (Permutation_length Hsh); auto).
  destruct (split_at_ok h d sh 1 Hh Hsh) as (train & test & E & P1 & P2).
  exists train, test. split; [exact E|].
  replace (py_index sh 1) with (length sh) in P1, P2 by (unfold py_index; rewrite Hlen; reflexivity).
  rewrite firstn_all in P1. rewrite skipn_all in P2. auto.
Qed.

(** random_subset: a dataset with exactly the requested number of instances
    of the original, or a ValueError when there are not so many. *)
Lemma C60_random_subset : forall (I V T : Type) (EI : Eq I) (EV : Eq V) (h : heap I V T) (d : dataset V) shuffled (size : Z),
  history true h d -> Permutation shuffled (insts d) ->
  (random_subset h d shuffled size = Err ValueError /\ (size < 0 \/ Z.of_nat (length (insts d)) < size)%Z) \/
  (exists s l, random_subset h d shuffled size = Ok s /\ part h d s l /\
     Z.of_nat (length l) = size /\ NoDup l /\ incl l (insts d)).
Proof.
  intros I V T EI EV h d sh size Hh Hsh. unfold random_subset.
  destruct (size <? 0)%Z eqn:E1; cbn [orb]; [left; split; auto; apply Z.ltb_lt in E1; auto|].
  destruct (Z.of_nat (length (insts d)) <? size)%Z eqn:E2; [left; split; auto; apply Z.ltb_lt in E2; auto|].
  apply Z.ltb_ge in E1. apply Z.ltb_ge in E2. right. pose proof (history_inv _ _ _ Hh) as Hi.
  assert (Hn : NoDup sh). { apply Permutation_NoDup with (insts d); [apply Permutation_sym; auto|apply Hi]. }
  assert (Hl : length sh = length (insts d)) by (apply Permutation_length; auto).
  set (k := py_index sh size).
  assert (Hk : k = Z.to_nat size). { unfold k, py_index. destruct (size <? 0)%Z eqn:Ef; [apply Z.ltb_lt in Ef; lia|]. lia. }
  assert (Hn1 : NoDup (firstn k sh)). { rewrite <- (firstn_skipn k sh) in Hn. apply NoDup_app_l in Hn. auto. }
  assert (Hl1 : incl (firstn k sh) (insts d)).
  { intros a Ha. apply (Permutation_in _ Hsh). rewrite <- (firstn_skipn k sh). apply in_or_app. auto. }
  destruct (sub_part h d (firstn k sh) Hh Hn1 Hl1) as (s & E & P).
  exists s, (firstn k sh). split; [exact E|]. split; [auto|]. split; [|auto].
  rewrite firstn_length. lia.
Qed.
