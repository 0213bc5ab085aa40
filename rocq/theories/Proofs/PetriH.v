(** Markings (C89) and pruning (C90) of data petri nets *)
From Coq Require Import String Permutation ZArith.
From Verif.Model Require Import Base PetriNet.
From Verif.Spec Require Import PetriSpec.
From Verif.Lib Require Import ListLib DictLib.
From Verif.Proofs Require Import PetriA PetriC PetriF PetriG PetriD.
Open Scope string_scope.
Open Scope list_scope.
Open Scope nat_scope.

Lemma get_marking_get n p : dict_get p (get_marking n) = option_map p_tokens (dict_get p (places n)).
Proof.
  unfold get_marking. induction (places n) as [|[k v] d IH]; [auto|]. cbn [map dict_get]. destruct (eqb p k); auto.
Qed.
Lemma keys_get_marking n : keys (get_marking n) = keys (places n).
Proof. unfold get_marking, keys. rewrite map_map. apply map_ext. intros [k v]. auto. Qed.

(*P C89 Markings *)
(** [get_marking] gives every place with its tokens. *)
Lemma C89_get_marking : forall n, built n -> NoDup (keys (get_marking n)) /\
  forall p k, dict_get p (get_marking n) = Some k <-> has_place n p /\ tokens n p = k.
Proof.
  intros n B. split; [rewrite keys_get_marking; apply (built_wf n B)|]. intros p k. rewrite get_marking_get. unfold has_place, tokens.
  destruct (dict_get p (places n)) as [pl|] eqn:E; cbn [option_map].
  - split; [intros [= <-]|intros [_ <-]]; auto. split; [eapply dict_get_Some_key; eauto|auto].
  - split; [discriminate|]. intros [Hk _]. apply dict_get_key in Hk. destruct Hk as [v Ev]. congruence.
Qed.
Lemma set_marking_all m : forall n, NoDup (keys (places n)) -> NoDup (keys m) -> (forall p, In p (keys m) -> has_place n p) ->
  exists n', set_marking m n = Ok n' /\ same_structure n n' /\ forall p, tokens n' p = match dict_get p m with Some k => k | None => tokens n p end.
Proof.
  unfold set_marking. induction m as [|[p k] m IH]; intros n N Nm Hm; cbn [foldM].
  - exists n. split; [auto|]. split; [apply same_refl|auto].
  - destruct (set_tokens_ok p k n (Hm p (or_introl eq_refl)) N) as (n1 & E1 & S1 & T1 & T1'). rewrite E1. cbn [bind].
    inversion Nm as [|? ? N1 N2]; subst.
    destruct (IH n1) as (n2 & E2 & S2 & T2); auto.
    { rewrite (same_keys n n1 S1). auto. }
    { intros q Hq. unfold has_place. rewrite (same_keys n n1 S1). apply Hm. cbn; auto. }
    exists n2. split; [auto|]. split; [eapply same_trans; eauto|]. intros q. rewrite T2. cbn [dict_get].
    destruct (eqb_ok q p) as [->|Hq].
    + destruct (dict_get p m) as [k'|] eqn:Ep; [exfalso; apply N1; eapply dict_get_Some_key; eauto|auto].
    + destruct (dict_get q m); auto.
Qed.
Lemma set_marking_err m : forall n, (exists p, In p (keys m) /\ ~ has_place n p) -> set_marking m n = Err KeyError.
Proof.
  unfold set_marking. induction m as [|[p k] m IH]; intros n (q & Hq & Hn); [destruct Hq|]. cbn [foldM]. unfold set_tokens at 1.
  destruct (dict_get p (places n)) as [pl|] eqn:Ep; cbn [of_option bind]; [|auto].
  apply IH. exists q. destruct Hq as [Hq|Hq].
  - cbn in Hq. subst q. exfalso. apply Hn. eapply dict_get_Some_key; eauto.
  - split; [auto|]. unfold has_place. cbn [places]. rewrite keys_dict_set_In. intros [->|Hk]; [|contradiction].
    apply Hn. eapply dict_get_Some_key; eauto.
Qed.
(** [set_marking] sets the places it is given and leaves the others alone; it
    accepts negative numbers; an unknown place raises KeyError. *)
Lemma C89_set_marking : forall n m, built n -> NoDup (keys m) ->
  ((forall p, In p (keys m) -> has_place n p) ->
     exists n', set_marking m n = Ok n' /\ same_structure n n' /\
       forall p, tokens n' p = match dict_get p m with Some k => k | None => tokens n p end) /\
  ((exists p, In p (keys m) /\ ~ has_place n p) -> set_marking m n = Err KeyError).
Proof.
  intros n m B Nm. split; [apply set_marking_all; auto; apply (built_wf n B)|apply set_marking_err].
Qed.
Lemma marking_loop_ok pre m : forall n n', set_marking pre n = Ok n' -> set_marking_loop (pre ++ m) n = set_marking_loop m n'.
Proof.
  unfold set_marking. induction pre as [|[p k] pre IH]; intros n n' E; cbn [foldM app set_marking_loop] in *.
  - now injection E as <-.
  - destruct (set_tokens p k n) as [n1|]; cbn [bind] in E; [|discriminate]. auto.
Qed.
(** a failing [set_marking]: the entries before the first unknown place are set, the others are not *)
Lemma C89_set_marking_fails : forall n pre p k post, built n -> NoDup (keys (pre ++ (p, k) :: post)) ->
  (forall q, In q (keys pre) -> has_place n q) -> ~ has_place n p ->
  exists n', set_marking_loop (pre ++ (p, k) :: post) n = (n', Some KeyError) /\ same_structure n n' /\
    forall q, tokens n' q = match dict_get q pre with Some k => k | None => tokens n q end.
Proof.
  intros n pre p k post B N Hp Hn. unfold keys in N. rewrite map_app in N. apply NoDup_app_l in N.
  destruct (set_marking_all pre n) as (n' & E & S & T); [apply (built_wf n B)|auto|auto|]. exists n'.
  rewrite (marking_loop_ok pre _ n n' E). cbn [set_marking_loop]. unfold set_tokens.
  destruct (dict_get p (places n')) as [pl|] eqn:Ep; [|cbn; auto]. exfalso. apply Hn. unfold has_place.
  rewrite <- (same_keys n n' S). eapply dict_get_Some_key; eauto.
Qed.
(** otherwise the net is left as [set_marking] says *)
Lemma C89_set_marking_loop : forall n m, built n -> NoDup (keys m) -> (forall p, In p (keys m) -> has_place n p) ->
  exists n', set_marking_loop m n = (n', None) /\ set_marking m n = Ok n'.
Proof.
  intros n m B N Hp. destruct (set_marking_all m n) as (n' & E & _); [apply (built_wf n B)|auto|auto|]. exists n'. split; [|auto].
  rewrite <- (app_nil_r m). rewrite (marking_loop_ok m [] n n' E). auto.
Qed.
Lemma matches_split n m :
  (matches_marking m n = Ok true /\ Forall (agrees n) m) \/
  exists pre p k post, m = pre ++ (p, k) :: post /\ Forall (agrees n) pre /\
    ((matches_marking m n = Ok false /\ has_place n p /\ tokens n p <> k) \/ (matches_marking m n = Err KeyError /\ ~ has_place n p)).
Proof.
  induction m as [|[p k] m IH]; [left; cbn; auto|]. cbn [matches_marking]. destruct (dict_get p (places n)) as [pl|] eqn:Ep; cbn [of_option bind].
  - assert (Hp : has_place n p) by (eapply dict_get_Some_key; eauto).
    assert (Tp : tokens n p = p_tokens pl) by (unfold tokens; rewrite Ep; auto).
    destruct (Z.eqb_spec (p_tokens pl) k) as [Ek|Ek].
    + assert (A : agrees n (p, k)) by (split; cbn; [auto|congruence]).
      destruct IH as [[E F]|(pre & q & j & post & -> & F & C)]; [left; auto|].
      right. exists ((p, k) :: pre), q, j, post. split; [auto|]. split; [auto|]. auto.
    + right. exists [], p, k, m. split; [auto|]. split; [auto|]. left. split; [auto|]. split; [auto|congruence].
  - right. exists [], p, k, m. split; [auto|]. split; [auto|]. right. split; [auto|].
    intros Hk. apply dict_get_key in Hk. destruct Hk as [v Ev]. congruence.
Qed.
Lemma disagree n pre p k post pre' p' k' post' : pre ++ (p, k) :: post = pre' ++ (p', k') :: post' ->
  Forall (agrees n) pre -> Forall (agrees n) pre' -> ~ agrees n (p, k) -> ~ agrees n (p', k') -> p' = p /\ k' = k.
Proof.
  revert pre'. induction pre as [|x pre IH]; intros [|x' pre'] E F F' H H'; cbn [app] in E.
  - injection E as <- <- _. auto.
  - injection E as <- _. inversion F'; contradiction.
  - injection E as -> _. inversion F; contradiction.
  - injection E as -> E. inversion F; inversion F'; subst. eauto.
Qed.
(** [matches_marking] is true iff every entry agrees with the net; the first
    entry that does not decides between false and KeyError. *)
Lemma C89_matches_marking : forall n m,
  (matches_marking m n = Ok true <-> Forall (agrees n) m) /\
  (matches_marking m n = Ok false <-> exists pre p k post, m = pre ++ (p, k) :: post /\ Forall (agrees n) pre /\ has_place n p /\ tokens n p <> k) /\
  (forall e, matches_marking m n = Err e <-> e = KeyError /\ exists pre p k post, m = pre ++ (p, k) :: post /\ Forall (agrees n) pre /\ ~ has_place n p).
Proof.
  intros n m.
  assert (No : forall pre p k post, Forall (agrees n) (pre ++ (p, k) :: post) -> agrees n (p, k)).
  { intros pre p k post F. apply Forall_app in F. destruct F as [_ F]. inversion F; auto. }
  destruct (matches_split n m) as [[E F]|(pre & p & k & post & -> & F & C)].
  - rewrite E. split; [tauto|]. split.
    + split; [discriminate|]. intros (pre & p & k & post & -> & _ & _ & Hk). apply No in F. destruct F as [_ F]. cbn in F. congruence.
    + intros e. split; [discriminate|]. intros (_ & pre & p & k & post & -> & _ & Hk). apply No in F. destruct F as [F _]. cbn in F. contradiction.
  - assert (Hd : ~ agrees n (p, k)) by (unfold agrees; cbn; destruct C as [(_ & _ & C)|(_ & C)]; tauto).
    destruct C as [(E & Hp & Hk)|(E & Hp)]; rewrite E.
    + split; [split; [discriminate|intros F1; apply No in F1; contradiction]|]. split.
      * split; [intros _; exists pre, p, k, post; auto|auto].
      * intros e. split; [discriminate|]. intros (_ & pre' & p' & k' & post' & Es & F' & Hp').
        destruct (disagree n pre p k post pre' p' k' post' Es F F' Hd) as [-> ->]; [unfold agrees; cbn; tauto|contradiction].
    + split; [split; [discriminate|intros F1; apply No in F1; contradiction]|]. split.
      * split; [discriminate|]. intros (pre' & p' & k' & post' & Es & F' & Hp' & Hk').
        destruct (disagree n pre p k post pre' p' k' post' Es F F' Hd) as [-> ->]; [unfold agrees; cbn; tauto|contradiction].
      * intros e. split; [intros [= <-]; split; [auto|]; exists pre, p, k, post; auto|intros [-> _]; auto].
Qed.
Lemma restore T V rest : forall rest' dn, map (fun '(id, p) => (id, p_label p, p_transitions p)) rest' = map (fun '(id, p) => (id, p_label p, p_transitions p)) rest ->
  NoDup (keys (dn ++ rest)) ->
  foldM (fun n '(id, k) => set_tokens id k n) (map (fun '(id, p) => (id, p_tokens p)) rest) (Net (dn ++ rest') T V) = Ok (Net (dn ++ rest) T V).
Proof.
  induction rest as [|[id p] rest IH]; intros [|[id' p'] rest'] dn E N; cbn [map] in E; try discriminate; cbn [foldM map]; [auto|].
  injection E as -> El Et E. assert (Hn : ~ In id (keys dn)) by (rewrite keys_app in N; cbn in N; eapply NoDup_mid_l; eauto).
  unfold set_tokens at 1. cbn [places transitions variables]. rewrite get_mid by auto. cbn [of_option bind]. rewrite set_mid by auto.
  replace (Place (p_label p') (p_tokens p) (p_transitions p')) with p by (rewrite El, Et; destruct p; auto).
  specialize (IH rest' (dn ++ [(id, p)]) E). rewrite <- !app_assoc in IH. apply IH. auto.
Qed.
(** A saved marking brings the net back exactly, whatever was simulated in
    between; the net matches a marking just set and its own marking. *)
Lemma C89_roundtrip : forall n, built n ->
  (forall n', same_structure n n' -> set_marking (get_marking n) n' = Ok n) /\
  matches_marking (get_marking n) n = Ok true /\
  (forall m n', NoDup (keys m) -> set_marking m n = Ok n' -> matches_marking m n' = Ok true).
Proof.
  intros n B. pose proof (built_wf n B) as W. split; [|split].
  - intros [P' T' V'] (E1 & E2 & E3). cbn [places transitions variables] in *. subst. unfold set_marking, get_marking.
    pose proof (restore (transitions n) (variables n) (places n) P' [] E3 (w_places n W)) as R. cbn [app] in R.
    rewrite R. destruct n; auto.
  - apply C89_matches_marking. apply Forall_forall. intros [p k] Hin.
    destruct (C89_get_marking n B) as [N G]. apply (dict_In_get _ _ _ N) in Hin. apply G in Hin. exact Hin.
  - intros m n' N E. apply C89_matches_marking.
    assert (D : (forall p, In p (keys m) -> has_place n p) \/ exists p, In p (keys m) /\ ~ has_place n p).
    { clear. induction (keys m) as [|p l [IH|(q & Hq & IH)]]; [left; intros p []| |right; exists q; cbn; auto].
      destruct (in_dec string_dec p (keys (places n))) as [Hp|Hp]; [left; intros q [<-|Hq]; auto|right; exists p; cbn; auto]. }
    destruct D as [D|D]; [|rewrite set_marking_err in E by auto; discriminate].
    destruct (set_marking_all m n (w_places n W) N D) as (n2 & E2 & S & T). assert (n2 = n') by congruence. subst n2.
    apply Forall_forall. intros [p k] Hin. split; cbn [fst snd].
    + unfold has_place. rewrite (same_keys n n' S). apply D. apply (in_map fst) in Hin. exact Hin.
    + rewrite T. rewrite (dict_In_get _ _ _ N Hin). auto.
Qed.

(** ** pruning *)
Lemma run_arun n st M l M1 : run n st M l M1 <-> arun (able n st []) (starts n) (ends n) M l M1.
Proof.
  split.
  - induction 1 as [M M1 E|M t M2 l M1 (F1 & F2 & F3 & F4) R IH]; [constructor; auto|]. econstructor; [|exact IH].
    split; [split; [auto|split; auto]|]. split; auto.
  - induction 1 as [M M1 E|M t M2 l M1 ((F1 & F2 & _) & F3 & F4) R IH]; [constructor; auto|]. econstructor; [|exact IH].
    split; [auto|]. split; [auto|]. split; auto.
Qed.
Lemma run_has n st M l M1 : run n st M l M1 -> forall t, In t l -> has_transition n t.
Proof. induction 1 as [M M1 E|M t M2 l M1 F R IH]; [intros ? []|]. intros x [<-|Hx]; auto. apply F. Qed.
Lemma restrict_keep n P n1 n' l : pruned n P n1 n' -> (forall t, In t l -> has_transition n t) -> restrict n' l = keep (map fst P) l.
Proof.
  intros Pr Hl. unfold restrict, keep. apply filter_ext_in. intros t Ht. pose proof (pr_has _ _ _ _ Pr t) as H. specialize (Hl t Ht).
  unfold has_transition in H at 1. rewrite <- mem_In in H. pose proof (mem_In t (map fst P)) as M.
  destruct (mem t (keys (transitions n'))); destruct (mem t (map fst P)); cbn [negb]; auto.
  - exfalso. apply H; auto. apply M. auto.
  - assert (~ In t (map fst P)) by (intros X; apply M in X; discriminate). apply H. auto.
Qed.
Lemma pruned_guard n P n1 n' t : wf n -> pruned n P n1 n' -> ~ In t (map fst P) -> guard_of n' t = guard_of n t.
Proof.
  intros W Pr Ht. pose proof (chain_along n P n1 W (pr_chain _ _ _ _ Pr)) as Al. unfold guard_of. rewrite (pr_trans _ _ _ _ Pr t Ht).
  destruct (dict_get t (transitions n)) as [tr|] eqn:Et.
  - destruct (a_attr _ _ _ Al t tr Et) as (tr1 & -> & _ & _ & A). auto.
  - destruct (dict_get t (transitions n1)) as [tr|] eqn:E1; [|auto]. exfalso. apply dict_get_Some_key in E1. rewrite (a_keys _ _ _ Al) in E1.
    apply dict_get_key in E1. destruct E1. congruence.
Qed.
Lemma pruned_able n P n1 n' st t : wf n -> pruned n P n1 n' -> able n' st [] t <-> able n st (map fst P) t.
Proof.
  intros W Pr. unfold able. rewrite (pr_has _ _ _ _ Pr). split.
  - intros ((H1 & H2) & H3 & _). rewrite (pruned_guard _ _ _ _ t W Pr H2) in H3. auto.
  - intros (H1 & H2 & H3). rewrite (pruned_guard _ _ _ _ t W Pr H3). cbn. tauto.
Qed.
Lemma pruned_run n P n1 n' st M l M1 : wf n -> pruned n P n1 n' ->
  run n' st M l M1 <-> arun (able n st (map fst P)) (starts n1) (ends n1) M l M1.
Proof.
  intros W Pr. rewrite run_arun. split; intros R; (eapply arun_impl; [exact R|]); intros t Ht;
    rewrite (pr_starts _ _ _ _ Pr), (pr_ends _ _ _ _ Pr); (split; [apply (pruned_able n P n1 n' st t W Pr); auto|auto]).
Qed.
Lemma pruned_tokens n P n1 n' p : wf n -> pruned n P n1 n' -> has_place n' p -> has_place n p /\ tokens n' p = tokens n p.
Proof.
  intros W Pr Hp. pose proof (a_places _ _ _ (chain_along n P n1 W (pr_chain _ _ _ _ Pr)) p) as A.
  pose proof (pr_places _ _ _ _ Pr p Hp) as E. unfold has_place, tokens. rewrite E. apply dict_get_key in Hp. destruct Hp as [pl Ep].
  destruct (dict_get p (places n)) as [pl0|] eqn:E0.
  - destruct A as (pl1 & E1 & _ & T). rewrite E1. split; [eapply dict_get_Some_key; eauto|auto].
  - rewrite E, A in Ep. discriminate.
Qed.
Lemma pruned_zero n P n1 n' M : wf n -> pruned n P n1 n' -> (forall p, bypassed n n' p -> M p = 0%Z) <-> zero P M.
Proof.
  intros W Pr. pose proof (chain_along n P n1 W (pr_chain _ _ _ _ Pr)) as Al. split.
  - intros H s Hs. apply in_map_iff in Hs. destruct Hs as ([t s'] & <- & Hin). cbn [snd]. destruct (a_pruned _ _ _ Al t s' Hin) as [Es (tr & Et & _)].
    apply H. exists t. split; [eapply dict_get_Some_key; eauto|]. split; [|rewrite Es; cbn; auto].
    rewrite (pr_has _ _ _ _ Pr). intros [_ Hn]. apply Hn. apply (in_map fst) in Hin. exact Hin.
  - intros Z p (t & Ht & Hn & Hp). rewrite (pr_has _ _ _ _ Pr) in Hn.
    destruct (in_dec string_dec t (map fst P)) as [Hin|Hin]; [|tauto].
    apply in_map_iff in Hin. destruct Hin as ([t' s] & <- & Hin). cbn [fst] in *. destruct (a_pruned _ _ _ Al t' s Hin) as [Es _].
    rewrite Es in Hp. destruct Hp as [<-|[]]. apply Z. apply (in_map snd) in Hin. exact Hin.
Qed.
Lemma pruned_clean n P n1 n' : wf n -> pruned n P n1 n' -> nothing_merged n n' -> clean n P n1.
Proof.
  intros W Pr NM. pose proof (chain_along n P n1 W (pr_chain _ _ _ _ Pr)) as Al. split.
  - intros u Hu Hn. rewrite <- (pr_ends _ _ _ _ Pr). apply (NM u Hu). apply (pr_has _ _ _ _ Pr). auto.
  - intros t Hin. assert (Hin' := Hin). apply in_map_iff in Hin. destruct Hin as ([t' s] & <- & Hin). cbn [fst] in *.
    destruct (a_pruned _ _ _ Al t' s Hin) as [Es (tr & Et & _)]. apply NM; [eapply dict_get_Some_key; eauto|].
    rewrite (pr_has _ _ _ _ Pr). tauto.
Qed.

Lemma C90_runs_aux : forall ord n st l M, built n -> any_order ord ->
  run n st (tokens n) l M <->
  (forall t, In t l -> has_transition n t /\ accept st (guard_of n t) = Ok true) /\
  exists n', forced ord n l n' /\ same_structure n n' /\ forall p, M p = tokens n' p.
Proof.
  intros ord n st l M B HO.
  assert (Same : forall n1, same_structure n n1 -> forall K l M, run n1 st K l M <-> run n st K l M).
  { intros n1 (ET & _). assert (F : forall K t K1, fires n1 st K t K1 <-> fires n st K t K1).
    { intros K t K1. unfold fires, has_transition, guard_of, starts, effect, starts, ends. rewrite ET. tauto. }
    intros K l0 M0. split; (induction 1 as [K K1 E|K t K2 l1 K1 Fr R IH]; [constructor; auto|econstructor; [apply F; exact Fr|exact IH]]). }
  assert (Ext : forall K K' l M, (forall p, K' p = K p) -> run n st K l M -> run n st K' l M).
  { intros K K' l0 M0 E R. apply run_arun. apply run_arun in R. eapply arun_ext; [exact R|exact E|]. intros p; auto. }
  assert (G : forall m, built m -> same_structure n m -> (run n st (tokens m) l M <->
     (forall t, In t l -> has_transition n t /\ accept st (guard_of n t) = Ok true) /\
     exists n', forced ord m l n' /\ same_structure m n' /\ forall p, M p = tokens n' p)).
  { induction l as [|t l IH]; intros m Bm Sm.
    - split.
      + intros R. inversion R as [? ? E|]; subst. split; [intros t []|]. exists m. split; [constructor|]. split; [apply same_refl|auto].
      + intros (_ & n' & F & _ & E). inversion F; subst. constructor. auto.
    - idtac.
      split.
      + intros R. inversion R as [|? ? M1 ? ? (F1 & F2 & F3 & F4) R1]; subst.
        assert (Hm : has_transition m t) by (unfold has_transition; destruct Sm as (-> & _); auto).
        destruct (force_transition ord t m) as [m1 r] eqn:Ef.
        assert (r = None).
        { assert (En : snd (force_transition ord t m) = None).
          { apply C51_fires_iff_enabled; auto. split; [auto|]. intros p Hp. apply F3. rewrite <- (same_starts n m t Sm). auto. }
          rewrite Ef in En. auto. }
        subst r. destruct (C51_effect ord m t m1 Bm HO Ef) as [S1 T1].
        assert (Bm1 : built m1) by (replace m1 with (fst (force_transition ord t m)) by (rewrite Ef; auto); apply b_force; auto).
        assert (R2 : run n st (tokens m1) l M).
        { eapply Ext; [|exact R1]. intros p. rewrite T1, F4. unfold effect. rewrite (same_starts n m t Sm), (same_ends n m t Sm). auto. }
        apply (IH m1 Bm1 (same_trans _ _ _ Sm S1)) in R2. destruct R2 as (A & n' & Fn & Sn & En). split.
        * intros u [<-|Hu]; auto.
        * exists n'. split; [econstructor; eauto|]. split; [eapply same_trans; eauto|auto].
      + intros (A & n' & Fn & Sn & En). inversion Fn as [|? ? m1 ? ? Ef Fl]; subst.
        assert (Ht : has_transition m t /\ enabled m t) by (apply (C51_fires_iff_enabled ord m t Bm HO); rewrite Ef; auto).
        destruct (C51_effect ord m t m1 Bm HO Ef) as [S1 T1].
        assert (Bm1 : built m1) by (replace m1 with (fst (force_transition ord t m)) by (rewrite Ef; auto); apply b_force; auto).
        apply (run_cons n st (tokens m) t (tokens m1) l M).
        * split; [apply A; cbn; auto|]. split; [apply A; cbn; auto|]. split.
          -- intros p Hp. apply Ht. rewrite (same_starts n m t Sm). auto.
          -- intros p. rewrite T1. unfold effect. rewrite (same_starts n m t Sm), (same_ends n m t Sm). auto.
        * apply (IH m1 Bm1 (same_trans _ _ _ Sm S1)). split; [intros u Hu; apply A; cbn; auto|].
          exists n'. split; [auto|]. split; [|auto].
          destruct S1 as (a1 & a2 & a3). destruct Sn as (b1 & b2 & b3). unfold same_structure. split; [congruence|]. split; congruence. }
  apply (G n B (same_refl n)).
Qed.

(** witnesses *)
Definition stored : store := [].
Definition merging : net := run_net [AddP "i" 1; AddP "s" 0; AddP "e" 0; AddP "o" 0; AddT "u"; AddI "t"; AddT "v";
  Conn "i" "u" "s"; Conn "i" "u" "e"; Conn "s" "t" "e"; Conn "e" "v" "o"].
Definition pending : net := run_net [AddP "i" 0; AddP "s" 1; AddP "e" 0; AddP "o" 0; AddT "u"; AddI "t"; AddT "v";
  Conn "i" "u" "s"; Conn "s" "t" "e"; Conn "e" "v" "o"].
Definition by_id (l : list string) : list string := l.
Lemma any_by_id : any_order by_id.
Proof. intros l. apply Permutation_refl. Qed.
Ltac forcing := repeat (eapply forced_cons; [vm_compute; reflexivity|]); apply forced_nil.
Ltac not_forced F := repeat match type of F with forced _ _ _ _ =>
    let E := fresh in let F' := fresh in inversion F as [|? ? ? ? ? E F']; subst; clear F; vm_compute in E;
    try discriminate E; injection E as <-; rename F' into F end.
Lemma no_run ord n st l : built n -> any_order ord -> (forall n', ~ forced ord n l n') -> ~ exists M, run n st (tokens n) l M.
Proof. intros B HO Hf [M R]. apply (C90_runs_aux ord n st l M B HO) in R. destruct R as (_ & n' & F & _). exact (Hf n' F). Qed.

(*P C90 Pruning *)
(** [prune] always succeeds. What remains keeps its label, visibility, guard
    and start places, gets no more end places, and every visible or guarded
    transition remains; a removed transition was invisible, unguarded and the
    only one behind its single start place, which was not a source. The places
    that remain are those at a remaining transition, with label and tokens as
    before. *)
Lemma C90_structure : forall ord n, built n -> any_order ord -> exists n', prune ord n = Ok n' /\ built n' /\ variables n' = variables n /\
  (forall t tr', dict_get t (transitions n') = Some tr' -> exists tr, dict_get t (transitions n) = Some tr /\
     t_label tr' = t_label tr /\ t_visible tr' = t_visible tr /\ t_guard tr' = t_guard tr /\ t_start tr' = t_start tr /\
     length (t_end tr') <= length (t_end tr)) /\
  (forall t tr, dict_get t (transitions n) = Some tr -> has_transition n' t \/
     (t_visible tr = false /\ t_guard tr = AcceptAlways /\ exists s, t_start tr = [s] /\ (forall u, In s (starts n u) -> u = t) /\
        ~ before_some n' s /\ ~ source n s)) /\
  (forall p, has_place n' p <-> before_some n' p \/ behind_some n' p) /\
  (forall p pl', dict_get p (places n') = Some pl' -> exists pl, dict_get p (places n) = Some pl /\ p_label pl' = p_label pl /\ p_tokens pl' = p_tokens pl).
Proof.
  intros ord n B HO. pose proof (built_wf n B) as W. destruct (prune_ok ord n HO W) as (P & n1 & n' & E & Pr).
  pose proof (chain_along n P n1 W (pr_chain _ _ _ _ Pr)) as Al.
  exists n'. split; [auto|]. split; [eapply b_prune; eauto|]. split; [apply Pr|]. split; [|split; [|split]].
  - intros t tr' Et. assert (Ht : has_transition n' t) by (eapply dict_get_Some_key; eauto). apply (pr_has _ _ _ _ Pr) in Ht. destruct Ht as [Ht Hn].
    apply dict_get_key in Ht. destruct Ht as [tr Er]. destruct (a_attr _ _ _ Al t tr Er) as (tr1 & E1 & A1 & A2 & A3).
    rewrite (pr_trans _ _ _ _ Pr t Hn) in Et. assert (tr1 = tr') by congruence. subst tr1. exists tr.
    split; [auto|]. split; [auto|]. split; [auto|]. split; [auto|].
    pose proof (a_starts _ _ _ Al t Hn) as S. pose proof (a_length _ _ _ Al t) as L. unfold starts, ends in S, L. rewrite E1, Er in S, L. auto.
  - intros t tr Et. destruct (in_dec string_dec t (map fst P)) as [Hp|Hp].
    + right. apply in_map_iff in Hp. destruct Hp as ([t' s] & <- & Hin). cbn [fst] in *. destruct (a_pruned _ _ _ Al t' s Hin) as [Es (tr1 & E1 & V & G)].
      assert (tr1 = tr) by congruence. subst tr1. split; [auto|]. split; [auto|]. exists s. unfold starts in Es. rewrite Et in Es.
      split; [auto|]. split; [|split; [|eapply pr_source; eauto]].
      * intros u Hu. exact (a_only _ _ _ Al t' s u Hin Hu).
      * intros [u Hu]. rewrite (pr_starts _ _ _ _ Pr) in Hu.
        destruct (in_dec string_dec u (map fst P)) as [Hq|Hq].
        -- destruct (a_gone _ _ _ Al u Hq) as [Eu _]. rewrite Eu in Hu. destruct Hu.
        -- rewrite (a_starts _ _ _ Al u Hq) in Hu. apply (a_only _ _ _ Al t' s u Hin) in Hu. subst u. apply Hq.
           apply (in_map fst) in Hin. exact Hin.
    + left. apply (pr_has _ _ _ _ Pr). split; [eapply dict_get_Some_key; eauto|auto].
  - apply (pr_place _ _ _ _ Pr).
  - intros p pl' Ep. assert (Hp : has_place n' p) by (eapply dict_get_Some_key; eauto).
    rewrite (pr_places _ _ _ _ Pr p Hp) in Ep. pose proof (a_places _ _ _ Al p) as A. destruct (dict_get p (places n)) as [pl|]; [|congruence].
    destruct A as (pl1 & E1 & A1 & A2). assert (pl1 = pl') by congruence. subst. exists pl. auto.
Qed.
(** A transition with one end place that is still redundant is not left over;
    so without merged places nothing redundant remains. *)
Lemma C90_complete : forall ord n n', built n -> any_order ord -> prune ord n = Ok n' ->
  forall t, length (ends n t) = 1 -> ~ redundant n' t.
Proof.
  intros ord n n' B HO E t Hl (tr & s & e & Et & Ev & Eg & Es & Ee & Hse & Ho & Hb).
  pose proof (built_wf n B) as W. destruct (prune_ok ord n HO W) as (P & n1 & n2 & E2 & Pr). assert (n2 = n') by congruence. subst n2. clear E2.
  assert (Ht : has_transition n' t) by (eapply dict_get_Some_key; eauto).
  destruct (pr_kept _ _ _ _ Pr t Ht) as (so & si & Pm & nm & trm & Ess & Cm & Etm & Ecan & L).
  pose proof (chain_along n P n1 W (pr_chain _ _ _ _ Pr)) as Al. pose proof (chain_along n Pm nm W Cm) as Am.
  apply (pr_has _ _ _ _ Pr) in Ht. destruct Ht as [Ht Hn]. rewrite (pr_trans _ _ _ _ Pr t Hn) in Et.
  apply dict_get_key in Ht. destruct Ht as [tr0 E0].
  destruct (a_attr _ _ _ Al t tr0 E0) as (x & Ex & X1 & X2 & X3). assert (x = tr) by congruence. subst x. clear Ex.
  destruct (a_attr _ _ _ Am t tr0 E0) as (x & Ex & Y1 & Y2 & Y3). assert (x = trm) by congruence. subst x. clear Ex.
  assert (Sm : starts nm t = [s]) by (rewrite <- (later_starts t nm n1 L); unfold starts; rewrite Et; auto).
  assert (Ln : length (ends nm t) = 1).
  { pose proof (later_length t nm n1 L) as L1. pose proof (a_length _ _ _ Am t) as L2. unfold ends in L1 at 1. rewrite Et, Ee in L1. cbn [length] in L1. lia. }
  destruct (ends nm t) as [|em [|]] eqn:Em; try discriminate.
  assert (Sm' : t_start trm = [s]) by (unfold starts in Sm; rewrite Etm in Sm; auto).
  assert (Em' : t_end trm = [em]) by (unfold ends in Em; rewrite Etm in Em; auto).
  destruct (can_be_pruned_false so si t trm nm s em (a_wf _ _ _ Am) Etm Ecan) as [Hloop|Hs]; auto; try congruence.
  - intros u Hu. apply Ho. rewrite (pr_starts _ _ _ _ Pr). apply (later_other t nm n1 s u L); [rewrite Sm; cbn; auto|auto].
  - subst em. assert (El : ends n1 t = [s]) by (apply (later_loop t nm n1 s L); [rewrite Sm; cbn; auto|auto]).
    unfold ends in El. rewrite Et, Ee in El. injection El as ->. contradiction.
  - apply (source_sink_ok n so si (w_trans n W) Ess) in Hs. destruct Hs as [_ Hs]. apply Hs.
    assert (Hb1 : behind_some n1 s).
    { destruct Hb as [u Hu]. exists u. rewrite <- (pr_ends _ _ _ _ Pr). auto. }
    apply (later_behind t nm n1 s L) in Hb1. clear - Cm Hb1. induction Cm as [|P nk t' s' e' n1 C IH Hn S]; [auto|]. apply IH. eapply step_behind; eauto.
Qed.
(** What a run is: forcing its transitions one after the other succeeds, and
    every guard accepts. *)
Lemma C90_runs : forall ord n st l M, built n -> any_order ord ->
  run n st (tokens n) l M <->
  (forall t, In t l -> has_transition n t /\ accept st (guard_of n t) = Ok true) /\
  exists n', forced ord n l n' /\ same_structure n n' /\ forall p, M p = tokens n' p.
Proof. exact C90_runs_aux. Qed.
(** If no end places of a transition were merged and no token lies on a place
    that goes, every run of the net is, without the removed transitions, a run
    of the pruned net; it ends in the same marking when no token is left on a
    place that went. *)
Lemma C90_runs_kept : forall ord n n' st l M, built n -> any_order ord -> prune ord n = Ok n' ->
  nothing_merged n n' -> (forall p, bypassed n n' p -> tokens n p = 0%Z) ->
  run n st (tokens n) l M ->
  exists M', run n' st (tokens n') (restrict n' l) M' /\
    ((forall p, bypassed n n' p -> M p = 0%Z) -> forall p, has_place n' p -> M' p = M p).
Proof.
  intros ord n n' st l M B HO E NM Z R. pose proof (built_wf n B) as W.
  destruct (prune_ok ord n HO W) as (P & n1 & n2 & E2 & Pr). assert (n2 = n') by congruence. subst n2. clear E2.
  rewrite (restrict_keep n P n1 n' l Pr (run_has _ _ _ _ _ R)).
  destruct (chain_runs n st W P n1 (pr_chain _ _ _ _ Pr) (pruned_clean _ _ _ _ W Pr NM)) as [F _].
  apply run_arun in R. destruct (F (tokens n) l M) as (K & RK & EK & _); auto.
  { apply (pruned_zero n P n1 n'); auto. }
  { intros p. apply tokens_nonneg; auto. }
  destruct (arun_shift _ _ _ (has_place n') (tokens n) _ K (tokens n') RK) as (K1 & R1 & E1).
  { intros t p _ Hp. rewrite <- (pr_starts _ _ _ _ Pr) in Hp. apply (pr_place _ _ _ _ Pr). left. exists t. auto. }
  { intros p Hp. apply (pruned_tokens n P n1 n' p W Pr Hp). }
  exists K1. split; [apply (pruned_run n P n1 n' st _ _ _ W Pr); auto|].
  intros ZM p Hp. rewrite E1 by auto. apply EK. apply (pruned_zero n P n1 n' M W Pr). auto.
Qed.
(** Conversely every run of the pruned net is a run of the net, with removed
    transitions put in, to the same marking. *)
Lemma C90_runs_new : forall ord n n' st l' M', built n -> any_order ord -> prune ord n = Ok n' ->
  nothing_merged n n' -> (forall p, bypassed n n' p -> tokens n p = 0%Z) ->
  run n' st (tokens n') l' M' ->
  exists l M, run n st (tokens n) l M /\ restrict n' l = l' /\ (forall p, has_place n' p -> M p = M' p) /\
    forall p, bypassed n n' p -> M p = 0%Z.
Proof.
  intros ord n n' st l' M' B HO E NM Z R. pose proof (built_wf n B) as W.
  destruct (prune_ok ord n HO W) as (P & n1 & n2 & E2 & Pr). assert (n2 = n') by congruence. subst n2. clear E2.
  destruct (chain_runs n st W P n1 (pr_chain _ _ _ _ Pr) (pruned_clean _ _ _ _ W Pr NM)) as [_ Bk].
  apply (pruned_run n P n1 n' st _ _ _ W Pr) in R.
  destruct (arun_shift _ _ _ (has_place n') (tokens n') _ M' (tokens n) R) as (K1 & R1 & E1).
  { intros t p _ Hp. rewrite <- (pr_starts _ _ _ _ Pr) in Hp. apply (pr_place _ _ _ _ Pr). left. exists t. auto. }
  { intros p Hp. symmetry. apply (pruned_tokens n P n1 n' p W Pr Hp). }
  destruct (Bk (tokens n) l' K1) as (m & Rm & Em & Zm); auto.
  { apply (pruned_zero n P n1 n'); auto. }
  { intros p. apply tokens_nonneg; auto. }
  apply run_arun in Rm. exists m, K1. split; [auto|]. split; [rewrite (restrict_keep n P n1 n' m Pr (run_has _ _ _ _ _ Rm)); auto|].
  split; [auto|]. apply (pruned_zero n P n1 n' K1 W Pr). auto.
Qed.
(** Where end places are merged, a run can be lost: two tokens in the same
    place become one. *)
Lemma C90_merged_witness : exists ord n n' st l M, built n /\ any_order ord /\ prune ord n = Ok n' /\
  (forall p, bypassed n n' p -> tokens n p = 0%Z) /\ run n st (tokens n) l M /\
  ~ exists M', run n' st (tokens n') (restrict n' l) M'.
Proof.
  exists by_id, merging. destruct (C90_structure by_id merging (run_built _) any_by_id) as (n' & E & B' & _).
  exists n', stored, ["u"; "t"; "v"; "v"].
  assert (F : exists m, forced by_id merging ["u"; "t"; "v"; "v"] m /\ same_structure merging m).
  { eexists. split; [forcing|]. vm_compute. auto. }
  destruct F as (m & F & S). exists (tokens m). split; [apply run_built|]. split; [exact any_by_id|]. split; [auto|].
  vm_compute in E. injection E as <-. split; [|split].
  - intros p (t & Ht & Hn & Hp). unfold has_transition in *. vm_compute in Ht, Hn. destruct Ht as [<-|[<-|[<-|[]]]]; try (exfalso; apply Hn; auto; fail).
    vm_compute in Hp. destruct Hp as [<-|[]]. reflexivity.
  - apply (C90_runs_aux by_id); [apply run_built|exact any_by_id|]. split; [|exists m; auto].
    intros t Ht. cbn [In] in Ht. destruct Ht as [<-|[<-|[<-|[<-|[]]]]]; (split; [vm_compute; auto|reflexivity]).
  - apply (no_run by_id); [exact B'|exact any_by_id|]. intros n2 F2. unfold restrict in F2. vm_compute in F2. not_forced F2.
Qed.
(** A token on a place that goes is lost. *)
Lemma C90_tokens_witness : exists ord n n' st l M, built n /\ any_order ord /\ prune ord n = Ok n' /\
  nothing_merged n n' /\ run n st (tokens n) l M /\
  ~ exists M', run n' st (tokens n') (restrict n' l) M'.
Proof.
  exists by_id, pending. destruct (C90_structure by_id pending (run_built _) any_by_id) as (n' & E & B' & _).
  exists n', stored, ["t"; "v"].
  assert (F : exists m, forced by_id pending ["t"; "v"] m /\ same_structure pending m).
  { eexists. split; [forcing|]. vm_compute. auto. }
  destruct F as (m & F & S). exists (tokens m). split; [apply run_built|]. split; [exact any_by_id|]. split; [auto|].
  vm_compute in E. injection E as <-. split; [|split].
  - intros t Ht. unfold has_transition in *. vm_compute in Ht. destruct Ht as [<-|[<-|[<-|[]]]]; vm_compute; (split; [intros Hx; repeat (destruct Hx as [Hx|Hx]; try discriminate Hx; auto); destruct Hx|auto]).
  - apply (C90_runs_aux by_id); [apply run_built|exact any_by_id|]. split; [|exists m; auto].
    intros t Ht. cbn [In] in Ht. destruct Ht as [<-|[<-|[]]]; (split; [vm_compute; auto|reflexivity]).
  - apply (no_run by_id); [exact B'|exact any_by_id|]. intros n2 F2. unfold restrict in F2. vm_compute in F2. not_forced F2.
Qed.
