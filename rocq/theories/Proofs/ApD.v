(** Activity patterns, part 4: words of connected nets *)
From Coq Require Import String ZArith Permutation.
From Verif.Model Require Import Base PetriNet ActivityPattern.
From Verif.Spec Require Import PetriSpec ActivityPatternSpec.
From Verif.Lib Require Import ListLib DictLib.
From Verif.Proofs Require Import PetriA PetriC PetriD ApA ApB ApC.
Open Scope string_scope.
Open Scope list_scope.
Open Scope nat_scope.

Lemma shuffle_left {X} (x u v w : list X) : shuffle u v w -> shuffle (x ++ u) v (x ++ w).
Proof. intros H. induction x; cbn; [auto|constructor; auto]. Qed.
Lemma shuffle_right {X} (x u v w : list X) : shuffle u v w -> shuffle u (x ++ v) (x ++ w).
Proof. intros H. induction x; cbn; [auto|constructor; auto]. Qed.
Lemma shuffle_nil_r {X} (u w : list X) : shuffle u [] w -> w = u.
Proof. remember [] as v. induction 1; auto; [f_equal; auto|discriminate]. Qed.
Lemma shuffle_nil_l {X} (u w : list X) : shuffle [] u w -> w = u.
Proof. remember [] as v. induction 1; auto; [discriminate|f_equal; auto]. Qed.
Lemma shuffle_In {X} (u v w : list X) x : shuffle u v w -> In x w <-> In x u \/ In x v.
Proof. induction 1; cbn; tauto. Qed.

(** 1 where [P] holds *)
Definition marks (P : string -> Prop) (M : mark) : Prop := forall q, (P q /\ M q = 1%Z) \/ (~ P q /\ M q = 0%Z).
Lemma marks_one x : marks (fun q => q = x) (one_at x).
Proof. intros q. unfold one_at. destruct (eqb_ok q x); [left|right]; auto. Qed.
Lemma marks_two x y : x <> y -> marks (fun q => q = x \/ q = y) (fun q => one_at x q + one_at y q)%Z.
Proof.
  intros N q. unfold one_at. destruct (eqb_ok q x), (eqb_ok q y); subst; try congruence; [left|left|right]; split; auto; try lia. tauto.
Qed.
Lemma marks_iff (P Q : string -> Prop) M : marks P M -> (forall q, P q <-> Q q) -> marks Q M.
Proof. intros H E q. rewrite <- E. apply H. Qed.
Lemma marks_ind (P : string -> Prop) M l : marks P M -> (forall q, In q l <-> P q) -> forall q, ind l q = M q.
Proof. intros H E q. rewrite ind_mem_In. destruct (H q) as [[Hp ->]|[Hp ->]]; destruct in_dec as [Hi|Hi]; auto; exfalso; [apply Hi, E|apply Hp, E]; auto. Qed.

Section Words.
  Variables (R : net) (cs : list comp) (X G : string -> Prop) (pre post : string -> string -> Prop).
  Hypothesis L : linked R cs X G pre post.
  Let K := l_k _ _ _ _ _ _ L.
  Lemma owner_glue c t : In c cs -> X t -> owner (c_net c) (c_t c) t = None.
  Proof. intros Hc Hx. apply owner_None. intros u Hu E. symmetry in E. revert E. eapply (k_xt _ _ _ _ _ _ K); eauto. Qed.
  Lemma owner_other c d u : In c cs -> In d cs -> has_transition (c_net d) u -> c <> d -> owner (c_net c) (c_t c) (c_t d u) = None.
  Proof.
    intros Hc Hd Hu N. apply owner_None. intros v Hv E. apply N. eapply (k_same_t _ _ _ _ _ _ K c d v u); eauto.
  Qed.
  Lemma owner_own c u : In c cs -> has_transition (c_net c) u -> owner (c_net c) (c_t c) (c_t c u) = Some u.
  Proof. intros Hc Hu. eapply owner_image; eauto. apply (k_in _ _ _ _ _ _ K c Hc). Qed.
  Lemma l_enters c t z : In c cs -> has_transition R t ->
    (post t (c_p c (c_i c)) /\ z = 1%Z) \/ (~ post t (c_p c (c_i c)) /\ z = 0%Z) -> enters (c_net c) R (c_p c) (c_t c) (c_i c) t = z.
  Proof.
    intros Hc Ht Hz. apply (k_t _ _ _ _ _ _ K) in Ht. unfold enters. destruct Ht as [Hx|(d & u & Hd & Hu & ->)].
    - rewrite (owner_glue c t Hc Hx), ind_mem_In. pose proof (k_post _ _ _ _ _ _ K t (c_p c (c_i c)) Hx) as E.
      destruct in_dec; destruct Hz as [[? ->]|[? ->]]; auto; exfalso; tauto.
    - assert (Np : ~ post (c_t d u) (c_p c (c_i c))).
      { intros Hp. apply (k_postx _ _ _ _ _ _ K) in Hp. eapply (k_xt _ _ _ _ _ _ K); eauto. }
      destruct Hz as [[? _]|[_ ->]]; [contradiction|]. destruct (owner (c_net c) (c_t c) (c_t d u)) eqn:Eo; [auto|].
      rewrite ind_mem_In. destruct in_dec as [Hi|]; [|auto]. exfalso. pose proof (k_in _ _ _ _ _ _ K d Hd) as I.
      apply (in_ends _ _ _ _ I) in Hi; [|auto]. destruct Hi as (q & Hq & E).
      destruct (k_same_p _ _ _ _ _ _ K c d (c_i c) q) as [<- _]; auto.
      + eapply l_ip; eauto.
      + eapply w_ep; [eapply l_wf; eauto|eauto].
      + rewrite owner_own in Eo by auto. discriminate.
  Qed.
  Lemma l_leaves c t z : In c cs -> has_transition R t ->
    (pre t (c_p c (c_o c)) /\ z = 1%Z) \/ (~ pre t (c_p c (c_o c)) /\ z = 0%Z) -> leaves (c_net c) R (c_p c) (c_t c) (c_o c) t = z.
  Proof.
    intros Hc Ht Hz. apply (k_t _ _ _ _ _ _ K) in Ht. unfold leaves. destruct Ht as [Hx|(d & u & Hd & Hu & ->)].
    - rewrite (owner_glue c t Hc Hx), ind_mem_In. pose proof (k_pre _ _ _ _ _ _ K t (c_p c (c_o c)) Hx) as E.
      destruct in_dec; destruct Hz as [[? ->]|[? ->]]; auto; exfalso; tauto.
    - assert (Np : ~ pre (c_t d u) (c_p c (c_o c))).
      { intros Hp. apply (k_prex _ _ _ _ _ _ K) in Hp. eapply (k_xt _ _ _ _ _ _ K); eauto. }
      destruct Hz as [[? _]|[_ ->]]; [contradiction|]. destruct (owner (c_net c) (c_t c) (c_t d u)) eqn:Eo; [auto|].
      rewrite ind_mem_In. destruct in_dec as [Hi|]; [|auto]. exfalso. pose proof (k_in _ _ _ _ _ _ K d Hd) as I.
      apply (in_starts _ _ _ _ I) in Hi; [|auto]. destruct Hi as (q & Hq & E).
      destruct (k_same_p _ _ _ _ _ _ K c d (c_o c) q) as [<- _]; auto.
      + eapply l_op; eauto.
      + eapply w_sp; [eapply l_wf; eauto|eauto].
      + rewrite owner_own in Eo by auto. discriminate.
  Qed.
  Lemma l_effect q t z y : G q -> has_transition R t ->
    (post t q /\ z = 1%Z) \/ (~ post t q /\ z = 0%Z) -> (pre t q /\ y = 1%Z) \/ (~ pre t q /\ y = 0%Z) -> effect R t q = (z - y)%Z.
  Proof.
    intros Hg Ht Hz Hy. rewrite effect_ind, !ind_mem_In. apply (k_t _ _ _ _ _ _ K) in Ht. destruct Ht as [Hx|(d & u & Hd & Hu & ->)].
    - pose proof (k_pre _ _ _ _ _ _ K t q Hx) as E1. pose proof (k_post _ _ _ _ _ _ K t q Hx) as E2.
      f_equal; [|f_equal]; destruct in_dec; intuition.
    - pose proof (k_in _ _ _ _ _ _ K d Hd) as I. 
      assert (N1 : ~ In q (ends R (c_t d u))).
      { intros Hi. apply (in_ends _ _ _ _ I) in Hi; [|auto]. destruct Hi as (p & Hp & E).
        eapply (k_gp _ _ _ _ _ _ K q d p); eauto. eapply w_ep; [eapply l_wf; eauto|eauto]. }
      assert (N2 : ~ In q (starts R (c_t d u))).
      { intros Hi. apply (in_starts _ _ _ _ I) in Hi; [|auto]. destruct Hi as (p & Hp & E).
        eapply (k_gp _ _ _ _ _ _ K q d p); eauto. eapply w_sp; [eapply l_wf; eauto|eauto]. }
      assert (Nx : ~ X (c_t d u)) by (intros Hx; eapply (k_xt _ _ _ _ _ _ K); eauto).
      destruct Hz as [[Hp _]|[_ ->]]; [apply (k_postx _ _ _ _ _ _ K) in Hp; contradiction|].
      destruct Hy as [[Hp _]|[_ ->]]; [apply (k_prex _ _ _ _ _ _ K) in Hp; contradiction|].
      do 2 (destruct in_dec; [contradiction|]). auto.
  Qed.
  Lemma l_guard t st : X t -> accept st (guard_of R t) = Ok true.
  Proof. intros Hx. destruct (k_glue _ _ _ _ _ _ K t Hx) as (tr & E & _ & Eg). unfold guard_of. rewrite E, Eg. auto. Qed.
  (** a further transition moves the tokens of its preset to its postset *)
  Lemma glue_run t st P Q : X t -> marks (pre t) P -> marks (post t) Q -> run R st P [t] Q.
  Proof.
    intros Hx HP HQ. pose proof (marks_ind _ _ _ HP (fun q => k_pre _ _ _ _ _ _ K t q Hx)) as E1.
    pose proof (marks_ind _ _ _ HQ (fun q => k_post _ _ _ _ _ _ K t q Hx)) as E2.
    apply run_cons with (M1 := Q); [|constructor; auto]. split; [apply (k_t _ _ _ _ _ _ K); auto|]. split; [apply l_guard; auto|]. split.
    - intros p Hp. apply (k_pre _ _ _ _ _ _ K) in Hp; [|auto]. destruct (HP p) as [[_ ->]|[? _]]; [lia|contradiction].
    - intros p. rewrite effect_ind, E1, E2. lia.
  Qed.
  (** a run of one of the nets is a run of the whole *)
  Lemma lift_whole c st x y l : In c cs -> has_place (c_net c) x -> has_place (c_net c) y ->
    run (c_net c) st (one_at x) l (one_at y) -> run R st (one_at (c_p c x)) (map (c_t c) l) (one_at (c_p c y)).
  Proof.
    intros Hc Hx Hy H. pose proof (k_in _ _ _ _ _ _ K c Hc) as I.
    assert (A : forall z, has_place (c_net c) z -> forall p, has_place (c_net c) p -> one_at (c_p c z) (c_p c p) = one_at z p).
    { intros z Hz p Hp. unfold one_at. destruct (eqb_ok (c_p c p) (c_p c z)) as [E|N].
      - apply (in_pinj _ _ _ _ I) in E; auto. subst. rewrite eqb_refl. auto.
      - destruct (eqb_ok p z) as [->|]; [contradiction|auto]. }
    destruct (lift_run _ _ _ _ _ _ _ _ (one_at (c_p c x)) I H (A x Hx)) as (K1 & R1 & A1 & U1).
    eapply run_ext; [exact R1|auto|]. intros q. destruct (image_dec (c_net c) (c_p c) q) as [(p & Hp & ->)|N].
    - rewrite A1, A by auto. auto.
    - rewrite U1, !one_at_other by auto. auto.
  Qed.
  (** what a run of the whole is to one of the nets *)
  Lemma project c st M l M1 zi zo : In c cs -> run R st M l M1 ->
    (forall p, view (c_net c) (c_p c) M p = 0%Z) -> (forall p, view (c_net c) (c_p c) M1 p = 0%Z) ->
    sum (enters (c_net c) R (c_p c) (c_t c) (c_i c)) l = zi -> sum (leaves (c_net c) R (c_p c) (c_t c) (c_o c)) l = zo ->
    run (c_net c) st (fun p => zi * one_at (c_i c) p)%Z (proj (c_net c) (c_t c) l) (fun p => zo * one_at (c_o c) p)%Z.
  Proof.
    intros Hc H V1 V2 <- <-. pose proof (proj_run _ _ _ _ _ _ _ _ _ _ (k_in _ _ _ _ _ _ K c Hc) (l_gates _ _ _ _ _ _ L c Hc) H) as H'.
    eapply run_ext; [exact H'|..]; intros p; cbv beta; rewrite ?V1, ?V2; lia.
  Qed.
  Lemma view_one c x : (forall p, has_place (c_net c) p -> c_p c p <> x) -> forall p, view (c_net c) (c_p c) (one_at x) p = 0%Z.
  Proof.
    intros H p. unfold view. destruct (mem p (keys (places (c_net c)))) eqn:E; [|auto]. apply mem_In in E. apply one_at_other. auto.
  Qed.
  Lemma view_own c x : In c cs -> has_place (c_net c) x -> forall p, view (c_net c) (c_p c) (one_at (c_p c x)) p = one_at x p.
  Proof.
    intros Hc Hx p. unfold view. destruct (mem p (keys (places (c_net c)))) eqn:E.
    - apply mem_In in E. unfold one_at. destruct (eqb_ok (c_p c p) (c_p c x)) as [Ep|N].
      + apply (in_pinj _ _ _ _ (k_in _ _ _ _ _ _ K c Hc)) in Ep; auto. subst. rewrite eqb_refl. auto.
      + destruct (eqb_ok p x) as [->|]; [contradiction|auto].
    - symmetry. apply one_at_other. intros ->. apply mem_In in Hx. congruence.
  Qed.
  Lemma sum_const0 f l : Forall (has_transition R) l -> (forall t, has_transition R t -> f t = 0%Z) -> sum f l = 0%Z.
  Proof. intros F H. rewrite (sum_ext f (fun _ => 0%Z)); [apply sum_0|]. intros t Ht. apply H. rewrite Forall_forall in F. auto. Qed.
  Lemma sum_as f g l : Forall (has_transition R) l -> (forall t, has_transition R t -> f t = g t) -> sum f l = sum g l.
  Proof. intros F H. apply sum_ext. intros t Ht. apply H. rewrite Forall_forall in F. auto. Qed.

  (** letters *)
  Variables (names : dict string string).
  Let P := Pattern R names.
  Lemma spell_glue t : X t -> spell P t = [].
  Proof. intros Hx. destruct (k_glue _ _ _ _ _ _ K t Hx) as (tr & E & V & _). unfold spell. cbn. rewrite E, V. auto. Qed.
  Lemma spell_comp c p u : In c cs -> pnet p = c_net c -> spelled names c p -> has_transition (c_net c) u -> spell P (c_t c u) = spell p u.
  Proof.
    intros Hc Ep Sp Hu. destruct (dict_get_key _ _ Hu) as [tr E]. destruct (k_letter _ _ _ _ _ _ K c u tr Hc E) as (tr' & E' & El & Ev).
    unfold spell. cbn. rewrite Ep, E, E', El, Ev. destruct (t_visible tr) eqn:V; [|auto]. rewrite (Sp u tr); [auto|rewrite Ep; auto|auto].
  Qed.
  Lemma letters_map c p l : In c cs -> pnet p = c_net c -> spelled names c p -> Forall (has_transition (c_net c)) l ->
    letters P (map (c_t c) l) = letters p l.
  Proof.
    intros Hc Ep Sp F. induction F as [|u l Hu F IH]; cbn; [auto|]. unfold letters in IH. rewrite IH, (spell_comp c p u); auto.
  Qed.
  Lemma letters_one c p l : In c cs -> pnet p = c_net c -> spelled names c p -> Forall (has_transition R) l ->
    (forall d, In d cs -> d <> c -> proj (c_net d) (c_t d) l = []) -> letters P l = letters p (proj (c_net c) (c_t c) l).
  Proof.
    intros Hc Ep Sp F H. induction F as [|t l Ht F IH]; [auto|]. cbn [proj flat_map letters]. fold (letters P l). fold (proj (c_net c) (c_t c) l).
    assert (IH' : letters P l = letters p (proj (c_net c) (c_t c) l)).
    { apply IH. intros d Hd Hn. specialize (H d Hd Hn). rewrite proj_nil in *. intros x Hx. apply H. cbn. auto. }
    apply (k_t _ _ _ _ _ _ K) in Ht. destruct Ht as [Hx|(d & u & Hd & Hu & ->)].
    - rewrite (spell_glue t Hx), (owner_glue c t Hc Hx). auto.
    - destruct (Nat.eq_dec (c_nr c) (c_nr d)) as [En|En].
      + assert (E : c = d \/ c <> d).
        { destruct (owner (c_net c) (c_t c) (c_t d u)) as [v|] eqn:Eo.
          - left. apply owner_Some in Eo. destruct Eo as [Hv Ev]. eapply (k_same_t _ _ _ _ _ _ K); eauto.
          - right. intros <-. rewrite owner_own in Eo by auto. discriminate. }
        destruct E as [<-|Nd].
        * rewrite owner_own, (spell_comp c p u) by auto. cbn [app]. unfold letters in *. cbn [flat_map]. rewrite IH'. auto.
        * exfalso. specialize (H d Hd (fun e => Nd (eq_sym e))). rewrite proj_nil in H.
          specialize (H (c_t d u) (or_introl eq_refl)). rewrite owner_own in H by auto. discriminate.
      + exfalso. assert (Nd : d <> c) by congruence. specialize (H d Hd Nd). rewrite proj_nil in H.
        specialize (H (c_t d u) (or_introl eq_refl)). rewrite owner_own in H by auto. discriminate.
  Qed.
End Words.

(** two nets *)
Section Two.
  Variables (R : net) (A B : comp) (X G : string -> Prop) (pre post : string -> string -> Prop).
  Hypothesis L : linked R [A; B] X G pre post.
  Hypothesis AB : c_nr A <> c_nr B.
  Let K := l_k _ _ _ _ _ _ L.
  Lemma inA : In A [A; B]. Proof. cbn; auto. Qed.
  Lemma inB : In B [A; B]. Proof. cbn; auto. Qed.
  Lemma AneB : A <> B. Proof. intros E. apply AB. rewrite E. auto. Qed.
  Lemma apart_p p q : has_place (c_net A) p -> has_place (c_net B) q -> c_p A p <> c_p B q.
  Proof. intros Hp Hq E. apply AneB. eapply (k_same_p _ _ _ _ _ _ K A B p q); eauto; [apply inA|apply inB]. Qed.
  Variables (names : dict string string) (a b : pattern).
  Hypothesis (Ea : pnet a = c_net A) (Sa : spelled names A a) (Eb : pnet b = c_net B) (Sb : spelled names B b).
  Let P := Pattern R names.
  Lemma letters_two l : Forall (has_transition R) l ->
    shuffle (letters a (proj (c_net A) (c_t A) l)) (letters b (proj (c_net B) (c_t B) l)) (letters P l).
  Proof.
    intros F. induction F as [|t l Ht F IH]; [constructor|]. cbn [proj flat_map letters]. fold (letters P l).
    fold (proj (c_net A) (c_t A) l) (proj (c_net B) (c_t B) l). apply (k_t _ _ _ _ _ _ K) in Ht. destruct Ht as [Hx|(d & u & Hd & Hu & ->)].
    - unfold P. rewrite (spell_glue _ _ _ _ _ _ L), (owner_glue _ _ _ _ _ _ L A), (owner_glue _ _ _ _ _ _ L B); auto using inA, inB.
    - destruct Hd as [<-|[<-|[]]].
      + unfold P. rewrite (owner_own _ _ _ _ _ _ L A), (owner_other _ _ _ _ _ _ L B A), (spell_comp _ _ _ _ _ _ L names A a); auto using inA, inB.
        * cbn [app]. unfold letters. cbn [flat_map]. apply shuffle_left. exact IH.
        * intros E. apply AneB. auto.
      + unfold P. rewrite (owner_own _ _ _ _ _ _ L B), (owner_other _ _ _ _ _ _ L A B), (spell_comp _ _ _ _ _ _ L names B b); auto using inA, inB, AneB.
        cbn [app]. unfold letters. cbn [flat_map]. apply shuffle_right. exact IH.
  Qed.
  Lemma letters_A l : Forall (has_transition R) l -> proj (c_net B) (c_t B) l = [] -> letters P l = letters a (proj (c_net A) (c_t A) l).
  Proof. intros F E. pose proof (letters_two l F) as H. rewrite E in H. apply shuffle_nil_r in H. auto. Qed.
  Lemma letters_B l : Forall (has_transition R) l -> proj (c_net A) (c_t A) l = [] -> letters P l = letters b (proj (c_net B) (c_t B) l).
  Proof. intros F E. pose proof (letters_two l F) as H. rewrite E in H. apply shuffle_nil_l in H. auto. Qed.
  (** runs of both at the same time *)
  Lemma lift_shuffle st M1 l1 M1' M2 l2 M2' l Q : shuffle (map (c_t A) l1) (map (c_t B) l2) l ->
    run (c_net A) st M1 l1 M1' -> run (c_net B) st M2 l2 M2' ->
    (forall p, has_place (c_net A) p -> Q (c_p A p) = M1 p) -> (forall p, has_place (c_net B) p -> Q (c_p B p) = M2 p) ->
    exists Q', run R st Q l Q' /\ (forall p, has_place (c_net A) p -> Q' (c_p A p) = M1' p) /\ (forall p, has_place (c_net B) p -> Q' (c_p B p) = M2' p) /\
      forall q, (forall p, has_place (c_net A) p -> q <> c_p A p) -> (forall p, has_place (c_net B) p -> q <> c_p B p) -> Q' q = Q q.
  Proof.
    intros S. remember (map (c_t A) l1) as u eqn:Eu. remember (map (c_t B) l2) as v eqn:Ev. revert l1 l2 Eu Ev M1 M2 Q.
    induction S as [|x u v w S IH|x u v w S IH]; intros l1 l2 Eu Ev M1 M2 Q R1 R2 H1 H2.
    - destruct l1; [|discriminate]. destruct l2; [|discriminate]. exists Q. split; [constructor; auto|].
      pose proof (run_nil_inv _ _ _ _ R1) as N1. pose proof (run_nil_inv _ _ _ _ R2) as N2.
      split; [intros; rewrite N1; auto|]. split; [intros; rewrite N2; auto|auto].
    - destruct l1 as [|t l1]; [discriminate|]. cbn in Eu. injection Eu as -> ->. apply run_cons_inv in R1. destruct R1 as (N1 & F & R1).
      destruct (lift_fires _ _ _ _ _ _ _ _ Q (k_in _ _ _ _ _ _ K A inA) F H1) as (Q1 & F' & A1 & U1).
      destruct (IH l1 l2 eq_refl Ev N1 M2 Q1 R1 R2 A1) as (Q2 & G1 & G2 & G3 & G4).
      { intros p Hp. rewrite U1; [auto|]. intros q Hq E. symmetry in E. eapply apart_p; eauto. }
      exists Q2. split; [econstructor; eauto|]. split; [auto|]. split; [auto|]. intros q Hq1 Hq2. rewrite G4, U1; auto.
    - destruct l2 as [|t l2]; [discriminate|]. cbn in Ev. injection Ev as -> ->. apply run_cons_inv in R2. destruct R2 as (N2 & F & R2).
      destruct (lift_fires _ _ _ _ _ _ _ _ Q (k_in _ _ _ _ _ _ K B inB) F H2) as (Q1 & F' & A1 & U1).
      destruct (IH l1 l2 Eu eq_refl M1 N2 Q1 R1 R2) as (Q2 & G1 & G2 & G3 & G4); auto.
      { intros p Hp. rewrite U1; [auto|]. intros q Hq E. eapply apart_p; eauto. }
      exists Q2. split; [econstructor; eauto|]. split; [auto|]. split; [auto|]. intros q Hq1 Hq2. rewrite G4, U1; auto.
  Qed.
  (** a shuffle of words comes from a shuffle of runs *)
  Lemma spell_small p t : spell p t = [] \/ exists x, spell p t = [x].
  Proof. unfold spell. destruct dict_get; [|auto]. destruct t_visible; eauto. Qed.
  Lemma words_shuffle l1 : forall l2 w, Forall (has_transition (c_net A)) l1 -> Forall (has_transition (c_net B)) l2 ->
    shuffle (letters a l1) (letters b l2) w -> exists l, shuffle (map (c_t A) l1) (map (c_t B) l2) l /\ letters P l = w.
  Proof.
    assert (SA : forall t, has_transition (c_net A) t -> spell P (c_t A t) = spell a t) by (intros; eapply spell_comp; eauto using inA).
    assert (SB : forall t, has_transition (c_net B) t -> spell P (c_t B t) = spell b t) by (intros; eapply spell_comp; eauto using inB).
    induction l1 as [|t l1 IH1].
    - intros l2 w _ F H. apply shuffle_nil_l in H. subst w. exists (map (c_t B) l2). split.
      + clear. induction l2; cbn; constructor; auto.
      + eapply letters_map; eauto using inB.
    - intros l2. induction l2 as [|u l2 IH2]; intros w F1 F2 H.
      + apply shuffle_nil_r in H. subst w. exists (map (c_t A) (t :: l1)). split.
        * clear. induction (t :: l1); cbn; constructor; auto.
        * eapply letters_map; eauto using inA.
      + inversion F1 as [|? ? T1 F1']; subst. inversion F2 as [|? ? U2 F2']; subst.
        destruct (spell_small a t) as [Et|[x Et]].
        { cbn [letters flat_map] in H. rewrite Et in H. cbn [app] in H. destruct (IH1 (u :: l2) w F1' F2 H) as (l & S & E).
          exists (c_t A t :: l). split; [cbn; constructor; auto|]. cbn. rewrite SA, Et by auto. exact E. }
        destruct (spell_small b u) as [Eu|[y Eu]].
        { cbn [letters flat_map] in H. rewrite Eu in H. cbn [app] in H. destruct (IH2 w F1 F2' H) as (l & S & E).
          exists (c_t B u :: l). split; [cbn; constructor; auto|]. cbn. rewrite SB, Eu by auto. exact E. }
        cbn [letters flat_map] in H. rewrite Et, Eu in H. cbn [app] in H. inversion H as [|? ? ? w' H'|? ? ? w' H']; subst.
        * destruct (IH1 (u :: l2) w' F1' F2) as (l & S & E).
          { cbn [letters flat_map]. rewrite Eu. exact H'. }
          exists (c_t A t :: l). split; [cbn; constructor; auto|]. cbn. rewrite SA, Et by auto. cbn. f_equal. exact E.
        * destruct (IH2 w' F1 F2') as (l & S & E).
          { cbn [letters flat_map]. rewrite Et. exact H'. }
          exists (c_t B u :: l). split; [cbn; constructor; auto|]. cbn. rewrite SB, Eu by auto. cbn. f_equal. exact E.
  Qed.
End Two.
