(** Activity patterns, part 7: the words of repetitions and interleavings *)
From Coq Require Import String ZArith Permutation.
From Verif.Model Require Import Base PetriNet ActivityPattern.
From Verif.Spec Require Import PetriSpec ActivityPatternSpec.
From Verif.Lib Require Import ListLib DictLib.
From Verif.Proofs Require Import PetriA PetriC PetriD ApA ApB ApC ApD ApE ApF.
Open Scope string_scope.
Open Scope list_scope.
Open Scope nat_scope.

Section Own.
  Variables (R : net) (cs : list comp) (X G : string -> Prop) (pre post : string -> string -> Prop).
  Hypothesis L : linked R cs X G pre post.
  Let K := l_k _ _ _ _ _ _ L.
  Lemma own_all c l : In c cs -> Forall (has_transition (c_net c)) l -> proj (c_net c) (c_t c) (map (c_t c) l) = l /\
    (forall i, sum (enters (c_net c) R (c_p c) (c_t c) i) (map (c_t c) l) = 0%Z) /\
    (forall o, sum (leaves (c_net c) R (c_p c) (c_t c) o) (map (c_t c) l) = 0%Z).
  Proof.
    intros Hc F. induction F as [|u l Hu F (I1 & I2 & I3)]; [cbn; auto|]. cbn [map proj flat_map sum]. unfold proj in I1.
    rewrite (owner_own _ _ _ _ _ _ L) by auto. rewrite I1. split; [auto|].
    split; intros i; [unfold enters at 1|unfold leaves at 1]; rewrite (owner_own _ _ _ _ _ _ L) by auto; rewrite ?I2, ?I3; auto.
  Qed.
  (** a run of transitions of one net only *)
  Lemma own_run c st M l M1 : In c cs -> Forall (has_transition (c_net c)) l -> run R st M (map (c_t c) l) M1 ->
    run (c_net c) st (view (c_net c) (c_p c) M) l (view (c_net c) (c_p c) M1) /\
    forall q, (forall p, has_place (c_net c) p -> q <> c_p c p) -> M1 q = M q.
  Proof.
    intros Hc F H. destruct (own_all c l Hc F) as (E1 & E2 & E3). pose proof (k_in _ _ _ _ _ _ K c Hc) as I. split.
    - pose proof (proj_run _ _ _ _ _ _ _ _ _ _ I (l_gates _ _ _ _ _ _ L c Hc) H) as H'. rewrite E1, E2, E3 in H'.
      eapply run_ext; [exact H'|..]; intros p; cbv beta; lia.
    - intros q Hq. rewrite (run_tokens _ _ _ _ _ q H). replace (sum (fun t => effect R t q) (map (c_t c) l)) with 0%Z; [lia|].
      symmetry. rewrite (sum_ext _ (fun _ => 0%Z)); [apply sum_0|]. intros t Ht. apply in_map_iff in Ht. destruct Ht as (u & <- & Hu).
      rewrite Forall_forall in F. specialize (F u Hu). rewrite effect_ind, !ind_mem_In. pose proof (in_wf _ _ _ _ I) as W.
      destruct (in_dec string_dec q (ends R (c_t c u))) as [E|].
      { exfalso. apply (in_ends _ _ _ _ I) in E; [|auto]. destruct E as (p & Hp & ->). eapply Hq; [|eauto]. eapply w_ep; eauto. }
      destruct (in_dec string_dec q (starts R (c_t c u))) as [E|]; [|auto].
      exfalso. apply (in_starts _ _ _ _ I) in E; [|auto]. destruct E as (p & Hp & ->). eapply Hq; [|eauto]. eapply w_sp; eauto.
  Qed.
End Own.

(** over and over again *)
Section Rep.
  Variables (R : net) (A : comp) (X G : string -> Prop) (pre post : string -> string -> Prop) (s e t0 t1 t2 : string).
  Hypothesis L : linked R [A] X G pre post.
  Hypothesis (Gs : G s) (Ge : G e) (se : s <> e) (HG : forall q, G q -> q = s \/ q = e).
  Hypothesis (n01 : t0 <> t1) (n02 : t0 <> t2) (n12 : t1 <> t2).
  Hypothesis HX : forall t, X t <-> t = t0 \/ t = t1 \/ t = t2.
  Hypothesis Hpre : forall t q, pre t q <-> (t = t0 /\ q = s) \/ (t = t1 /\ q = c_p A (c_o A)) \/ (t = t2 /\ q = c_p A (c_o A)).
  Hypothesis Hpost : forall t q, post t q <-> (t = t0 /\ q = c_p A (c_i A)) \/ (t = t1 /\ q = e) \/ (t = t2 /\ q = c_p A (c_i A)).
  Let K := l_k _ _ _ _ _ _ L.
  Let iA : In A [A]. Proof. cbn. auto. Qed.
  Let pA : has_place (c_net A) (c_i A) := l_ip _ _ _ _ _ _ L A iA.
  Let qA : has_place (c_net A) (c_o A) := l_op _ _ _ _ _ _ L A iA.
  Let gA q p : G q -> has_place (c_net A) p -> q <> c_p A p := fun H => k_gp _ _ _ _ _ _ K q A p H iA.
  Let gA' q p : G q -> has_place (c_net A) p -> c_p A p <> q.
  Proof. intros. apply not_eq_sym. auto. Qed.
  Lemma re_source q : source R q <-> q = s.
  Proof.
    rewrite (l_source _ _ _ _ _ _ L). split.
    - intros [(Hg & [t Ht] & _)|(c & Hc & -> & N)].
      + destruct (HG q Hg) as [->| ->]; [auto|]. exfalso. apply Hpre in Ht. destruct Ht as [[_ E]|[[_ E]|[_ E]]]; [congruence|..]; refine (gA _ _ _ _ E); auto.
      + exfalso. apply N. exists t0. apply Hpost. destruct Hc as [<-|[]]; auto.
    - intros ->. left. split; [auto|]. split; [exists t0; apply Hpre; auto|]. intros [t Ht]. apply Hpost in Ht.
      destruct Ht as [[_ E]|[[_ E]|[_ E]]]; [refine (gA _ _ _ _ E)|congruence|refine (gA _ _ _ _ E)]; auto.
  Qed.
  Lemma re_sink q : sink R q <-> q = e.
  Proof.
    rewrite (l_sink _ _ _ _ _ _ L). split.
    - intros [(Hg & [t Ht] & _)|(c & Hc & -> & N)].
      + destruct (HG q Hg) as [->| ->]; [|auto]. exfalso. apply Hpost in Ht. destruct Ht as [[_ E]|[[_ E]|[_ E]]]; [refine (gA _ _ _ _ E)|congruence|refine (gA _ _ _ _ E)]; auto.
      + exfalso. apply N. exists t1. apply Hpre. destruct Hc as [<-|[]]; auto.
    - intros ->. left. split; [auto|]. split; [exists t1; apply Hpost; auto|]. intros [t Ht]. apply Hpre in Ht.
      destruct Ht as [[_ E]|[[_ E]|[_ E]]]; [congruence|..]; refine (gA _ _ _ _ E); auto.
  Qed.
  Lemma re_connected : connected (c_net A) -> connected R.
  Proof.
    intros CA. eapply k_connected; [exact K|..].
    - intros c [<-|[]]; auto.
    - intros t Hx. apply HX in Hx. destruct Hx as [->|[->| ->]].
      + split; [exists s; apply Hpre; auto|exists (c_p A (c_i A)); apply Hpost; auto].
      + split; [exists (c_p A (c_o A)); apply Hpre; auto|exists e; apply Hpost; auto].
      + split; [exists (c_p A (c_o A)); apply Hpre; auto|exists (c_p A (c_i A)); apply Hpost; auto].
  Qed.
  Variables (names : dict string string) (a : pattern).
  Hypothesis (Ea : pnet a = c_net A) (Sa : spelled names A a).
  Let P := Pattern R names.
  Let srcA : forall q, source (pnet a) q <-> q = c_i A.
  Proof. intros q. rewrite Ea. apply (l_i _ _ _ _ _ _ L A q iA). Qed.
  Let snkA : forall q, sink (pnet a) q <-> q = c_o A.
  Proof. intros q. rewrite Ea. apply (l_o _ _ _ _ _ _ L A q iA). Qed.
  Let X0 : X t0. Proof. apply HX. auto. Qed.
  Let X1 : X t1. Proof. apply HX. auto. Qed.
  Let X2 : X t2. Proof. apply HX. auto. Qed.
  Let go0 st : run R st (one_at s) [t0] (one_at (c_p A (c_i A))).
  Proof.
    apply (glue_run _ _ _ _ _ _ L); [auto|..]; (eapply marks_iff; [apply marks_one|]); intros q; rewrite ?Hpre, ?Hpost; intuition congruence.
  Qed.
  Let go1 st : run R st (one_at (c_p A (c_o A))) [t1] (one_at e).
  Proof.
    apply (glue_run _ _ _ _ _ _ L); [auto|..]; (eapply marks_iff; [apply marks_one|]); intros q; rewrite ?Hpre, ?Hpost; intuition congruence.
  Qed.
  Let go2 st : run R st (one_at (c_p A (c_o A))) [t2] (one_at (c_p A (c_i A))).
  Proof.
    apply (glue_run _ _ _ _ _ _ L); [auto|..]; (eapply marks_iff; [apply marks_one|]); intros q; rewrite ?Hpre, ?Hpost; intuition congruence.
  Qed.
  Lemma re_words_in st w : repeated (speaks st a) w -> speaks st P w.
  Proof.
    intros H. assert (Q : exists l, run R st (one_at (c_p A (c_i A))) l (one_at (c_p A (c_o A))) /\ letters P l = w).
    { induction H as [u Hu|u w Hu _ (l2 & R2 & E2)]; apply (speaks_at _ _ _ _ _ srcA snkA) in Hu; destruct Hu as (l & Rl & <-); rewrite Ea in Rl.
      - exists (map (c_t A) l). split; [apply (lift_whole _ _ _ _ _ _ L A st (c_i A) (c_o A) l); auto|].
        apply (letters_map _ _ _ _ _ _ L names A a); auto. eapply run_has; eauto.
      - exists (map (c_t A) l ++ [t2] ++ l2). split.
        + eapply run_app; [apply (lift_whole _ _ _ _ _ _ L A st (c_i A) (c_o A) l); auto|]. eapply run_app; [apply go2|exact R2].
        + rewrite !letters_app, E2. unfold P. rewrite (letters_map _ _ _ _ _ _ L names A a); auto; [|eapply run_has; eauto].
          cbn [letters flat_map]. rewrite (spell_glue _ _ _ _ _ _ L) by auto. auto. }
    destruct Q as (l & Rl & <-). apply (speaks_at st P _ _ _ re_source re_sink). exists ([t0] ++ l ++ [t1]). split.
    - eapply run_app; [apply go0|]. eapply run_app; [exact Rl|apply go1].
    - rewrite !letters_app. unfold P. cbn [letters flat_map]. rewrite !(spell_glue _ _ _ _ _ _ L) by auto. rewrite ?app_nil_r. auto.
  Qed.
  Lemma re_split l : Forall (has_transition R) l -> exists u r, l = map (c_t A) u ++ r /\ Forall (has_transition (c_net A)) u /\
    (r = [] \/ exists x r', r = x :: r' /\ X x).
  Proof.
    intros F. induction F as [|t l Ht F IH]; [exists [], []; auto|]. destruct IH as (u & r & -> & Fu & Hr).
    apply (k_t _ _ _ _ _ _ K) in Ht. destruct Ht as [Hx|(c & v & [<-|[]] & Hv & ->)].
    - exists [], (t :: map (c_t A) u ++ r). split; [auto|]. split; [auto|]. right. eauto.
    - exists (v :: u), r. split; [auto|]. split; auto.
  Qed.
  Hypothesis (CA : connected (c_net A)).
  Lemma fires_marked n st i t M : connected n -> fires n st (one_at i) t M -> In i (starts n t).
  Proof.
    intros C (F1 & _ & F3 & _). destruct (C t F1) as [Hs _]. destruct (starts n t) as [|p r]; [congruence|].
    specialize (F3 p (or_introl eq_refl)). unfold one_at in F3. destruct (eqb_ok p i) as [->|]; [cbn; auto|lia].
  Qed.
  Lemma re_words_out st w : ends_clean st a -> speaks st P w -> repeated (speaks st a) w.
  Proof.
    intros CL H. apply (speaks_at st P _ _ _ re_source re_sink) in H. destruct H as (l & H & <-). cbn [pnet P] in H.
    pose proof (re_connected CA) as CR.
    assert (Main : forall n l, length l <= n -> run R st (one_at (c_p A (c_i A))) l (one_at e) -> repeated (speaks st a) (letters P l)).
    { clear l H. induction n as [|n IH]; intros l Hl H.
      - destruct l; [|cbn in Hl; lia]. pose proof (run_nil_inv _ _ _ _ H e) as E. rewrite one_at_same, one_at_other in E by auto. discriminate.
      - destruct (re_split l (run_has _ _ _ _ _ H)) as (u & r & -> & Fu & Hr). apply run_split in H. destruct H as (M & H1 & H2).
        destruct (own_run _ _ _ _ _ _ L A st _ u _ iA Fu H1) as [Hu Ho].
        assert (Mg : forall q, G q -> M q = 0%Z) by (intros q Hq; rewrite Ho by auto; apply one_at_other; auto).
        destruct Hr as [->|(x & r' & -> & Hx)].
        + pose proof (run_nil_inv _ _ _ _ H2 e) as E. rewrite one_at_same, Mg in E by auto. discriminate.
        + apply run_cons_inv in H2. destruct H2 as (M2 & F & H2). pose proof F as (F1 & F2 & F3 & F4).
          destruct (proj1 (HX x) Hx) as [->|E12].
          { exfalso. assert (Hi : In s (starts R t0)) by (apply (k_pre _ _ _ _ _ _ K); auto; apply Hpre; auto).
            specialize (F3 s Hi). rewrite Mg in F3 by auto. lia. }
          assert (Ho1 : (1 <= view (c_net A) (c_p A) M (c_o A))%Z).
          { unfold view. rewrite (proj2 (mem_In _ _) qA). apply F3. apply (k_pre _ _ _ _ _ _ K); auto. apply Hpre. destruct E12 as [->| ->]; auto. }
          assert (Hrun : run (c_net A) st (one_at (c_i A)) u (view (c_net A) (c_p A) M)).
          { eapply run_start; [exact Hu|]. intros p. symmetry. apply (view_own _ _ _ _ _ _ L); auto. }
          assert (Hv : forall p, view (c_net A) (c_p A) M p = one_at (c_o A) p).
          { apply (CL (c_o A)); auto; [apply snkA; auto|]. exists (c_i A), u. split; [apply srcA; auto|]. rewrite Ea. auto. }
          assert (HM : forall q, M q = one_at (c_p A (c_o A)) q).
          { intros q. destruct (image_dec (c_net A) (c_p A) q) as [(p & Hp & ->)|N].
            - specialize (Hv p). rewrite <- (view_own _ _ _ _ _ _ L A (c_o A) iA qA) in Hv. unfold view in Hv. rewrite (proj2 (mem_In _ _) Hp) in Hv. auto.
            - rewrite Ho by auto. rewrite !one_at_other by auto. auto. }
          assert (Su : speaks st a (letters a u)).
          { apply (speaks_at _ _ _ _ _ srcA snkA). exists u. split; [|auto]. rewrite Ea. eapply run_ext; [exact Hrun|auto|auto]. }
          rewrite letters_app. unfold P. rewrite (letters_map _ _ _ _ _ _ L names A a) by auto.
          change (x :: r') with ([x] ++ r'). rewrite letters_app. cbn [letters flat_map]. rewrite (spell_glue _ _ _ _ _ _ L) by auto. cbn [app].
          assert (Step : forall b, marks (post x) (one_at b) -> run R st (one_at b) r' (one_at e)).
          { intros b Hb. eapply run_start; [exact H2|]. intros q. rewrite F4, HM, effect_ind.
            rewrite (marks_ind _ _ _ Hb (fun q => k_post _ _ _ _ _ _ K x q Hx)).
            assert (Hp : marks (pre x) (one_at (c_p A (c_o A)))).
            { eapply marks_iff; [apply marks_one|]. intros z. rewrite Hpre. destruct E12 as [->| ->]; intuition congruence. }
            rewrite (marks_ind _ _ _ Hp (fun q => k_pre _ _ _ _ _ _ K x q Hx)). lia. }
          destruct E12 as [->| ->].
          * assert (Hr : run R st (one_at e) r' (one_at e)).
            { apply Step. eapply marks_iff; [apply marks_one|]. intros z. rewrite Hpost. intuition congruence. }
            destruct r' as [|y r'].
            -- cbn. rewrite app_nil_r. apply rp_one. auto.
            -- exfalso. apply run_cons_inv in Hr. destruct Hr as (M3 & F' & _). apply (fires_marked _ _ _ _ _ CR) in F'.
               destruct (proj2 (re_sink e) eq_refl) as [_ Hn]. apply Hn. exists y. auto.
          * apply rp_more; [auto|]. apply IH; [rewrite app_length in Hl; cbn in Hl; lia|].
            apply Step. eapply marks_iff; [apply marks_one|]. intros z. rewrite Hpost. intuition congruence. }
    destruct l as [|t l].
    { pose proof (run_nil_inv _ _ _ _ H e) as E. rewrite one_at_same, one_at_other in E by auto. discriminate. }
    apply run_cons_inv in H. destruct H as (M & F & H). pose proof (fires_marked _ _ _ _ _ CR F) as Hs. pose proof F as (F1 & F2 & F3 & F4).
    assert (t = t0).
    { apply (k_t _ _ _ _ _ _ K) in F1. destruct F1 as [Hx|(c & u & [<-|[]] & Hu & ->)].
      - apply (k_pre _ _ _ _ _ _ K) in Hs; [|auto]. apply Hpre in Hs. destruct Hs as [[? _]|[[_ E]|[_ E]]]; [auto|exfalso; refine (gA _ _ _ _ E); auto..].
      - exfalso. pose proof (k_in _ _ _ _ _ _ K A iA) as I. apply (in_starts _ _ _ _ I) in Hs; [|auto]. destruct Hs as (p & Hp & E).
        refine (gA _ _ _ _ E); auto. eapply w_sp; [eapply l_wf; eauto|eauto]. }
    subst t. change (t0 :: l) with ([t0] ++ l). rewrite letters_app. cbn [letters flat_map]. unfold P. rewrite (spell_glue _ _ _ _ _ _ L) by auto. cbn [app].
    apply (Main (length l)); [auto|]. eapply run_start; [exact H|]. intros q. rewrite F4, effect_ind.
    rewrite (marks_ind (pre t0) (one_at s) _ ltac:(eapply marks_iff; [apply marks_one|]; intros z; rewrite Hpre; intuition congruence) (fun q => k_pre _ _ _ _ _ _ K t0 q X0)).
    rewrite (marks_ind (post t0) (one_at (c_p A (c_i A))) _ ltac:(eapply marks_iff; [apply marks_one|]; intros z; rewrite Hpost; intuition congruence) (fun q => k_post _ _ _ _ _ _ K t0 q X0)).
    lia.
  Qed.
End Rep.

Lemma distinct7 (s e px s1 s2 e1 e2 : string) : NoDup [s; e; px; s1; s2; e1; e2] ->
  s <> e /\ s <> px /\ s <> s1 /\ s <> s2 /\ s <> e1 /\ s <> e2 /\ e <> px /\ e <> s1 /\ e <> s2 /\ e <> e1 /\ e <> e2 /\ px <> s1 /\ px <> s2 /\ px <> e1 /\ px <> e2 /\ s1 <> s2 /\ s1 <> e1 /\ s1 <> e2 /\ s2 <> e1 /\ s2 <> e2 /\ e1 <> e2.
Proof.
  intros H. repeat (apply NoDup_cons_iff in H; let N := fresh in destruct H as [N H]). cbn [In] in *.
  repeat split; intros E; subst; tauto.
Qed.

Lemma marks_three x y z : x <> y -> x <> z -> y <> z -> marks (fun q => q = x \/ q = y \/ q = z) (fun q => one_at x q + one_at y q + one_at z q)%Z.
Proof.
  intros N1 N2 N3 q. unfold one_at. destruct (eqb_ok q x), (eqb_ok q y), (eqb_ok q z); subst; try congruence; [left|left|left|right]; split; auto; try lia. tauto.
Qed.

(** one after the other, in any order *)
Section Inter.
  Variables (R : net) (A B : comp) (X G : string -> Prop) (pre post : string -> string -> Prop) (s e px s1 s2 e1 e2 : string).
  Hypothesis L : linked R [A; B] X G pre post.
  Hypothesis AB : c_nr A <> c_nr B.
  Hypothesis ND : NoDup [s; e; px; s1; s2; e1; e2].
  Hypothesis HG : forall q, G q <-> In q [s; e; px; s1; s2; e1; e2].
  Hypothesis HX : forall t, X t <-> In t [s; e; s1; s2; e1; e2].
  Hypothesis Hpre : forall t q, pre t q <-> (t = s /\ q = s) \/ (t = s1 /\ (q = s1 \/ q = px)) \/ (t = s2 /\ (q = s2 \/ q = px)) \/
    (t = e1 /\ q = c_p A (c_o A)) \/ (t = e2 /\ q = c_p B (c_o B)) \/ (t = e /\ (q = e1 \/ q = e2 \/ q = px)).
  Hypothesis Hpost : forall t q, post t q <-> (t = s /\ (q = s1 \/ q = s2 \/ q = px)) \/ (t = s1 /\ (q = c_p A (c_i A) \/ q = px)) \/
    (t = s2 /\ (q = c_p B (c_i B) \/ q = px)) \/ (t = e1 /\ (q = e1 \/ q = px)) \/ (t = e2 /\ (q = e2 \/ q = px)) \/ (t = e /\ q = e).
  Let K := l_k _ _ _ _ _ _ L.
  Let pA : has_place (c_net A) (c_i A) := l_ip _ _ _ _ _ _ L A (inA A B).
  Let qA : has_place (c_net A) (c_o A) := l_op _ _ _ _ _ _ L A (inA A B).
  Let pB : has_place (c_net B) (c_i B) := l_ip _ _ _ _ _ _ L B (inB A B).
  Let qB : has_place (c_net B) (c_o B) := l_op _ _ _ _ _ _ L B (inB A B).
  Let ap p q : has_place (c_net A) p -> has_place (c_net B) q -> c_p A p <> c_p B q := apart_p R A B X G pre post L AB p q.
  Let Gs : G s. Proof. apply HG. cbn; tauto. Qed.
  Let Ge : G e. Proof. apply HG. cbn; tauto. Qed.
  Let Gx : G px. Proof. apply HG. cbn; tauto. Qed.
  Let G1 : G s1. Proof. apply HG. cbn; tauto. Qed.
  Let G2 : G s2. Proof. apply HG. cbn; tauto. Qed.
  Let G3 : G e1. Proof. apply HG. cbn; tauto. Qed.
  Let G4 : G e2. Proof. apply HG. cbn; tauto. Qed.
  Let far q : G q -> q <> c_p A (c_i A) /\ q <> c_p A (c_o A) /\ q <> c_p B (c_i B) /\ q <> c_p B (c_o B).
  Proof.
    intros Hq. repeat split; [apply (k_gp _ _ _ _ _ _ K q A)|apply (k_gp _ _ _ _ _ _ K q A)|apply (k_gp _ _ _ _ _ _ K q B)|apply (k_gp _ _ _ _ _ _ K q B)]; auto using inA, inB.
  Qed.
  Let all_far := (far s Gs, far e Ge, far px Gx, far s1 G1, far s2 G2, far e1 G3, far e2 G4).
  Let apart := distinct7 _ _ _ _ _ _ _ ND.
  Ltac facts := pose proof all_far as ((((((D1 & D2) & D3) & D4) & D5) & D6) & D7); pose proof apart as D8;
    repeat match goal with H : _ <> _ /\ _ |- _ => let H1 := fresh "N" in destruct H as [H1 H] end.
  Ltac clash := exfalso; match goal with
    | H : ?a = ?b, N : ?a <> ?b |- _ => exact (N H)
    | H : ?a = ?b, N : ?b <> ?a |- _ => exact (N (eq_sym H)) end.
  Ltac no := let H := fresh "H" in intros H;
    repeat match type of H with _ \/ _ => destruct H as [H|H] | _ /\ _ => let E := fresh "E" in destruct H as [E H] end; clash.
  Ltac no' := let H := fresh "H" in intros H;
    repeat match type of H with _ \/ _ => destruct H as [H|H] | _ /\ _ => let E := fresh "E" in destruct H as [E H] end; first [clash|tauto].
  Lemma it_source q : source R q <-> q = s.
  Proof.
    rewrite (l_source _ _ _ _ _ _ L). split.
    - intros [(Hg & _ & N)|(c & Hc & -> & N)].
      + apply HG in Hg. cbn in Hg. destruct Hg as [<-|[<-|[<-|[<-|[<-|[<-|[<-|[]]]]]]]]; [auto|exfalso; apply N; clear N..].
        * exists e. apply Hpost. tauto.
        * exists s. apply Hpost. tauto.
        * exists s. apply Hpost. tauto.
        * exists s. apply Hpost. tauto.
        * exists e1. apply Hpost. tauto.
        * exists e2. apply Hpost. tauto.
      + exfalso. apply N. destruct Hc as [<-|[<-|[]]]; [exists s1|exists s2]; apply Hpost; tauto.
    - intros ->. left. split; [auto|]. split; [exists s; apply Hpre; auto|]. intros [t Ht]. apply Hpost in Ht.
      facts. revert Ht. no.
  Qed.
  Lemma it_sink q : sink R q <-> q = e.
  Proof.
    rewrite (l_sink _ _ _ _ _ _ L). split.
    - intros [(Hg & _ & N)|(c & Hc & -> & N)].
      + apply HG in Hg. cbn in Hg. destruct Hg as [<-|[<-|[<-|[<-|[<-|[<-|[<-|[]]]]]]]]; [exfalso; apply N; clear N|auto|exfalso; apply N; clear N..].
        * exists s. apply Hpre. tauto.
        * exists s1. apply Hpre. tauto.
        * exists s1. apply Hpre. tauto.
        * exists s2. apply Hpre. tauto.
        * exists e. apply Hpre. tauto.
        * exists e. apply Hpre. tauto.
      + exfalso. apply N. destruct Hc as [<-|[<-|[]]]; [exists e1|exists e2]; apply Hpre; tauto.
    - intros ->. left. split; [auto|]. split; [exists e; apply Hpost; tauto|]. intros [t Ht]. apply Hpre in Ht.
      facts. revert Ht. no.
  Qed.
  Lemma it_connected : connected (c_net A) -> connected (c_net B) -> connected R.
  Proof.
    intros CA CB. eapply k_connected; [exact K|..].
    - intros c [<-|[<-|[]]]; auto.
    - intros t Hx. apply HX in Hx. cbn in Hx. destruct Hx as [<-|[<-|[<-|[<-|[<-|[<-|[]]]]]]].
      + split; [exists s; apply Hpre; tauto|exists s1; apply Hpost; tauto].
      + split; [exists px; apply Hpre; tauto|exists e; apply Hpost; tauto].
      + split; [exists px; apply Hpre; tauto|exists px; apply Hpost; tauto].
      + split; [exists px; apply Hpre; tauto|exists px; apply Hpost; tauto].
      + split; [exists (c_p A (c_o A)); apply Hpre; tauto|exists px; apply Hpost; tauto].
      + split; [exists (c_p B (c_o B)); apply Hpre; tauto|exists px; apply Hpost; tauto].
  Qed.
  Variables (names : dict string string) (a b : pattern).
  Hypothesis (Ea : pnet a = c_net A) (Sa : spelled names A a) (Eb : pnet b = c_net B) (Sb : spelled names B b).
  Let P := Pattern R names.
  Let srcA : forall q, source (pnet a) q <-> q = c_i A.
  Proof. intros q. rewrite Ea. apply (l_i _ _ _ _ _ _ L A q (inA A B)). Qed.
  Let snkA : forall q, sink (pnet a) q <-> q = c_o A.
  Proof. intros q. rewrite Ea. apply (l_o _ _ _ _ _ _ L A q (inA A B)). Qed.
  Let srcB : forall q, source (pnet b) q <-> q = c_i B.
  Proof. intros q. rewrite Eb. apply (l_i _ _ _ _ _ _ L B q (inB A B)). Qed.
  Let snkB : forall q, sink (pnet b) q <-> q = c_o B.
  Proof. intros q. rewrite Eb. apply (l_o _ _ _ _ _ _ L B q (inB A B)). Qed.
  (** tokens per place in terms of the further transitions *)
  Lemma it_counts st M l M1 : run R st M l M1 ->
    (M1 s = M s - occ s l)%Z /\ (M1 e = M e + occ e l)%Z /\ (M1 e1 = M e1 + occ e1 l - occ e l)%Z /\ (M1 e2 = M e2 + occ e2 l - occ e l)%Z /\
    (M1 px = M px + occ s l + occ e1 l + occ e2 l - occ e l)%Z /\ (M1 s1 = M s1 + occ s l - occ s1 l)%Z /\ (M1 s2 = M s2 + occ s l - occ s2 l)%Z.
  Proof.
    intros H. pose proof (run_has _ _ _ _ _ H) as F. unfold occ.
    assert (E : forall q f, G q -> (forall t, has_transition R t -> effect R t q = f t) -> M1 q = (M q + sum f l)%Z).
    { intros q f Hq Hf. rewrite (run_tokens _ _ _ _ _ q H). rewrite (sum_as R _ f l F Hf). auto. }
    facts. repeat split.
    - rewrite (E s (fun t => 0 - one_at s t)%Z Gs), sum_sub, sum_0; [lia|]. intros t Ht. apply (l_effect _ _ _ _ _ _ L); auto; rewrite ?Hpost, ?Hpre.
      + right. split; [no|auto].
      + destruct (one_case s t) as [[-> ->]|[Hn ->]]; [left; split; [tauto|auto]|right; split; [no|auto]].
    - rewrite (E e (fun t => one_at e t - 0)%Z Ge), sum_sub, sum_0; [lia|]. intros t Ht. apply (l_effect _ _ _ _ _ _ L); auto; rewrite ?Hpost, ?Hpre.
      + destruct (one_case e t) as [[-> ->]|[Hn ->]]; [left; split; [tauto|auto]|right; split; [no|auto]].
      + right. split; [no|auto].
    - rewrite (E e1 (fun t => one_at e1 t - one_at e t)%Z G3), sum_sub; [lia|]. intros t Ht. apply (l_effect _ _ _ _ _ _ L); auto; rewrite ?Hpost, ?Hpre.
      + destruct (one_case e1 t) as [[-> ->]|[Hn ->]]; [left; split; [tauto|auto]|right; split; [no|auto]].
      + destruct (one_case e t) as [[-> ->]|[Hn ->]]; [left; split; [tauto|auto]|right; split; [no|auto]].
    - rewrite (E e2 (fun t => one_at e2 t - one_at e t)%Z G4), sum_sub; [lia|]. intros t Ht. apply (l_effect _ _ _ _ _ _ L); auto; rewrite ?Hpost, ?Hpre.
      + destruct (one_case e2 t) as [[-> ->]|[Hn ->]]; [left; split; [tauto|auto]|right; split; [no|auto]].
      + destruct (one_case e t) as [[-> ->]|[Hn ->]]; [left; split; [tauto|auto]|right; split; [no|auto]].
    - rewrite (E px (fun t => (one_at s t + one_at s1 t + one_at s2 t + one_at e1 t + one_at e2 t) - (one_at s1 t + one_at s2 t + one_at e t))%Z Gx).
      + rewrite sum_sub, !sum_add. lia.
      + intros t Ht. apply (l_effect _ _ _ _ _ _ L); auto; rewrite ?Hpost, ?Hpre; unfold one_at.
        * destruct (eqb_ok t s) as [->|]; [rewrite ?(proj2 (eqb_neq _ _)) by auto; left; split; [tauto|auto]|]. destruct (eqb_ok t s1) as [->|]; [rewrite ?(proj2 (eqb_neq _ _)) by auto; left; split; [tauto|auto]|]. destruct (eqb_ok t s2) as [->|]; [rewrite ?(proj2 (eqb_neq _ _)) by auto; left; split; [tauto|auto]|]. destruct (eqb_ok t e1) as [->|]; [rewrite ?(proj2 (eqb_neq _ _)) by auto; left; split; [tauto|auto]|]. destruct (eqb_ok t e2) as [->|]; [left; split; [tauto|auto]|]. right; split; [no|auto].
        * destruct (eqb_ok t s1) as [->|]; [rewrite ?(proj2 (eqb_neq _ _)) by auto; left; split; [tauto|auto]|]. destruct (eqb_ok t s2) as [->|]; [rewrite ?(proj2 (eqb_neq _ _)) by auto; left; split; [tauto|auto]|]. destruct (eqb_ok t e) as [->|]; [left; split; [tauto|auto]|]. right; split; [no|auto].
    - rewrite (E s1 (fun t => one_at s t - one_at s1 t)%Z G1), sum_sub; [lia|]. intros t Ht. apply (l_effect _ _ _ _ _ _ L); auto; rewrite ?Hpost, ?Hpre.
      + destruct (one_case s t) as [[-> ->]|[Hn ->]]; [left; split; [tauto|auto]|right; split; [no|auto]].
      + destruct (one_case s1 t) as [[-> ->]|[Hn ->]]; [left; split; [tauto|auto]|right; split; [no|auto]].
    - rewrite (E s2 (fun t => one_at s t - one_at s2 t)%Z G2), sum_sub; [lia|]. intros t Ht. apply (l_effect _ _ _ _ _ _ L); auto; rewrite ?Hpost, ?Hpre.
      + destruct (one_case s t) as [[-> ->]|[Hn ->]]; [left; split; [tauto|auto]|right; split; [no|auto]].
      + destruct (one_case s2 t) as [[-> ->]|[Hn ->]]; [left; split; [tauto|auto]|right; split; [no|auto]].
  Qed.
  (** any mixture of the words is possible on the way to the sink *)
  Lemma it_any st u v w : shuffle u v w -> arrives st a u -> arrives st b v -> arrives st P w.
  Proof.
    intros S Hu Hv. destruct Hu as (i1 & o1 & l1 & N1 & Si1 & So1 & R1 & T1 & <-). destruct Hv as (i2 & o2 & l2 & N2 & Si2 & So2 & R2 & T2 & <-).
    apply srcA in Si1. apply snkA in So1. apply srcB in Si2. apply snkB in So2. subst i1 o1 i2 o2. rewrite Ea in R1. rewrite Eb in R2.
    destruct (words_shuffle R A B X G pre post L names a b Ea Sa Eb Sb l1 l2 w (run_has _ _ _ _ _ R1) (run_has _ _ _ _ _ R2) S) as (l & Sl & <-).
    set (Q := fun q => (one_at (c_p A (c_i A)) q + one_at (c_p B (c_i B)) q)%Z).
    assert (VA : forall x p, has_place (c_net A) x -> has_place (c_net A) p -> one_at (c_p A x) (c_p A p) = one_at x p).
    { intros x p Hx Hp. pose proof (view_own _ _ _ _ _ _ L A x (inA A B) Hx p) as E. unfold view in E. rewrite (proj2 (mem_In p _) Hp) in E. auto. }
    assert (VB : forall x p, has_place (c_net B) x -> has_place (c_net B) p -> one_at (c_p B x) (c_p B p) = one_at x p).
    { intros x p Hx Hp. pose proof (view_own _ _ _ _ _ _ L B x (inB A B) Hx p) as E. unfold view in E. rewrite (proj2 (mem_In p _) Hp) in E. auto. }
    assert (RS : exists W, ge0 W /\ run R st Q l (fun q => W q + (one_at (c_p A (c_o A)) q + one_at (c_p B (c_o B)) q))%Z).
    { destruct (lift_shuffle R A B X G pre post L AB st _ _ _ _ _ _ l Q Sl R1 R2) as (Q' & RQ & QA & QB & QO).
      { intros p Hp. unfold Q. rewrite VA, (one_at_other (c_p B (c_i B))) by auto. lia. }
      { intros p Hp. unfold Q. rewrite VB by auto. rewrite (one_at_other (c_p A (c_i A))) by (apply not_eq_sym; auto). lia. }
      pose proof (run_ge0 _ _ _ _ _ R1 (one_at_ge0 _)) as U1. pose proof (run_ge0 _ _ _ _ _ R2 (one_at_ge0 _)) as U2.
      exists (fun q => Q' q - (one_at (c_p A (c_o A)) q + one_at (c_p B (c_o B)) q))%Z. split.
      - intros q. cbv beta. destruct (image_dec (c_net A) (c_p A) q) as [(p & Hp & ->)|NA].
        + rewrite QA, VA, (one_at_other (c_p B (c_o B))) by auto. specialize (U1 p). destruct (one_case (c_o A) p) as [[-> ->]|[_ ->]]; lia.
        + destruct (image_dec (c_net B) (c_p B) q) as [(p & Hp & ->)|NB].
          * rewrite QB, VB, (one_at_other (c_p A (c_o A))) by auto. specialize (U2 p). destruct (one_case (c_o B) p) as [[-> ->]|[_ ->]]; lia.
          * rewrite QO by auto. unfold Q. rewrite !one_at_other by auto. lia.
      - eapply run_ext; [exact RQ|auto|]. intros q. cbv beta. lia. }
    destruct RS as (W & GW & RS).
    assert (Xs : X s) by (apply HX; cbn; tauto). assert (Xe : X e) by (apply HX; cbn; tauto).
    assert (X1 : X s1) by (apply HX; cbn; tauto). assert (X2 : X s2) by (apply HX; cbn; tauto).
    assert (X3 : X e1) by (apply HX; cbn; tauto). assert (X4 : X e2) by (apply HX; cbn; tauto).
    facts.
    assert (Y0 : run R st (one_at s) [s] (fun q => one_at s1 q + one_at s2 q + one_at px q)%Z).
    { apply (glue_run _ _ _ _ _ _ L); [auto|..].
      - eapply marks_iff; [apply marks_one|]. intros q. rewrite Hpre. split; [tauto|no'].
      - eapply marks_iff; [apply marks_three; auto|]. intros q. rewrite Hpost. split; [tauto|no']. }
    assert (Y1 : run R st (fun q => one_at s1 q + one_at px q)%Z [s1] (fun q => one_at (c_p A (c_i A)) q + one_at px q)%Z).
    { apply (glue_run _ _ _ _ _ _ L); [auto|..].
      - eapply marks_iff; [apply marks_two; auto|]. intros q. rewrite Hpre. split; [tauto|no'].
      - eapply marks_iff; [apply marks_two; auto|]. intros q. rewrite Hpost. split; [tauto|no']. }
    assert (Y2 : run R st (fun q => one_at s2 q + one_at px q)%Z [s2] (fun q => one_at (c_p B (c_i B)) q + one_at px q)%Z).
    { apply (glue_run _ _ _ _ _ _ L); [auto|..].
      - eapply marks_iff; [apply marks_two; auto|]. intros q. rewrite Hpre. split; [tauto|no'].
      - eapply marks_iff; [apply marks_two; auto|]. intros q. rewrite Hpost. split; [tauto|no']. }
    assert (Y3 : run R st (one_at (c_p A (c_o A))) [e1] (fun q => one_at e1 q + one_at px q)%Z).
    { apply (glue_run _ _ _ _ _ _ L); [auto|..].
      - eapply marks_iff; [apply marks_one|]. intros q. rewrite Hpre. split; [tauto|no'].
      - eapply marks_iff; [apply marks_two; auto|]. intros q. rewrite Hpost. split; [tauto|no']. }
    assert (Y4 : run R st (one_at (c_p B (c_o B))) [e2] (fun q => one_at e2 q + one_at px q)%Z).
    { apply (glue_run _ _ _ _ _ _ L); [auto|..].
      - eapply marks_iff; [apply marks_one|]. intros q. rewrite Hpre. split; [tauto|no'].
      - eapply marks_iff; [apply marks_two; auto|]. intros q. rewrite Hpost. split; [tauto|no']. }
    assert (Y5 : run R st (fun q => one_at e1 q + one_at e2 q + one_at px q)%Z [e] (one_at e)).
    { apply (glue_run _ _ _ _ _ _ L); [auto|..].
      - eapply marks_iff; [apply marks_three; auto|]. intros q. rewrite Hpre. split; [tauto|no'].
      - eapply marks_iff; [apply marks_one|]. intros q. rewrite Hpost. split; [tauto|no']. }
    exists s, e, ([s] ++ [s1] ++ [s2] ++ l ++ [e1] ++ [e2] ++ [e]), (fun q => one_at e q + (one_at px q + one_at px q + W q))%Z.
    split; [apply it_source; auto|]. split; [apply it_sink; auto|]. split; [|split].
    - cbn [pnet P]. eapply run_app; [exact Y0|].
      eapply run_app; [eapply run_start; [apply (run_more _ _ _ _ _ (one_at s2) Y1)|]|].
      { intros q. apply one_at_ge0. } { intros q. cbv beta. lia. }
      eapply run_app; [eapply run_start; [apply (run_more _ _ _ _ _ (one_at (c_p A (c_i A))) Y2)|]|].
      { intros q. apply one_at_ge0. } { intros q. cbv beta. lia. }
      eapply run_app; [eapply run_start; [apply (run_more _ _ _ _ _ (one_at px) RS)|]|].
      { intros q. apply one_at_ge0. } { intros q. unfold Q. cbv beta. lia. }
      eapply run_app; [eapply run_start; [apply (run_more _ _ _ _ _ (fun q => one_at (c_p B (c_o B)) q + one_at px q + W q)%Z Y3)|]|].
      { intros q. specialize (GW q). pose proof (one_at_ge0 (c_p B (c_o B)) q). pose proof (one_at_ge0 px q). lia. } { intros q. cbv beta. lia. }
      eapply run_app; [eapply run_start; [apply (run_more _ _ _ _ _ (fun q => one_at e1 q + (one_at px q + one_at px q + W q))%Z Y4)|]|].
      { intros q. specialize (GW q). pose proof (one_at_ge0 e1 q). pose proof (one_at_ge0 px q). lia. } { intros q. cbv beta. lia. }
      eapply run_start; [apply (run_more _ _ _ _ _ (fun q => one_at px q + one_at px q + W q)%Z Y5)|].
      { intros q. specialize (GW q). pose proof (one_at_ge0 px q). lia. } { intros q. cbv beta. lia. }
    - specialize (GW e). rewrite one_at_same, (one_at_other px) by auto. lia.
    - rewrite !letters_app. unfold P. cbn [letters flat_map]. rewrite !(spell_glue _ _ _ _ _ _ L) by auto. rewrite ?app_nil_r. auto.
  Qed.
  Lemma it_part c p st l M1 z j : In c [A; B] -> pnet p = c_net c -> ge0 M1 -> run R st (one_at s) l M1 ->
    (forall q, source (pnet p) q <-> q = c_i c) -> (forall q, sink (pnet p) q <-> q = c_o c) ->
    sum (enters (c_net c) R (c_p c) (c_t c) (c_i c)) l = z -> sum (leaves (c_net c) R (c_p c) (c_t c) (c_o c)) l = j ->
    (0 <= z <= 1)%Z -> (1 <= j)%Z -> arrives st p (letters p (proj (c_net c) (c_t c) l)).
  Proof.
    intros Hc Ep G0 H Hi Ho Ez Ej Z J. pose proof (proj_run _ _ _ _ _ _ _ _ _ _ (k_in _ _ _ _ _ _ K c Hc) (l_gates _ _ _ _ _ _ L c Hc) H) as H'.
    rewrite Ez, Ej in H'.
    assert (V : forall x, view (c_net c) (c_p c) (one_at s) x = 0%Z).
    { apply view_one. intros x Hx E. apply (k_gp _ _ _ _ _ _ K s c x Gs Hc Hx). auto. }
    pose proof (run_more _ _ _ _ _ (fun x => (1 - z) * one_at (c_i c) x)%Z H') as H2.
    assert (Gv : forall x, (0 <= view (c_net c) (c_p c) M1 x)%Z) by (intros x; unfold view; destruct mem; [apply G0|lia]).
    assert (Gz : forall x, (0 <= (1 - z) * one_at (c_i c) x)%Z) by (intros x; destruct (one_case (c_i c) x) as [[_ ->]|[_ ->]]; lia).
    specialize (H2 Gz). eexists (c_i c), (c_o c), (proj (c_net c) (c_t c) l), _. split; [apply Hi; auto|]. split; [apply Ho; auto|]. rewrite Ep.
    split; [eapply run_start; [exact H2|]|].
    - intros x. cbv beta. rewrite V. destruct (one_case (c_i c) x) as [[_ ->]|[_ ->]]; lia.
    - split; [|auto]. cbv beta. specialize (Gv (c_o c)). specialize (Gz (c_o c)). rewrite one_at_same. lia.
  Qed.
  Lemma it_only st w : arrives st P w -> exists u v, shuffle u v w /\ arrives st a u /\ arrives st b v.
  Proof.
    intros (i & o & l & M & Si & So & H & T & <-). cbn [pnet P] in *. apply it_source in Si. apply it_sink in So. subst i o.
    pose proof (run_has _ _ _ _ _ H) as F. pose proof (run_ge0 _ _ _ _ _ H (one_at_ge0 _)) as G0.
    destruct (it_counts _ _ _ _ H) as (E1 & E2 & E3 & E4 & E5 & E6 & E7).
    facts. rewrite one_at_same in E1. rewrite (one_at_other s e) in E2 by auto.
    rewrite (one_at_other s e1) in E3 by auto. rewrite (one_at_other s e2) in E4 by auto.
    rewrite (one_at_other s s1) in E6 by auto. rewrite (one_at_other s s2) in E7 by auto.
    pose proof (G0 s). pose proof (G0 e1). pose proof (G0 e2). pose proof (G0 s1). pose proof (G0 s2).
    pose proof (occ_ge0 s1 l). pose proof (occ_ge0 s2 l).
    exists (letters a (proj (c_net A) (c_t A) l)), (letters b (proj (c_net B) (c_t B) l)). split; [eapply letters_two; eauto|]. split.
    - apply (it_part A a st l M (occ s1 l) (occ e1 l) (inA A B) Ea G0 H srcA snkA); [..|lia|lia].
      + apply (sum_as R); [auto|]. intros t Ht. apply (l_enters _ _ _ _ _ _ L); auto using inA. rewrite Hpost.
        destruct (one_case s1 t) as [[-> ->]|[Hn ->]]; [left; split; [tauto|auto]|right; split; [|auto]]. let Q := fresh in intros Q; repeat match type of Q with _ \/ _ => destruct Q as [Q|Q] | _ /\ _ => let E := fresh "E" in destruct Q as [E Q] end; first [clash|exact (ap _ _ pA pB Q)|exact (ap _ _ pA pB (eq_sym Q))|exact (ap _ _ qA qB Q)|exact (ap _ _ qA qB (eq_sym Q))].
      + apply (sum_as R); [auto|]. intros t Ht. apply (l_leaves _ _ _ _ _ _ L); auto using inA. rewrite Hpre.
        destruct (one_case e1 t) as [[-> ->]|[Hn ->]]; [left; split; [tauto|auto]|right; split; [|auto]]. let Q := fresh in intros Q; repeat match type of Q with _ \/ _ => destruct Q as [Q|Q] | _ /\ _ => let E := fresh "E" in destruct Q as [E Q] end; first [clash|exact (ap _ _ pA pB Q)|exact (ap _ _ pA pB (eq_sym Q))|exact (ap _ _ qA qB Q)|exact (ap _ _ qA qB (eq_sym Q))].
    - apply (it_part B b st l M (occ s2 l) (occ e2 l) (inB A B) Eb G0 H srcB snkB); [..|lia|lia].
      + apply (sum_as R); [auto|]. intros t Ht. apply (l_enters _ _ _ _ _ _ L); auto using inB. rewrite Hpost.
        destruct (one_case s2 t) as [[-> ->]|[Hn ->]]; [left; split; [tauto|auto]|right; split; [|auto]]. let Q := fresh in intros Q; repeat match type of Q with _ \/ _ => destruct Q as [Q|Q] | _ /\ _ => let E := fresh "E" in destruct Q as [E Q] end; first [clash|exact (ap _ _ pA pB Q)|exact (ap _ _ pA pB (eq_sym Q))|exact (ap _ _ qA qB Q)|exact (ap _ _ qA qB (eq_sym Q))].
      + apply (sum_as R); [auto|]. intros t Ht. apply (l_leaves _ _ _ _ _ _ L); auto using inB. rewrite Hpre.
        destruct (one_case e2 t) as [[-> ->]|[Hn ->]]; [left; split; [tauto|auto]|right; split; [|auto]]. let Q := fresh in intros Q; repeat match type of Q with _ \/ _ => destruct Q as [Q|Q] | _ /\ _ => let E := fresh "E" in destruct Q as [E Q] end; first [clash|exact (ap _ _ pA pB Q)|exact (ap _ _ pA pB (eq_sym Q))|exact (ap _ _ qA qB Q)|exact (ap _ _ qA qB (eq_sym Q))].
  Qed.
  (** there is no word at all *)
  Lemma it_silent st w : ~ speaks st P w.
  Proof.
    rewrite (speaks_at st P _ _ _ it_source it_sink). cbn [pnet P]. intros (l & H & _). destruct (it_counts _ _ _ _ H) as (E1 & E2 & E3 & E4 & E5 & _).
    facts. rewrite one_at_same, (one_at_other e s) in E1 by auto. rewrite one_at_same, (one_at_other s e) in E2 by auto.
    rewrite (one_at_other s e1), (one_at_other e e1) in E3 by auto. rewrite (one_at_other s e2), (one_at_other e e2) in E4 by auto.
    rewrite (one_at_other s px), (one_at_other e px) in E5 by auto. lia.
  Qed.
End Inter.
