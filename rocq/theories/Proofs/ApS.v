(** Activity patterns, part 8: compositions end clean if their parts do *)
From Coq Require Import String ZArith Permutation.
From Verif.Model Require Import Base PetriNet ActivityPattern.
From Verif.Spec Require Import PetriSpec ActivityPatternSpec.
From Verif.Lib Require Import ListLib DictLib.
From Verif.Proofs Require Import PetriA PetriC PetriD ApA ApB ApC ApD ApE ApF ApG.
Open Scope string_scope.
Open Scope list_scope.
Open Scope nat_scope.

Lemma clean_at st p i o : (forall q, source (pnet p) q <-> q = i) -> (forall q, sink (pnet p) q <-> q = o) ->
  ends_clean st p <-> forall l M, run (pnet p) st (one_at i) l M -> (1 <= M o)%Z -> forall q, M q = one_at o q.
Proof.
  intros Hi Ho. split.
  - intros C l M R H. apply (C o M); [apply Ho; auto| |auto]. exists i, l. split; [apply Hi; auto|auto].
  - intros C o' M So (i' & l & Si & R) H. apply Ho in So. apply Hi in Si. subst. apply (C l M R H).
Qed.
Lemma clean_once st p : ends_clean st p -> ends_once st p.
Proof.
  intros C o M So Re. destruct (Z_le_gt_dec (M o) 0) as [|G]; [lia|]. rewrite (C o M So Re ltac:(lia) o), one_at_same. lia.
Qed.

Section Part.
  Variables (R : net) (cs : list comp) (X G : string -> Prop) (pre post : string -> string -> Prop).
  Hypothesis L : linked R cs X G pre post.
  Let K := l_k _ _ _ _ _ _ L.
  (** a marking is known by what it is on the further places and on the parts *)
  Lemma whole st M l M1 x : run R st M l M1 -> (forall q, ~ has_place R q -> M q = 0%Z) -> has_place R x ->
    (forall q, G q -> M1 q = one_at x q) -> (forall c p, In c cs -> has_place (c_net c) p -> M1 (c_p c p) = one_at x (c_p c p)) ->
    forall q, M1 q = one_at x q.
  Proof.
    intros H Z Hx HG HC q. destruct (in_dec string_dec q (keys (places R))) as [Hq|Hq].
    - apply (k_p _ _ _ _ _ _ K) in Hq. destruct Hq as [Hq|(c & p & Hc & Hp & ->)]; auto.
    - rewrite (run_tokens _ _ _ _ _ q H), Z, one_at_other by (auto; intros ->; exact (Hq Hx)). rewrite (sum_ext _ (fun _ => 0%Z)); [rewrite sum_0; auto|].
      intros t _. apply effect_no_place; [apply K|auto].
  Qed.
  (** a part that got at most one token *)
  Lemma part_end c a st M l M1 z j : In c cs -> pnet a = c_net c -> connected (c_net c) -> ends_clean st a -> ge0 M1 ->
    run R st M l M1 -> (forall p, (view (c_net c) (c_p c) M p + sum (enters (c_net c) R (c_p c) (c_t c) (c_i c)) l * one_at (c_i c) p = z * one_at (c_i c) p)%Z) ->
    sum (leaves (c_net c) R (c_p c) (c_t c) (c_o c)) l = j -> (z = 0 \/ z = 1)%Z -> (0 <= j)%Z ->
    (z = 0%Z -> j = 0%Z /\ forall p, view (c_net c) (c_p c) M1 p = 0%Z) /\
    ((1 <= view (c_net c) (c_p c) M1 (c_o c) + j)%Z -> z = 1%Z /\ forall p, (view (c_net c) (c_p c) M1 p + j * one_at (c_o c) p = one_at (c_o c) p)%Z).
  Proof.
    intros Hc Ea C CL G1 H E1 E2 Hz Hj.
    pose proof (proj_run _ _ _ _ _ _ _ _ _ _ (k_in _ _ _ _ _ _ K c Hc) (l_gates _ _ _ _ _ _ L c Hc) H) as H'. rewrite E2 in H'.
    assert (H2 : run (c_net c) st (fun p => z * one_at (c_i c) p)%Z (proj (c_net c) (c_t c) l) (fun p => view (c_net c) (c_p c) M1 p + j * one_at (c_o c) p)%Z).
    { eapply run_start; [exact H'|]. intros p. symmetry. apply E1. }
    assert (Gv : forall p, (0 <= view (c_net c) (c_p c) M1 p)%Z) by (intros p; unfold view; destruct mem; [apply G1|lia]).
    assert (Z0 : z = 0%Z -> j = 0%Z /\ forall p, view (c_net c) (c_p c) M1 p = 0%Z).
    { intros ->. assert (E : proj (c_net c) (c_t c) l = []) by (eapply run_from_zero; [exact C|exact H2|intros p; cbv beta; lia]).
      rewrite E in H2. pose proof (run_nil_inv _ _ _ _ H2) as N. cbv beta in N.
      assert (j = 0%Z). { specialize (N (c_o c)). specialize (Gv (c_o c)). rewrite one_at_same in N. lia. }
      split; [auto|]. intros p. specialize (N p). subst j. lia. }
    split; [auto|]. intros Ho. destruct Hz as [->| ->].
    - destruct (Z0 eq_refl) as [-> N]. rewrite N in Ho. lia.
    - split; [auto|].
      assert (srcA : forall q, source (pnet a) q <-> q = c_i c) by (intros q; rewrite Ea; apply (l_i _ _ _ _ _ _ L c q Hc)).
      assert (snkA : forall q, sink (pnet a) q <-> q = c_o c) by (intros q; rewrite Ea; apply (l_o _ _ _ _ _ _ L c q Hc)).
      pose proof (proj1 (clean_at st a _ _ srcA snkA) CL) as CL'. rewrite Ea in CL'.
      apply (CL' (proj (c_net c) (c_t c) l) (fun p => view (c_net c) (c_p c) M1 p + j * one_at (c_o c) p)%Z).
      + eapply run_start; [exact H2|]. intros p. cbv beta. ring.
      + cbv beta. rewrite one_at_same. lia.
  Qed.
  Lemma view_at c M p : has_place (c_net c) p -> view (c_net c) (c_p c) M p = M (c_p c p).
  Proof. intros Hp. unfold view. rewrite (proj2 (mem_In _ _) Hp). auto. Qed.
End Part.

Section SeqClean.
  Variables (R : net) (A B : comp) (X G : string -> Prop) (pre post : string -> string -> Prop) (t0 : string).
  Hypothesis L : linked R [A; B] X G pre post.
  Hypothesis AB : c_nr A <> c_nr B.
  Hypothesis (HX : forall t, X t <-> t = t0) (HG : forall q, ~ G q).
  Hypothesis Hpre : forall t q, pre t q <-> t = t0 /\ q = c_p A (c_o A).
  Hypothesis Hpost : forall t q, post t q <-> t = t0 /\ q = c_p B (c_i B).
  Variables (names : dict string string) (a b : pattern).
  Hypothesis (Ea : pnet a = c_net A) (Eb : pnet b = c_net B).
  Let K := l_k _ _ _ _ _ _ L.
  Let pA : has_place (c_net A) (c_i A) := l_ip _ _ _ _ _ _ L A (inA A B).
  Let qA : has_place (c_net A) (c_o A) := l_op _ _ _ _ _ _ L A (inA A B).
  Let pB : has_place (c_net B) (c_i B) := l_ip _ _ _ _ _ _ L B (inB A B).
  Let qB : has_place (c_net B) (c_o B) := l_op _ _ _ _ _ _ L B (inB A B).
  Let ap p q : has_place (c_net A) p -> has_place (c_net B) q -> c_p A p <> c_p B q := apart_p R A B X G pre post L AB p q.
  Lemma seq_clean st : connected (c_net A) -> connected (c_net B) -> ends_clean st a -> ends_clean st b -> ends_clean st (Pattern R names).
  Proof.
    intros CA CB Ca Cb. apply (clean_at _ (Pattern R names) _ _ (seq_source _ _ _ _ _ _ _ _ L AB HG Hpost) (seq_sink _ _ _ _ _ _ _ _ L AB HG Hpre)).
    cbn [pnet]. intros l M H Ho. pose proof (run_has _ _ _ _ _ H) as F. pose proof (run_ge0 _ _ _ _ _ H (one_at_ge0 _)) as G1.
    assert (IA : sum (enters (c_net A) R (c_p A) (c_t A) (c_i A)) l = 0%Z).
    { apply (sum_const0 R); auto. intros t Ht. apply (l_enters _ _ _ _ _ _ L); [apply inA|auto|]. right. split; [|auto]. rewrite Hpost. intros [_ E]. revert E. apply ap; auto. }
    assert (OA : sum (leaves (c_net A) R (c_p A) (c_t A) (c_o A)) l = occ t0 l).
    { apply (sum_as R); auto. intros t Ht. apply (l_leaves _ _ _ _ _ _ L); [apply inA|auto|]. rewrite Hpre. destruct (one_case t0 t) as [[-> ->]|[? ->]]; [left|right]; intuition. }
    assert (IB : sum (enters (c_net B) R (c_p B) (c_t B) (c_i B)) l = occ t0 l).
    { apply (sum_as R); auto. intros t Ht. apply (l_enters _ _ _ _ _ _ L); [apply inB|auto|]. rewrite Hpost. destruct (one_case t0 t) as [[-> ->]|[? ->]]; [left|right]; intuition. }
    assert (OB : sum (leaves (c_net B) R (c_p B) (c_t B) (c_o B)) l = 0%Z).
    { apply (sum_const0 R); auto. intros t Ht. apply (l_leaves _ _ _ _ _ _ L); [apply inB|auto|]. right. split; [|auto]. rewrite Hpre. intros [_ E]. symmetry in E. revert E. apply ap; auto. }
    pose proof (occ_ge0 t0 l) as P0.
    destruct (part_end _ _ _ _ _ _ L A a st _ _ _ 1%Z (occ t0 l) (inA A B) Ea CA Ca G1 H) as [_ TA]; auto.
    { intros p. rewrite IA, (view_own _ _ _ _ _ _ L A (c_i A) (inA A B) pA). lia. }
    assert (V0B : forall p, view (c_net B) (c_p B) (one_at (c_p A (c_i A))) p = 0%Z).
    { apply view_one. intros p Hp E. symmetry in E. revert E. apply ap; auto. }
    assert (le1 : (occ t0 l = 0 \/ occ t0 l = 1)%Z).
    { destruct (Z_le_gt_dec (occ t0 l) 0); [lia|]. destruct TA as [_ TA]; [rewrite view_at by auto; specialize (G1 (c_p A (c_o A))); lia|].
      specialize (TA (c_o A)). rewrite one_at_same, view_at in TA by auto. specialize (G1 (c_p A (c_o A))). lia. }
    destruct (part_end _ _ _ _ _ _ L B b st _ _ _ (occ t0 l) 0%Z (inB A B) Eb CB Cb G1 H) as [_ TB]; auto; [|lia|].
    { intros p. rewrite IB, V0B. lia. }
    rewrite view_at in TB by auto. destruct TB as [E1 TB]; [lia|]. rewrite E1 in TA. destruct TA as [_ TA]; [rewrite view_at by auto; specialize (G1 (c_p A (c_o A))); lia|].
    apply (whole _ _ _ _ _ _ L st (one_at (c_p A (c_i A))) l M); auto.
    - intros q Hq. apply one_at_other. intros ->. apply Hq. apply (k_p _ _ _ _ _ _ K). right. exists A. eauto using inA.
    - apply (k_p _ _ _ _ _ _ K). right. exists B. eauto using inB.
    - intros q Hq. exfalso. eapply HG; eauto.
    - intros c p [<-|[<-|[]]] Hp.
      + specialize (TA p). rewrite view_at in TA by auto. rewrite one_at_other by auto. lia.
      + specialize (TB p). rewrite view_at in TB by auto. rewrite <- (view_at B (one_at (c_p B (c_o B)))) by auto.
        rewrite (view_own _ _ _ _ _ _ L B (c_o B) (inB A B) qB). lia.
  Qed.
End SeqClean.

Lemma csum_in {Y} (f : Y -> Z) cs c : (forall c, In c cs -> (0 <= f c)%Z) -> In c cs -> (f c <= csum f cs)%Z.
Proof.
  induction cs as [|d cs IH]; intros P; [intros []|]. cbn [csum]. intros [->|H].
  - pose proof (csum_ge0 f cs (fun c Hc => P c (or_intror Hc))). lia.
  - specialize (IH (fun c Hc => P c (or_intror Hc)) H). specialize (P d (or_introl eq_refl)). lia.
Qed.
Lemma csum_pos {Y} (f : Y -> Z) cs : (1 <= csum f cs)%Z -> exists c, In c cs /\ (1 <= f c)%Z.
Proof.
  induction cs as [|d cs IH]; cbn [csum]; intros H; [lia|]. destruct (Z_le_gt_dec 1 (f d)); [exists d; cbn; auto|].
  destruct IH as (c & Hc & ?); [lia|]. exists c. cbn; auto.
Qed.

Section ChoiceClean.
  Variables (R : net) (cs : list comp) (X G : string -> Prop) (pre post : string -> string -> Prop) (s e : string) (sg ep : comp -> string).
  Hypothesis L : linked R cs X G pre post.
  Hypothesis (NC : NoDup cs) (NE : cs <> []).
  Hypothesis (Gs : G s) (Ge : G e) (se : s <> e) (HG : forall q, G q -> q = s \/ q = e).
  Hypothesis Hpre : forall t q, pre t q <-> exists c, In c cs /\ ((t = sg c /\ q = s) \/ (t = ep c /\ q = c_p c (c_o c))).
  Hypothesis Hpost : forall t q, post t q <-> exists c, In c cs /\ ((t = sg c /\ q = c_p c (c_i c)) \/ (t = ep c /\ q = e)).
  Hypothesis HX : forall t, X t <-> exists c, In c cs /\ (t = sg c \/ t = ep c).
  Hypothesis (Isg : forall c d, In c cs -> In d cs -> sg c = sg d -> c = d) (Iep : forall c d, In c cs -> In d cs -> ep c = ep d -> c = d).
  Let K := l_k _ _ _ _ _ _ L.
  Let gp q c p : G q -> In c cs -> has_place (c_net c) p -> q <> c_p c p := k_gp _ _ _ _ _ _ K q c p.
  Variables (names : dict string string) (pat : comp -> pattern).
  Hypothesis (Ep : forall c, In c cs -> pnet (pat c) = c_net c).
  Lemma choice_clean st : (forall c, In c cs -> connected (c_net c)) -> (forall c, In c cs -> ends_clean st (pat c)) -> ends_clean st (Pattern R names).
  Proof.
    intros HC CL. apply (clean_at _ (Pattern R names) s e); cbn [pnet].
    { apply (ch_source R cs X G pre post s e sg ep); auto. }
    { apply (ch_sink R cs X G pre post s e sg ep); auto. }
    intros l M H Ho. pose proof (run_has _ _ _ _ _ H) as F. pose proof (run_ge0 _ _ _ _ _ H (one_at_ge0 _)) as G1.
    assert (E1 : M s = (1 - csum (fun c => occ (sg c) l) cs)%Z).
    { pose proof (run_tokens _ _ _ _ _ s H) as E. rewrite one_at_same in E.
      rewrite (sum_as R _ (fun t => 0 - csum (fun c => one_at (sg c) t) cs)%Z l F) in E.
      - rewrite sum_sub, sum_0, (sum_csum (fun c => one_at (sg c))) in E. unfold occ. lia.
      - intros t Ht. apply (l_effect _ _ _ _ _ _ L); auto.
        + right; split; [|auto]. apply (ch_no_post_s R cs X G pre post s e sg ep); auto.
        + rewrite (ch_pre_s R cs X G pre post s sg ep) by auto. apply csum_case; auto. }
    assert (E2 : M e = csum (fun c => occ (ep c) l) cs).
    { pose proof (run_tokens _ _ _ _ _ e H) as E. rewrite (one_at_other s e) in E by auto.
      rewrite (sum_as R _ (fun t => csum (fun c => one_at (ep c) t) cs - 0)%Z l F) in E.
      - rewrite sum_sub, sum_0, (sum_csum (fun c => one_at (ep c))) in E. unfold occ. lia.
      - intros t Ht. apply (l_effect _ _ _ _ _ _ L); auto; [|right; split; [apply (ch_no_pre_e R cs X G pre post s e sg ep); auto|auto]].
        rewrite (ch_post_e R cs X G pre post e sg ep) by auto. apply csum_case; auto. }
    pose proof (fun c (_ : In c cs) => occ_ge0 (sg c) l) as Psg. pose proof (fun c (_ : In c cs) => occ_ge0 (ep c) l) as Pep.
    assert (T : forall c, In c cs -> (occ (sg c) l = 0%Z -> occ (ep c) l = 0%Z /\ forall p, view (c_net c) (c_p c) M p = 0%Z) /\
       ((1 <= view (c_net c) (c_p c) M (c_o c) + occ (ep c) l)%Z -> occ (sg c) l = 1%Z /\
          forall p, (view (c_net c) (c_p c) M p + occ (ep c) l * one_at (c_o c) p = one_at (c_o c) p)%Z)).
    { intros c Hc. apply (part_end _ _ _ _ _ _ L c (pat c) st (one_at s) l); auto.
      - intros p. rewrite view_one by (intros q Hq E; symmetry in E; exact (gp s c q Gs Hc Hq E)).
        replace (sum (enters (c_net c) R (c_p c) (c_t c) (c_i c)) l) with (occ (sg c) l); [lia|]. symmetry.
        apply (sum_as R); [auto|]. intros t Ht. apply (l_enters _ _ _ _ _ _ L); auto. rewrite (ch_post_i R cs X G pre post e sg ep) by auto. apply one_case.
      - apply (sum_as R); [auto|]. intros t Ht. apply (l_leaves _ _ _ _ _ _ L); auto. rewrite (ch_pre_o R cs X G pre post s sg ep) by auto. apply one_case.
      - pose proof (csum_in (fun c => occ (sg c) l) cs c Psg Hc) as B. cbv beta in B. specialize (Psg c Hc). specialize (G1 s). lia. }
    rewrite E2 in Ho. apply csum_pos in Ho. destruct Ho as (c & Hc & Ho).
    assert (Gv : forall d p, (0 <= view (c_net d) (c_p d) M p)%Z) by (intros d p; unfold view; destruct mem; [apply G1|lia]).
    destruct (T c Hc) as [_ Tc]. specialize (Gv c (c_o c)) as Gc. destruct Tc as [Ec Tc]; [lia|].
    assert (Ej : occ (ep c) l = 1%Z) by (specialize (Tc (c_o c)); rewrite one_at_same in Tc; lia).
    assert (S1 : csum (fun c => occ (sg c) l) cs = 1%Z).
    { pose proof (csum_in (fun c => occ (sg c) l) cs c Psg Hc) as B. cbv beta in B. specialize (G1 s). lia. }
    destruct (csum_one _ _ Psg S1 NC) as (c' & Hc' & Ec' & Ed).
    assert (c' = c). { destruct (string_dec (sg c) (sg c')) as [Q|Q]; [symmetry; apply Isg; auto|]. exfalso. specialize (Ed c Hc ltac:(congruence)). cbv beta in Ed. lia. }
    subst c'.
    assert (V : forall d p, In d cs -> view (c_net d) (c_p d) M p = 0%Z).
    { intros d p Hd. destruct (string_dec (sg d) (sg c)) as [Q|Q].
      - rewrite (Isg d c Hd Hc Q). specialize (Tc p). rewrite Ej in Tc. lia.
      - apply (proj2 (proj1 (T d Hd) (Ed d Hd ltac:(congruence)))). }
    assert (Me : M e = 1%Z).
    { rewrite E2. rewrite <- S1. apply csum_ext. intros d Hd. destruct (string_dec (sg d) (sg c)) as [Q|Q].
      - rewrite (Isg d c Hd Hc Q). lia.
      - pose proof (Ed d Hd ltac:(congruence)) as Z. cbv beta in Z. rewrite (proj1 (proj1 (T d Hd) Z)). lia. }
    apply (whole _ _ _ _ _ _ L st (one_at s) l M); auto.
    - intros q Hq. apply one_at_other. intros ->. apply Hq. apply (k_p _ _ _ _ _ _ K). auto.
    - apply (k_p _ _ _ _ _ _ K). auto.
    - intros q Hq. destruct (HG q Hq) as [->| ->]; [rewrite one_at_other by auto; lia|rewrite one_at_same; auto].
    - intros d p Hd Hp. specialize (V d p Hd). rewrite view_at in V by auto. rewrite V, one_at_other; [auto|]. intros E; symmetry in E; exact (gp e d p Ge Hd Hp E).
  Qed.
End ChoiceClean.

Section ParClean.
  Variables (R : net) (A B : comp) (X G : string -> Prop) (pre post : string -> string -> Prop) (s e t0 t1 : string).
  Hypothesis L : linked R [A; B] X G pre post.
  Hypothesis AB : c_nr A <> c_nr B.
  Hypothesis (Gs : G s) (Ge : G e) (se : s <> e) (HG : forall q, G q -> q = s \/ q = e) (tt : t0 <> t1).
  Hypothesis HX : forall t, X t <-> t = t0 \/ t = t1.
  Hypothesis Hpre : forall t q, pre t q <-> (t = t0 /\ q = s) \/ (t = t1 /\ (q = c_p A (c_o A) \/ q = c_p B (c_o B))).
  Hypothesis Hpost : forall t q, post t q <-> (t = t0 /\ (q = c_p A (c_i A) \/ q = c_p B (c_i B))) \/ (t = t1 /\ q = e).
  Let K := l_k _ _ _ _ _ _ L.
  Let pA : has_place (c_net A) (c_i A) := l_ip _ _ _ _ _ _ L A (inA A B).
  Let qA : has_place (c_net A) (c_o A) := l_op _ _ _ _ _ _ L A (inA A B).
  Let pB : has_place (c_net B) (c_i B) := l_ip _ _ _ _ _ _ L B (inB A B).
  Let qB : has_place (c_net B) (c_o B) := l_op _ _ _ _ _ _ L B (inB A B).
  Let gA q p : G q -> has_place (c_net A) p -> q <> c_p A p := fun H => k_gp _ _ _ _ _ _ K q A p H (inA A B).
  Let gB q p : G q -> has_place (c_net B) p -> q <> c_p B p := fun H => k_gp _ _ _ _ _ _ K q B p H (inB A B).
  Let ap p q : has_place (c_net A) p -> has_place (c_net B) q -> c_p A p <> c_p B q := apart_p R A B X G pre post L AB p q.
  Variables (names : dict string string) (a b : pattern).
  Hypothesis (Ea : pnet a = c_net A) (Eb : pnet b = c_net B).
  Lemma par_clean st : connected (c_net A) -> connected (c_net B) -> ends_clean st a -> ends_clean st b -> ends_clean st (Pattern R names).
  Proof.
    intros CA CB Ca Cb. apply (clean_at _ (Pattern R names) s e); cbn [pnet].
    { apply (pa_source R A B X G pre post s e t0 t1); auto. }
    { apply (pa_sink R A B X G pre post s e t0 t1); auto. }
    intros l M H Ho. pose proof (run_has _ _ _ _ _ H) as F. pose proof (run_ge0 _ _ _ _ _ H (one_at_ge0 _)) as G1.
    assert (E1 : M s = (1 - occ t0 l)%Z).
    { pose proof (run_tokens _ _ _ _ _ s H) as E. rewrite one_at_same in E.
      rewrite (sum_as R _ (fun t => 0 - one_at t0 t)%Z l F) in E.
      - rewrite sum_sub, sum_0 in E. unfold occ. lia.
      - intros t Ht. apply (l_effect _ _ _ _ _ _ L); auto.
        + right. split; [|auto]. rewrite Hpost. intros [[_ [E'|E']]|[_ E']]; [refine (gA _ _ _ _ E')|refine (gB _ _ _ _ E')|]; auto.
        + rewrite Hpre. destruct (one_case t0 t) as [[-> ->]|[Hn ->]]; [left; auto|right; split; [|auto]].
          intros [[? _]|[_ [E'|E']]]; [auto|refine (gA _ _ _ _ E')|refine (gB _ _ _ _ E')]; auto. }
    assert (E2 : M e = occ t1 l).
    { pose proof (run_tokens _ _ _ _ _ e H) as E. rewrite (one_at_other s e) in E by auto.
      rewrite (sum_as R _ (fun t => one_at t1 t - 0)%Z l F) in E.
      - rewrite sum_sub, sum_0 in E. unfold occ. lia.
      - intros t Ht. apply (l_effect _ _ _ _ _ _ L); auto.
        + rewrite Hpost. destruct (one_case t1 t) as [[-> ->]|[Hn ->]]; [left; auto|right; split; [|auto]].
          intros [[_ [E'|E']]|[? _]]; [refine (gA _ _ _ _ E')|refine (gB _ _ _ _ E')|auto]; auto.
        + right. split; [|auto]. rewrite Hpre. intros [[_ E']|[_ [E'|E']]]; [congruence|refine (gA _ _ _ _ E')|refine (gB _ _ _ _ E')]; auto. }
    pose proof (occ_ge0 t0 l) as P0. pose proof (occ_ge0 t1 l) as P1.
    assert (Z01 : (occ t0 l = 0 \/ occ t0 l = 1)%Z) by (specialize (G1 s); lia).
    assert (Gv : forall d p, (0 <= view (c_net d) (c_p d) M p)%Z) by (intros d p; unfold view; destruct mem; [apply G1|lia]).
    destruct (part_end _ _ _ _ _ _ L A a st _ _ _ (occ t0 l) (occ t1 l) (inA A B) Ea CA Ca G1 H) as [_ TA]; auto.
    { intros p. rewrite view_one by (intros q Hq E; symmetry in E; revert E; apply gA; auto).
      replace (sum (enters (c_net A) R (c_p A) (c_t A) (c_i A)) l) with (occ t0 l); [lia|]. symmetry.
      apply (sum_as R); [auto|]. intros t Ht. apply (l_enters _ _ _ _ _ _ L); auto using inA. rewrite Hpost.
      destruct (one_case t0 t) as [[-> ->]|[Hn ->]]; [left; auto|right; split; [|auto]]. intros [[? _]|[_ E]]; [auto|]. symmetry in E. revert E. apply gA; auto. }
    { apply (sum_as R); [auto|]. intros t Ht. apply (l_leaves _ _ _ _ _ _ L); auto using inA. rewrite Hpre.
      destruct (one_case t1 t) as [[-> ->]|[Hn ->]]; [left; auto|right; split; [|auto]]. intros [[_ E]|[? _]]; [|auto]. symmetry in E. revert E. apply gA; auto. }
    destruct (part_end _ _ _ _ _ _ L B b st _ _ _ (occ t0 l) (occ t1 l) (inB A B) Eb CB Cb G1 H) as [_ TB]; auto.
    { intros p. rewrite view_one by (intros q Hq E; symmetry in E; revert E; apply gB; auto).
      replace (sum (enters (c_net B) R (c_p B) (c_t B) (c_i B)) l) with (occ t0 l); [lia|]. symmetry.
      apply (sum_as R); [auto|]. intros t Ht. apply (l_enters _ _ _ _ _ _ L); auto using inB. rewrite Hpost.
      destruct (one_case t0 t) as [[-> ->]|[Hn ->]]; [left; auto|right; split; [|auto]]. intros [[? _]|[_ E]]; [auto|]. symmetry in E. revert E. apply gB; auto. }
    { apply (sum_as R); [auto|]. intros t Ht. apply (l_leaves _ _ _ _ _ _ L); auto using inB. rewrite Hpre.
      destruct (one_case t1 t) as [[-> ->]|[Hn ->]]; [left; auto|right; split; [|auto]]. intros [[_ E]|[? _]]; [|auto]. symmetry in E. revert E. apply gB; auto. }
    destruct TA as [Ez TA]; [specialize (Gv A (c_o A)); lia|]. destruct TB as [_ TB]; [specialize (Gv B (c_o B)); lia|].
    assert (Ej : occ t1 l = 1%Z) by (specialize (TA (c_o A)); specialize (Gv A (c_o A)); rewrite one_at_same in TA; lia).
    rewrite Ej in TA, TB.
    apply (whole _ _ _ _ _ _ L st (one_at s) l M); auto.
    - intros q Hq. apply one_at_other. intros ->. apply Hq. apply (k_p _ _ _ _ _ _ K). auto.
    - apply (k_p _ _ _ _ _ _ K). auto.
    - intros q Hq. destruct (HG q Hq) as [->| ->]; [rewrite one_at_other by auto; lia|rewrite one_at_same; lia].
    - intros d p [<-|[<-|[]]] Hp.
      + specialize (TA p). rewrite view_at in TA by auto. rewrite one_at_other by (intros E; symmetry in E; revert E; apply gA; auto). lia.
      + specialize (TB p). rewrite view_at in TB by auto. rewrite one_at_other by (intros E; symmetry in E; revert E; apply gB; auto). lia.
  Qed.
End ParClean.

Lemma fires_at n st i t M : connected n -> fires n st (one_at i) t M -> In i (starts n t).
Proof.
  intros C (F1 & _ & F3 & _). destruct (C t F1) as [Hs _]. destruct (starts n t) as [|p r]; [congruence|].
  specialize (F3 p (or_introl eq_refl)). unfold one_at in F3. destruct (eqb_ok p i) as [->|]; [cbn; auto|lia].
Qed.
Section RepClean.
  Variables (R : net) (A : comp) (X G : string -> Prop) (pre post : string -> string -> Prop) (s e t0 t1 t2 : string).
  Hypothesis L : linked R [A] X G pre post.
  Hypothesis (Gs : G s) (Ge : G e) (se : s <> e) (HG : forall q, G q -> q = s \/ q = e).
  Hypothesis (n01 : t0 <> t1) (n02 : t0 <> t2) (n12 : t1 <> t2).
  Hypothesis HX : forall t, X t <-> t = t0 \/ t = t1 \/ t = t2.
  Hypothesis Hpre : forall t q, pre t q <-> (t = t0 /\ q = s) \/ (t = t1 /\ q = c_p A (c_o A)) \/ (t = t2 /\ q = c_p A (c_o A)).
  Hypothesis Hpost : forall t q, post t q <-> (t = t0 /\ q = c_p A (c_i A)) \/ (t = t1 /\ q = e) \/ (t = t2 /\ q = c_p A (c_i A)).
  Let K := l_k _ _ _ _ _ _ L.
  Let iA : In A [A]. Proof. cbn. auto. Qed.
  Let pA : has_place (c_net A) (c_i A) := l_ip _ _ _ _ _ _ L A iA.
  Let qA : has_place (c_net A) (c_o A) := l_op _ _ _ _ _ _ L A iA.
  Let gA q p : G q -> has_place (c_net A) p -> q <> c_p A p := fun H => k_gp _ _ _ _ _ _ K q A p H iA.
  Variables (names : dict string string) (a : pattern).
  Hypothesis (Ea : pnet a = c_net A) (CA : connected (c_net A)).
  Let X0 : X t0. Proof. apply HX. auto. Qed.
  Lemma rep_clean st : ends_clean st a -> ends_clean st (Pattern R names).
  Proof.
    intros CL.
    assert (src : forall q, source R q <-> q = s) by (apply (re_source R A X G pre post s e t0 t1 t2); auto).
    assert (snk : forall q, sink R q <-> q = e) by (apply (re_sink R A X G pre post s e t0 t1 t2); auto).
    assert (CR : connected R) by (apply (re_connected R A X G pre post s e t0 t1 t2); auto).
    assert (srcA : forall q, source (pnet a) q <-> q = c_i A) by (intros q; rewrite Ea; apply (l_i _ _ _ _ _ _ L A q iA)).
    assert (snkA : forall q, sink (pnet a) q <-> q = c_o A) by (intros q; rewrite Ea; apply (l_o _ _ _ _ _ _ L A q iA)).
    pose proof (proj1 (clean_at st a _ _ srcA snkA) CL) as CL'. rewrite Ea in CL'.
    set (Inv := fun M : mark => (forall q, M q = one_at s q) \/ (forall q, M q = one_at e q) \/
      ((forall q, (forall p, has_place (c_net A) p -> q <> c_p A p) -> M q = 0%Z) /\ exists u, run (c_net A) st (one_at (c_i A)) u (view (c_net A) (c_p A) M))).
    assert (Start : forall M, (forall q, M q = one_at (c_p A (c_i A)) q) -> Inv M).
    { intros M HM. right. right. split; [intros q Hq; rewrite HM; apply one_at_other; auto|]. exists []. apply run_nil. intros p.
      rewrite <- (view_own _ _ _ _ _ _ L A (c_i A) iA pA). unfold view. destruct mem; auto. }
    assert (Step : forall M x M1, Inv M -> fires R st M x M1 -> Inv M1).
    { intros M x M1 [Hs|[He|[Ho [u Hu]]]] F.
      - assert (F' : fires R st (one_at s) x M1) by (destruct F as (F1 & F2 & F3 & F4); split; [auto|split; [auto|split; intros; rewrite <- Hs; auto]]).
        pose proof (fires_at _ _ _ _ _ CR F') as Hi. destruct F' as (F1 & F2 & F3 & F4).
        assert (x = t0).
        { apply (k_t _ _ _ _ _ _ K) in F1. destruct F1 as [Hx|(c & v & [<-|[]] & Hv & ->)].
          - apply (k_pre _ _ _ _ _ _ K) in Hi; [|auto]. apply Hpre in Hi. destruct Hi as [[? _]|[[_ E]|[_ E]]]; [auto|exfalso; refine (gA _ _ _ _ E); auto..].
          - exfalso. pose proof (k_in _ _ _ _ _ _ K A iA) as I. apply (in_starts _ _ _ _ I) in Hi; [|auto]. destruct Hi as (p & Hp & E).
            refine (gA _ _ _ _ E); auto. eapply w_sp; [eapply l_wf; eauto|eauto]. }
        subst x. apply Start. intros q. rewrite F4, effect_ind.
        rewrite (marks_ind (pre t0) (one_at s) _ ltac:(eapply marks_iff; [apply marks_one|]; intros z; rewrite Hpre; intuition congruence) (fun q => k_pre _ _ _ _ _ _ K t0 q X0)).
        rewrite (marks_ind (post t0) (one_at (c_p A (c_i A))) _ ltac:(eapply marks_iff; [apply marks_one|]; intros z; rewrite Hpost; intuition congruence) (fun q => k_post _ _ _ _ _ _ K t0 q X0)).
        lia.
      - exfalso. assert (F' : fires R st (one_at e) x M1) by (destruct F as (F1 & F2 & F3 & F4); split; [auto|split; [auto|split; intros; rewrite <- He; auto]]).
        pose proof (fires_at _ _ _ _ _ CR F') as Hi. destruct (proj2 (snk e) eq_refl) as [_ Hn]. apply Hn. exists x. auto.
      - pose proof F as (F1 & F2 & F3 & F4). pose proof F1 as F1'. apply (k_t _ _ _ _ _ _ K) in F1'. destruct F1' as [Hx|(c & v & [<-|[]] & Hv & ->)].
        + destruct (proj1 (HX x) Hx) as [->|E12].
          { exfalso. assert (Hi : In s (starts R t0)) by (apply (k_pre _ _ _ _ _ _ K); auto; apply Hpre; auto).
            specialize (F3 s Hi). rewrite Ho in F3 by auto. lia. }
          assert (Ho1 : (1 <= view (c_net A) (c_p A) M (c_o A))%Z).
          { rewrite view_at by auto. apply F3. apply (k_pre _ _ _ _ _ _ K); auto. apply Hpre. destruct E12 as [->| ->]; auto. }
          pose proof (CL' _ _ Hu Ho1) as Hv.
          assert (HM : forall q, M q = one_at (c_p A (c_o A)) q).
          { intros q. destruct (image_dec (c_net A) (c_p A) q) as [(p & Hp & ->)|N].
            - specialize (Hv p). rewrite <- (view_own _ _ _ _ _ _ L A (c_o A) iA qA) in Hv. rewrite !view_at in Hv by auto. auto.
            - rewrite Ho by auto. rewrite !one_at_other by auto. auto. }
          assert (Go : forall b, marks (post x) (one_at b) -> forall q, M1 q = one_at b q).
          { intros b Hb q. rewrite F4, HM, effect_ind.
            rewrite (marks_ind _ _ _ Hb (fun q => k_post _ _ _ _ _ _ K x q Hx)).
            assert (Hp : marks (pre x) (one_at (c_p A (c_o A)))).
            { eapply marks_iff; [apply marks_one|]. intros z. rewrite Hpre. destruct E12 as [->| ->]; intuition congruence. }
            rewrite (marks_ind _ _ _ Hp (fun q => k_pre _ _ _ _ _ _ K x q Hx)). lia. }
          destruct E12 as [->| ->].
          * right. left. apply Go. eapply marks_iff; [apply marks_one|]. intros z. rewrite Hpost. intuition congruence.
          * apply Start. apply Go. eapply marks_iff; [apply marks_one|]. intros z. rewrite Hpost. intuition congruence.
        + right. right. assert (Hr : run R st M (map (c_t A) [v]) M1) by (cbn [map]; eapply run_cons; [exact F|apply run_nil; auto]).
          destruct (own_run _ _ _ _ _ _ L A st _ [v] _ iA ltac:(repeat constructor; auto) Hr) as [Hu' Ho'].
          split; [intros q Hq; rewrite Ho' by auto; auto|]. exists (u ++ [v]). eapply run_app; eauto. }
    assert (All : forall l M M1, Inv M -> run R st M l M1 -> Inv M1).
    { induction l as [|x l IH]; intros M M1 HM H.
      - pose proof (run_nil_inv _ _ _ _ H) as E. destruct HM as [HM|[HM|[Ho [u Hu]]]]; [left|right; left|right; right]; try (intros q; rewrite E; auto).
        split; [intros q Hq; rewrite E; auto|]. exists u. eapply run_ext; [exact Hu|auto|]. intros p. unfold view. destruct mem; auto.
      - apply run_cons_inv in H. destruct H as (M2 & F & H). eauto. }
    apply (clean_at _ (Pattern R names) s e src snk). cbn [pnet]. intros l M H Hm.
    destruct (All l _ _ (or_introl (fun q => eq_refl)) H) as [E|[E|[E _]]]; [|auto|]; exfalso.
    - rewrite E, one_at_other in Hm by auto. lia.
    - rewrite E in Hm by auto. lia.
  Qed.
End RepClean.
