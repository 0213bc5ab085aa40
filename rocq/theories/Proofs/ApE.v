(** Activity patterns, part 5: the words of each composition *)
From Coq Require Import String ZArith Permutation.
From Verif.Model Require Import Base PetriNet ActivityPattern.
From Verif.Spec Require Import PetriSpec ActivityPatternSpec.
From Verif.Lib Require Import ListLib DictLib.
From Verif.Proofs Require Import PetriA PetriC PetriD ApA ApB ApC ApD.
Open Scope string_scope.
Open Scope list_scope.
Open Scope nat_scope.

Lemma speaks_at st p i o w : (forall q, source (pnet p) q <-> q = i) -> (forall q, sink (pnet p) q <-> q = o) ->
  speaks st p w <-> exists l, run (pnet p) st (one_at i) l (one_at o) /\ letters p l = w.
Proof.
  intros Hi Ho. split.
  - intros (x & y & l & Sx & Sy & H). apply Hi in Sx. apply Ho in Sy. subst. exists l. auto.
  - intros (l & H). exists i, o, l. split; [apply Hi; auto|]. split; [apply Ho; auto|auto].
Qed.
Lemma reach_at st p i l M : (forall q, source (pnet p) q <-> q = i) -> run (pnet p) st (one_at i) l M -> reachable st p M.
Proof. intros Hi H. exists i, l. split; [apply Hi; auto|auto]. Qed.
Lemma letters_app p l m : letters p (l ++ m) = letters p l ++ letters p m.
Proof. apply flat_map_app. Qed.
Lemma one_case x t : (t = x /\ one_at x t = 1%Z) \/ (t <> x /\ one_at x t = 0%Z).
Proof. unfold one_at. destruct (eqb_ok t x); [left|right]; auto. Qed.

(** one after the other *)
Section Seq.
  Variables (R : net) (A B : comp) (X G : string -> Prop) (pre post : string -> string -> Prop) (t0 : string).
  Hypothesis L : linked R [A; B] X G pre post.
  Hypothesis AB : c_nr A <> c_nr B.
  Hypothesis (HX : forall t, X t <-> t = t0) (HG : forall q, ~ G q).
  Hypothesis Hpre : forall t q, pre t q <-> t = t0 /\ q = c_p A (c_o A).
  Hypothesis Hpost : forall t q, post t q <-> t = t0 /\ q = c_p B (c_i B).
  Let K := l_k _ _ _ _ _ _ L.
  Let pA : has_place (c_net A) (c_i A) := l_ip _ _ _ _ _ _ L A (inA A B).
  Let qA : has_place (c_net A) (c_o A) := l_op _ _ _ _ _ _ L A (inA A B).
  Let pB : has_place (c_net B) (c_i B) := l_ip _ _ _ _ _ _ L B (inB A B).
  Let qB : has_place (c_net B) (c_o B) := l_op _ _ _ _ _ _ L B (inB A B).
  Lemma seq_source q : source R q <-> q = c_p A (c_i A).
  Proof.
    rewrite (l_source _ _ _ _ _ _ L). split.
    - intros [(Hg & _)|(c & Hc & -> & N)]; [exfalso; eapply HG; eauto|]. destruct Hc as [<-|[<-|[]]]; [auto|].
      exfalso. apply N. exists t0. apply Hpost. auto.
    - intros ->. right. exists A. split; [apply inA|]. split; [auto|]. intros [t Ht]. apply Hpost in Ht. destruct Ht as [_ E].
      revert E. eapply apart_p; eauto.
  Qed.
  Lemma seq_sink q : sink R q <-> q = c_p B (c_o B).
  Proof.
    rewrite (l_sink _ _ _ _ _ _ L). split.
    - intros [(Hg & _)|(c & Hc & -> & N)]; [exfalso; eapply HG; eauto|]. destruct Hc as [<-|[<-|[]]]; [|auto].
      exfalso. apply N. exists t0. apply Hpre. auto.
    - intros ->. right. exists B. split; [apply inB|]. split; [auto|]. intros [t Ht]. apply Hpre in Ht. destruct Ht as [_ E].
      symmetry in E. revert E. eapply apart_p; eauto.
  Qed.
  Lemma seq_connected : connected (c_net A) -> connected (c_net B) -> connected R.
  Proof.
    intros CA CB. eapply k_connected; [exact K|..].
    - intros c [<-|[<-|[]]]; auto.
    - intros t Hx. apply HX in Hx. subst t. split; [exists (c_p A (c_o A)); apply Hpre; auto|exists (c_p B (c_i B)); apply Hpost; auto].
  Qed.
  Variables (names : dict string string) (a b : pattern).
  Hypothesis (Ea : pnet a = c_net A) (Sa : spelled names A a) (Eb : pnet b = c_net B) (Sb : spelled names B b).
  Let P := Pattern R names.
  Let srcA : forall q, source (pnet a) q <-> q = c_i A.
  Proof. intros q. rewrite Ea. apply (l_i _ _ _ _ _ _ L A q (inA A B)). Qed.
  Let snkA : forall q, sink (pnet a) q <-> q = c_o A.
  Proof. intros q. rewrite Ea. apply (l_o _ _ _ _ _ _ L A q (inA A B)). Qed.
  Let srcB : forall q, source (pnet b) q <-> q = c_i B.
  Proof. intros q. rewrite Eb. apply (l_i _ _ _ _ _ _ L B q (inB A B)). Qed.
  Let snkB : forall q, sink (pnet b) q <-> q = c_o B.
  Proof. intros q. rewrite Eb. apply (l_o _ _ _ _ _ _ L B q (inB A B)). Qed.
  Lemma seq_words_in st u v : speaks st a u -> speaks st b v -> speaks st P (u ++ v).
  Proof.
    rewrite (speaks_at _ _ _ _ _ srcA snkA), (speaks_at _ _ _ _ _ srcB snkB), (speaks_at st P _ _ _ seq_source seq_sink).
    rewrite Ea, Eb. intros (l1 & R1 & <-) (l2 & R2 & <-).
    assert (Xt : X t0) by (apply HX; auto).
    exists (map (c_t A) l1 ++ [t0] ++ map (c_t B) l2). split.
    - eapply run_app; [apply (lift_whole _ _ _ _ _ _ L A st (c_i A) (c_o A) l1); auto using inA|].
      eapply run_app; [|apply (lift_whole _ _ _ _ _ _ L B st (c_i B) (c_o B) l2); auto using inB].
      apply (glue_run _ _ _ _ _ _ L); [auto|..]; (eapply marks_iff; [apply marks_one|]); intros q; rewrite ?Hpre, ?Hpost; intuition.
    - rewrite !letters_app. unfold P. rewrite (letters_map _ _ _ _ _ _ L names A a), (letters_map _ _ _ _ _ _ L names B b); auto using inA, inB; try (eapply run_has; eauto).
      cbn [letters flat_map]. rewrite (spell_glue _ _ _ _ _ _ L) by auto. auto.
  Qed.
  Lemma seq_words_out st w : connected (c_net A) -> connected (c_net B) -> ends_once st a -> speaks st P w ->
    exists u v, w = u ++ v /\ speaks st a u /\ speaks st b v.
  Proof.
    intros CA CB Once. rewrite (speaks_at st P _ _ _ seq_source seq_sink). cbn [pnet P]. intros (l & H & <-).
    assert (NA : forall p, has_place (c_net B) p -> c_p B p <> c_p A (c_i A)) by (intros p Hp E; symmetry in E; revert E; eapply apart_p; eauto).
    assert (NB : forall p, has_place (c_net A) p -> c_p A p <> c_p B (c_o B)) by (intros p Hp; eapply apart_p; eauto).
    assert (IA : forall t, has_transition R t -> enters (c_net A) R (c_p A) (c_t A) (c_i A) t = 0%Z).
    { intros t Ht. apply (l_enters _ _ _ _ _ _ L); [apply inA|auto|]. right. split; [|auto]. rewrite Hpost. intros [_ E]. revert E. eapply apart_p; eauto. }
    assert (OA : forall t, has_transition R t -> leaves (c_net A) R (c_p A) (c_t A) (c_o A) t = one_at t0 t).
    { intros t Ht. apply (l_leaves _ _ _ _ _ _ L); [apply inA|auto|]. rewrite Hpre. destruct (one_case t0 t) as [[-> ->]|[? ->]]; [left|right]; intuition. }
    assert (IB : forall t, has_transition R t -> enters (c_net B) R (c_p B) (c_t B) (c_i B) t = one_at t0 t).
    { intros t Ht. apply (l_enters _ _ _ _ _ _ L); [apply inB|auto|]. rewrite Hpost. destruct (one_case t0 t) as [[-> ->]|[? ->]]; [left|right]; intuition. }
    assert (OB : forall t, has_transition R t -> leaves (c_net B) R (c_p B) (c_t B) (c_o B) t = 0%Z).
    { intros t Ht. apply (l_leaves _ _ _ _ _ _ L); [apply inB|auto|]. right. split; [|auto]. rewrite Hpre. intros [_ E]. symmetry in E. revert E. eapply apart_p; eauto. }
    assert (PA : forall M l M1, run R st M l M1 -> run (c_net A) st (view (c_net A) (c_p A) M) (proj (c_net A) (c_t A) l)
        (fun p => view (c_net A) (c_p A) M1 p + occ t0 l * one_at (c_o A) p)%Z).
    { intros M m M1 Hr. pose proof (run_has _ _ _ _ _ Hr) as F.
      eapply run_ext; [apply (proj_run _ _ _ _ _ _ _ _ _ _ (k_in _ _ _ _ _ _ K A (inA A B)) (l_gates _ _ _ _ _ _ L A (inA A B)) Hr)|..]; intros p; cbv beta.
      - rewrite (sum_const0 R _ m F IA). lia.
      - rewrite (sum_as R _ _ m F OA). auto. }
    assert (PB : forall M l M1, run R st M l M1 -> run (c_net B) st (fun p => view (c_net B) (c_p B) M p + occ t0 l * one_at (c_i B) p)%Z (proj (c_net B) (c_t B) l)
        (view (c_net B) (c_p B) M1)).
    { intros M m M1 Hr. pose proof (run_has _ _ _ _ _ Hr) as F.
      eapply run_ext; [apply (proj_run _ _ _ _ _ _ _ _ _ _ (k_in _ _ _ _ _ _ K B (inB A B)) (l_gates _ _ _ _ _ _ L B (inB A B)) Hr)|..]; intros p; cbv beta.
      - rewrite (sum_as R _ _ m F IB). auto.
      - rewrite (sum_const0 R _ m F OB). lia. }
    assert (V0A : forall p, view (c_net A) (c_p A) (one_at (c_p A (c_i A))) p = one_at (c_i A) p) by (eapply view_own; eauto using inA).
    assert (V1A : forall p, view (c_net A) (c_p A) (one_at (c_p B (c_o B))) p = 0%Z) by (apply view_one; auto).
    assert (V0B : forall p, view (c_net B) (c_p B) (one_at (c_p A (c_i A))) p = 0%Z) by (apply view_one; auto).
    assert (V1B : forall p, view (c_net B) (c_p B) (one_at (c_p B (c_o B))) p = one_at (c_o B) p) by (eapply view_own; eauto using inB).
    assert (k1 : occ t0 l = 1%Z).
    { pose proof (PA _ _ _ H) as HA. pose proof (PB _ _ _ H) as HB.
      assert (occ t0 l <= 1)%Z.
      { assert (Re : reachable st a (fun p => view (c_net A) (c_p A) (one_at (c_p B (c_o B))) p + occ t0 l * one_at (c_o A) p)%Z).
        { eapply (reach_at st a); [exact srcA|]. rewrite Ea. eapply run_ext; [exact HA|intros p; symmetry; apply V0A|auto]. }
        pose proof (Once (c_o A) _ (proj2 (snkA _) eq_refl) Re) as O. cbv beta in O. rewrite V1A, one_at_same in O. lia. }
      pose proof (occ_ge0 t0 l). destruct (Z.eq_dec (occ t0 l) 1); [auto|]. exfalso.
      assert (E0 : occ t0 l = 0%Z) by lia. rewrite E0 in HB.
      assert (Ep : proj (c_net B) (c_t B) l = []).
      { eapply run_from_zero; [exact CB|exact HB|]. intros p. cbv beta. rewrite V0B. lia. }
      rewrite Ep in HB. pose proof (run_nil_inv _ _ _ _ HB (c_o B)) as E. cbv beta in E. rewrite V1B, V0B, one_at_same in E. lia. }
    assert (Hin : In t0 l) by (apply occ_In; lia).
    apply in_split in Hin. destruct Hin as (l1 & l2 & ->).
    assert (occ_app : forall x u v, occ x (u ++ v) = (occ x u + occ x v)%Z).
    { intros x u v. unfold occ. induction u as [|y u IH]; cbn; [auto|]. rewrite IH. lia. }
    rewrite occ_app in k1. unfold occ at 2 in k1. cbn [sum] in k1. rewrite one_at_same in k1. fold (occ t0 l2) in k1.
    pose proof (occ_ge0 t0 l1) as P1. pose proof (occ_ge0 t0 l2) as P2. assert (o1 : occ t0 l1 = 0%Z) by lia. assert (o2 : occ t0 l2 = 0%Z) by lia.
    pose proof (PA _ _ _ H) as HA. pose proof (PB _ _ _ H) as HB. pose proof (run_has _ _ _ _ _ H) as F.
    apply run_split in H. destruct H as (K1 & H1 & H2). apply run_cons_inv in H2. destruct H2 as (K2 & Ft & H2).
    assert (Xt : X t0) by (apply HX; auto).
    assert (B1 : proj (c_net B) (c_t B) l1 = []).
    { eapply run_from_zero; [exact CB|exact (PB _ _ _ H1)|]. intros p. cbv beta. rewrite V0B, o1. lia. }
    assert (A2 : proj (c_net A) (c_t A) l2 = []).
    { eapply run_to_zero; [exact CA| |exact (PA _ _ _ H2)|].
      - intros p. unfold view. destruct mem; [|lia]. eapply fires_ge0; [exact Ft|]. eapply run_ge0; [exact H1|apply one_at_ge0].
      - intros p. cbv beta. rewrite V1A, o2. lia. }
    assert (T0A : proj (c_net A) (c_t A) [t0] = []) by (cbn; rewrite (owner_glue _ _ _ _ _ _ L A) by auto using inA; auto).
    assert (T0B : proj (c_net B) (c_t B) [t0] = []) by (cbn; rewrite (owner_glue _ _ _ _ _ _ L B) by auto using inB; auto).
    change (t0 :: l2) with ([t0] ++ l2) in *. rewrite !proj_app, T0A, A2 in HA. rewrite !proj_app, T0B, B1 in HB. rewrite !app_nil_r in HA. cbn [app] in HB.
    apply Forall_app in F. destruct F as [F1 F2]. apply Forall_app in F2. destruct F2 as [_ F2].
    exists (letters a (proj (c_net A) (c_t A) l1)), (letters b (proj (c_net B) (c_t B) l2)). split; [|split].
    - rewrite !letters_app. f_equal.
      + eapply letters_A; eauto.
      + unfold P. cbn [letters flat_map]. rewrite (spell_glue _ _ _ _ _ _ L) by auto. cbn [app]. eapply letters_B; eauto.
    - apply (speaks_at _ _ _ _ _ srcA snkA). exists (proj (c_net A) (c_t A) l1). split; [|auto]. rewrite Ea.
      eapply run_ext; [exact HA|intros p; symmetry; apply V0A|]. intros p. cbv beta. rewrite V1A, occ_app, o1. unfold occ. cbn [sum app]. fold (occ t0 l2). rewrite o2, one_at_same. lia.
    - apply (speaks_at _ _ _ _ _ srcB snkB). exists (proj (c_net B) (c_t B) l2). split; [|auto]. rewrite Eb.
      eapply run_ext; [exact HB| |intros p; symmetry; apply V1B]. intros p. cbv beta. rewrite V0B, occ_app, o1. unfold occ. cbn [sum app]. fold (occ t0 l2). rewrite o2, one_at_same. lia.
  Qed.
End Seq.
