(** Activity patterns, part 6: the words of choices, repetitions and parallel
    and interleaved nets *)
From Coq Require Import String ZArith Permutation.
From Verif.Model Require Import Base PetriNet ActivityPattern.
From Verif.Spec Require Import PetriSpec ActivityPatternSpec.
From Verif.Lib Require Import ListLib DictLib.
From Verif.Proofs Require Import PetriA PetriC PetriD ApA ApB ApC ApD ApE.
Open Scope string_scope.
Open Scope list_scope.
Open Scope nat_scope.

Lemma occ_app x u v : occ x (u ++ v) = (occ x u + occ x v)%Z.
Proof. unfold occ. induction u as [|y u IH]; cbn; [auto|]. rewrite IH. lia. Qed.

(** sums over nets *)
Fixpoint csum {Y} (f : Y -> Z) (cs : list Y) : Z := match cs with [] => 0%Z | c :: cs' => (f c + csum f cs')%Z end.
Lemma csum_ext {Y} (f g : Y -> Z) cs : (forall c, In c cs -> f c = g c) -> csum f cs = csum g cs.
Proof. induction cs as [|c cs IH]; intros H; cbn; [auto|]. rewrite (H c), IH; cbn; auto. intros; apply H; cbn; auto. Qed.
Lemma csum_0 {Y} (f : Y -> Z) cs : (forall c, In c cs -> f c = 0%Z) -> csum f cs = 0%Z.
Proof. induction cs as [|c cs IH]; intros H; cbn; [auto|]. rewrite (H c), IH; cbn; auto. intros; apply H; cbn; auto. Qed.
Lemma csum_ge0 {Y} (f : Y -> Z) cs : (forall c, In c cs -> (0 <= f c)%Z) -> (0 <= csum f cs)%Z.
Proof.
  induction cs as [|c cs IH]; intros H; cbn; [lia|]. pose proof (H c (or_introl eq_refl)).
  assert (0 <= csum f cs)%Z by (apply IH; intros; apply H; cbn; auto). lia.
Qed.
Lemma csum_one {Y} (f : Y -> Z) cs : (forall c, In c cs -> (0 <= f c)%Z) -> csum f cs = 1%Z -> NoDup cs ->
  exists c, In c cs /\ f c = 1%Z /\ forall d, In d cs -> d <> c -> f d = 0%Z.
Proof.
  induction cs as [|c cs IH]; cbn; intros H E N; [lia|]. inversion N as [|? ? N1 N2]; subst.
  assert (Hc : (0 <= f c)%Z) by auto. assert (H' : forall d, In d cs -> (0 <= f d)%Z) by auto.
  pose proof (csum_ge0 f cs H') as Hs. destruct (Z.eq_dec (f c) 0) as [E0|E0].
  - destruct IH as (d & Hd & Ed & Hr); auto; [lia|]. exists d. split; [auto|]. split; [auto|]. intros x [<-|Hx] Hn; auto.
  - exists c. split; [auto|]. split; [lia|]. assert (Es : csum f cs = 0%Z) by lia. intros d [<-|Hd] Hn; [congruence|].
    clear - H' Es Hd. induction cs as [|x cs IH]; [contradiction|]. cbn in Es.
    assert (0 <= f x)%Z by (apply H'; cbn; auto). assert (0 <= csum f cs)%Z by (apply csum_ge0; intros; apply H'; cbn; auto).
    destruct Hd as [<-|Hd]; [lia|]. apply IH; auto; [intros; apply H'; cbn; auto|lia].
Qed.
Lemma sum_csum {Y} (f : Y -> string -> Z) cs l : sum (fun t => csum (fun c => f c t) cs) l = csum (fun c => sum (f c) l) cs.
Proof.
  induction l as [|t l IH]; cbn; [symmetry; apply csum_0; auto|]. rewrite IH. clear IH. induction cs as [|c cs IH]; cbn; [auto|]. lia.
Qed.
Lemma csum_case {Y} (g : Y -> string) cs t : NoDup cs -> (forall c d, In c cs -> In d cs -> g c = g d -> c = d) ->
  ((exists c, In c cs /\ t = g c) /\ csum (fun c => one_at (g c) t) cs = 1%Z) \/
  (~ (exists c, In c cs /\ t = g c) /\ csum (fun c => one_at (g c) t) cs = 0%Z).
Proof.
  induction cs as [|c cs IH]; intros N I; cbn.
  - right. split; [|auto]. intros (c & [] & _).
  - inversion N as [|? ? N1 N2]; subst. destruct IH as [[(d & Hd & Et) E]|[Hn E]]; auto; [intros; apply I; cbn; auto|..].
    + left. split; [exists d; auto|]. rewrite E, one_at_other; [auto|]. intros E2. apply N1. rewrite (I c d); cbn; auto. congruence.
    + destruct (one_case (g c) t) as [[Et ->]|[Et ->]].
      * left. split; [exists c; auto|lia].
      * right. split; [|lia]. intros (d & [<-|Hd] & E2); [contradiction|]. apply Hn. exists d. auto.
Qed.

(** one of many *)
Section Choice.
  Variables (R : net) (cs : list comp) (X G : string -> Prop) (pre post : string -> string -> Prop) (s e : string) (sg ep : comp -> string).
  Hypothesis L : linked R cs X G pre post.
  Hypothesis (NC : NoDup cs) (NE : cs <> []).
  Hypothesis (Gs : G s) (Ge : G e) (se : s <> e) (HG : forall q, G q -> q = s \/ q = e).
  Hypothesis Hpre : forall t q, pre t q <-> exists c, In c cs /\ ((t = sg c /\ q = s) \/ (t = ep c /\ q = c_p c (c_o c))).
  Hypothesis Hpost : forall t q, post t q <-> exists c, In c cs /\ ((t = sg c /\ q = c_p c (c_i c)) \/ (t = ep c /\ q = e)).
  Hypothesis HX : forall t, X t <-> exists c, In c cs /\ (t = sg c \/ t = ep c).
  Hypothesis (Isg : forall c d, In c cs -> In d cs -> sg c = sg d -> c = d) (Iep : forall c d, In c cs -> In d cs -> ep c = ep d -> c = d).
  Hypothesis Isep : forall c d, In c cs -> In d cs -> sg c <> ep d.
  Let K := l_k _ _ _ _ _ _ L.
  Let gp q c p : G q -> In c cs -> has_place (c_net c) p -> q <> c_p c p := k_gp _ _ _ _ _ _ K q c p.
  Let ip c (Hc : In c cs) := l_ip _ _ _ _ _ _ L c Hc.
  Let op c (Hc : In c cs) := l_op _ _ _ _ _ _ L c Hc.
  Let some : exists c, In c cs.
  Proof. revert NE. generalize cs. intros [|c r] N; [congruence|]. exists c. cbn. auto. Qed.
  Lemma ch_pre_s t : pre t s <-> exists c, In c cs /\ t = sg c.
  Proof.
    rewrite Hpre. split; intros (c & Hc & H); exists c; (split; [auto|]); [|auto]. destruct H as [[? _]|[_ E]]; [auto|].
    exfalso. exact (gp s c (c_o c) Gs Hc (op c Hc) E).
  Qed.
  Lemma ch_post_e t : post t e <-> exists c, In c cs /\ t = ep c.
  Proof.
    rewrite Hpost. split; intros (c & Hc & H); exists c; (split; [auto|]); [|auto]. destruct H as [[_ E]|[? _]]; [|auto].
    exfalso. exact (gp e c (c_i c) Ge Hc (ip c Hc) E).
  Qed.
  Lemma ch_no_post_s t : ~ post t s.
  Proof. rewrite Hpost. intros (c & Hc & [[_ E]|[_ E]]); [exact (gp s c (c_i c) Gs Hc (ip c Hc) E)|auto]. Qed.
  Lemma ch_no_pre_e t : ~ pre t e.
  Proof. rewrite Hpre. intros (c & Hc & [[_ E]|[_ E]]); [auto|exact (gp e c (c_o c) Ge Hc (op c Hc) E)]. Qed.
  Lemma ch_pre_o t c : In c cs -> pre t (c_p c (c_o c)) <-> t = ep c.
  Proof.
    intros Hc. rewrite Hpre. split; [|intros ->; exists c; auto]. intros (d & Hd & [[_ E]|[-> E]]).
    - exfalso. symmetry in E. exact (gp s c (c_o c) Gs Hc (op c Hc) E).
    - destruct (k_same_p _ _ _ _ _ _ K c d (c_o c) (c_o d)) as [-> _]; auto.
  Qed.
  Lemma ch_post_i t c : In c cs -> post t (c_p c (c_i c)) <-> t = sg c.
  Proof.
    intros Hc. rewrite Hpost. split; [|intros ->; exists c; auto]. intros (d & Hd & [[-> E]|[_ E]]).
    - destruct (k_same_p _ _ _ _ _ _ K c d (c_i c) (c_i d)) as [-> _]; auto.
    - exfalso. symmetry in E. exact (gp e c (c_i c) Ge Hc (ip c Hc) E).
  Qed.
  Lemma ch_source q : source R q <-> q = s.
  Proof.
    rewrite (l_source _ _ _ _ _ _ L). split.
    - intros [(Hg & [t Ht] & _)|(c & Hc & -> & N)].
      + destruct (HG q Hg) as [->| ->]; [auto|]. exfalso. eapply ch_no_pre_e; eauto.
      + exfalso. apply N. exists (sg c). apply ch_post_i; auto.
    - intros ->. left. split; [auto|]. split.
      + destruct some as [c Hc]. exists (sg c). apply ch_pre_s. exists c. auto.
      + intros [t Ht]. eapply ch_no_post_s; eauto.
  Qed.
  Lemma ch_sink q : sink R q <-> q = e.
  Proof.
    rewrite (l_sink _ _ _ _ _ _ L). split.
    - intros [(Hg & [t Ht] & _)|(c & Hc & -> & N)].
      + destruct (HG q Hg) as [->| ->]; [|auto]. exfalso. eapply ch_no_post_s; eauto.
      + exfalso. apply N. exists (ep c). apply ch_pre_o; auto.
    - intros ->. left. split; [auto|]. split.
      + destruct some as [c Hc]. exists (ep c). apply ch_post_e. exists c. auto.
      + intros [t Ht]. eapply ch_no_pre_e; eauto.
  Qed.
  Lemma ch_connected : (forall c, In c cs -> connected (c_net c)) -> connected R.
  Proof.
    intros HC. eapply k_connected; [exact K|auto|]. intros t Hx. apply HX in Hx. destruct Hx as (c & Hc & [->| ->]).
    - split; [exists s; apply ch_pre_s; exists c; auto|exists (c_p c (c_i c)); apply ch_post_i; auto].
    - split; [exists (c_p c (c_o c)); apply ch_pre_o; auto|exists e; apply ch_post_e; exists c; auto].
  Qed.
  Variables (names : dict string string) (pat : comp -> pattern).
  Hypothesis (Ep : forall c, In c cs -> pnet (pat c) = c_net c) (Sp : forall c, In c cs -> spelled names c (pat c)).
  Let P := Pattern R names.
  Let src c : In c cs -> forall q, source (pnet (pat c)) q <-> q = c_i c.
  Proof. intros Hc q. rewrite Ep by auto. apply (l_i _ _ _ _ _ _ L c q Hc). Qed.
  Let snk c : In c cs -> forall q, sink (pnet (pat c)) q <-> q = c_o c.
  Proof. intros Hc q. rewrite Ep by auto. apply (l_o _ _ _ _ _ _ L c q Hc). Qed.
  Lemma ch_words st w : (forall c, In c cs -> connected (c_net c)) -> speaks st P w <-> exists c, In c cs /\ speaks st (pat c) w.
  Proof.
    intros HC. rewrite (speaks_at st P _ _ _ ch_source ch_sink). cbn [pnet P]. split.
    - intros (l & H & <-). pose proof (run_has _ _ _ _ _ H) as F.
      assert (E1 : csum (fun c => occ (sg c) l) cs = 1%Z).
      { pose proof (run_tokens _ _ _ _ _ s H) as E. rewrite one_at_same, (one_at_other e s) in E by auto.
        rewrite (sum_as R _ (fun t => 0 - csum (fun c => one_at (sg c) t) cs)%Z l F) in E.
        - rewrite sum_sub, sum_0, (sum_csum (fun c => one_at (sg c))) in E. unfold occ. lia.
        - intros t Ht. apply (l_effect _ _ _ _ _ _ L); auto; [right; split; [apply ch_no_post_s|auto]|].
          rewrite ch_pre_s. apply csum_case; auto. }
      assert (E2 : csum (fun c => occ (ep c) l) cs = 1%Z).
      { pose proof (run_tokens _ _ _ _ _ e H) as E. rewrite one_at_same, (one_at_other s e) in E by auto.
        rewrite (sum_as R _ (fun t => csum (fun c => one_at (ep c) t) cs - 0)%Z l F) in E.
        - rewrite sum_sub, sum_0, (sum_csum (fun c => one_at (ep c))) in E. unfold occ. lia.
        - intros t Ht. apply (l_effect _ _ _ _ _ _ L); auto; [|right; split; [apply ch_no_pre_e|auto]].
          rewrite ch_post_e. apply csum_case; auto. }
      assert (Hr : forall c, In c cs -> run (c_net c) st (fun p => occ (sg c) l * one_at (c_i c) p)%Z (proj (c_net c) (c_t c) l) (fun p => occ (ep c) l * one_at (c_o c) p)%Z).
      { intros c Hc. eapply (project _ _ _ _ _ _ L); eauto.
        - apply view_one. intros p Hp E. symmetry in E. exact (gp s c p Gs Hc Hp E).
        - apply view_one. intros p Hp E. symmetry in E. exact (gp e c p Ge Hc Hp E).
        - apply (sum_as R); [auto|]. intros t Ht. apply (l_enters _ _ _ _ _ _ L); auto. rewrite ch_post_i by auto. apply one_case.
        - apply (sum_as R); [auto|]. intros t Ht. apply (l_leaves _ _ _ _ _ _ L); auto. rewrite ch_pre_o by auto. apply one_case. }
      destruct (csum_one _ _ (fun c _ => occ_ge0 (sg c) l) E1 NC) as (c & Hc & Ec & Ed).
      assert (Z0 : forall d, In d cs -> d <> c -> proj (c_net d) (c_t d) l = [] /\ occ (ep d) l = 0%Z).
      { intros d Hd Hn. pose proof (Hr d Hd) as Hrd. rewrite (Ed d Hd Hn) in Hrd.
        assert (E0 : proj (c_net d) (c_t d) l = []) by (eapply run_from_zero; [exact (HC d Hd)|exact Hrd|intros p; cbv beta; lia]).
        split; [auto|]. rewrite E0 in Hrd. pose proof (run_nil_inv _ _ _ _ Hrd (c_o d)) as E. cbv beta in E. rewrite one_at_same in E. lia. }
      assert (Eo : occ (ep c) l = 1%Z).
      { destruct (csum_one _ _ (fun c _ => occ_ge0 (ep c) l) E2 NC) as (d & Hd & Eod & _).
        destruct (Nat.eq_dec (c_nr d) (c_nr c)) as [|Nn].
        - assert (D : d = c \/ d <> c).
          { destruct (string_dec (ep d) (ep c)) as [Ee|Ne]; [left; apply Iep; auto|right; congruence]. }
          destruct D as [->|D]; [auto|]. destruct (Z0 d Hd D). lia.
        - destruct (Z0 d Hd); [congruence|lia]. }
      exists c. split; [auto|]. apply (speaks_at _ _ _ _ _ (src c Hc) (snk c Hc)). exists (proj (c_net c) (c_t c) l). split.
      + rewrite Ep by auto. eapply run_ext; [exact (Hr c Hc)|..]; intros p; cbv beta; rewrite ?Ec, ?Eo; lia.
      + symmetry. apply (letters_one _ _ _ _ _ _ L names c (pat c)); auto. intros d Hd Hn. apply Z0; auto.
    - intros (c & Hc & H). apply (speaks_at _ _ _ _ _ (src c Hc) (snk c Hc)) in H. destruct H as (l & H & <-). rewrite Ep in H by auto.
      assert (X1 : X (sg c)) by (apply HX; eauto). assert (X2 : X (ep c)) by (apply HX; eauto).
      exists ([sg c] ++ map (c_t c) l ++ [ep c]). split.
      + eapply run_app; [apply (glue_run _ _ _ _ _ _ L (sg c) st (one_at s) (one_at (c_p c (c_i c))) X1)|].
        * eapply marks_iff; [apply marks_one|]. intros q. rewrite Hpre. split; [intros ->; exists c; auto|]. intros (d & Hd & [[_ ?]|[E _]]); [auto|]. exfalso. exact (Isep c d Hc Hd E).
        * eapply marks_iff; [apply marks_one|]. intros q. rewrite Hpost. split; [intros ->; exists c; auto|]. intros (d & Hd & [[E ->]|[E _]]).
          -- rewrite (Isg c d Hc Hd E). auto.
          -- exfalso. exact (Isep c d Hc Hd E).
        * eapply run_app; [apply (lift_whole _ _ _ _ _ _ L c st (c_i c) (c_o c) l); auto|].
          apply (glue_run _ _ _ _ _ _ L (ep c) st _ _ X2).
          -- eapply marks_iff; [apply marks_one|]. intros q. rewrite Hpre. split; [intros ->; exists c; auto|]. intros (d & Hd & [[E _]|[E ->]]).
             ++ exfalso. symmetry in E. exact (Isep d c Hd Hc E).
             ++ rewrite (Iep c d Hc Hd E). auto.
          -- eapply marks_iff; [apply marks_one|]. intros q. rewrite Hpost. split; [intros ->; exists c; auto|]. intros (d & Hd & [[E _]|[_ ?]]); [|auto].
             exfalso. symmetry in E. exact (Isep d c Hd Hc E).
      + rewrite !letters_app. unfold P. rewrite (letters_map _ _ _ _ _ _ L names c (pat c)); auto; [|eapply run_has; eauto].
        cbn [letters flat_map]. rewrite !(spell_glue _ _ _ _ _ _ L) by auto. rewrite ?app_nil_r. auto.
  Qed.
End Choice.

(** both at the same time *)
Section Par.
  Variables (R : net) (A B : comp) (X G : string -> Prop) (pre post : string -> string -> Prop) (s e t0 t1 : string).
  Hypothesis L : linked R [A; B] X G pre post.
  Hypothesis AB : c_nr A <> c_nr B.
  Hypothesis (Gs : G s) (Ge : G e) (se : s <> e) (HG : forall q, G q -> q = s \/ q = e) (tt : t0 <> t1).
  Hypothesis HX : forall t, X t <-> t = t0 \/ t = t1.
  Hypothesis Hpre : forall t q, pre t q <-> (t = t0 /\ q = s) \/ (t = t1 /\ (q = c_p A (c_o A) \/ q = c_p B (c_o B))).
  Hypothesis Hpost : forall t q, post t q <-> (t = t0 /\ (q = c_p A (c_i A) \/ q = c_p B (c_i B))) \/ (t = t1 /\ q = e).
  Let K := l_k _ _ _ _ _ _ L.
  Let pA : has_place (c_net A) (c_i A) := l_ip _ _ _ _ _ _ L A (inA A B).
  Let qA : has_place (c_net A) (c_o A) := l_op _ _ _ _ _ _ L A (inA A B).
  Let pB : has_place (c_net B) (c_i B) := l_ip _ _ _ _ _ _ L B (inB A B).
  Let qB : has_place (c_net B) (c_o B) := l_op _ _ _ _ _ _ L B (inB A B).
  Let gA q p : G q -> has_place (c_net A) p -> q <> c_p A p := fun H => k_gp _ _ _ _ _ _ K q A p H (inA A B).
  Let gB q p : G q -> has_place (c_net B) p -> q <> c_p B p := fun H => k_gp _ _ _ _ _ _ K q B p H (inB A B).
  Let ap p q : has_place (c_net A) p -> has_place (c_net B) q -> c_p A p <> c_p B q := apart_p R A B X G pre post L AB p q.
  Lemma pa_source q : source R q <-> q = s.
  Proof.
    rewrite (l_source _ _ _ _ _ _ L). split.
    - intros [(Hg & [t Ht] & _)|(c & Hc & -> & N)].
      + destruct (HG q Hg) as [->| ->]; [auto|]. exfalso. apply Hpre in Ht. destruct Ht as [[_ E]|[_ [E|E]]]; [congruence|..]; [refine (gA _ _ _ _ E)|refine (gB _ _ _ _ E)]; auto.
      + exfalso. apply N. exists t0. apply Hpost. destruct Hc as [<-|[<-|[]]]; auto.
    - intros ->. left. split; [auto|]. split; [exists t0; apply Hpre; auto|]. intros [t Ht]. apply Hpost in Ht.
      destruct Ht as [[_ [E|E]]|[_ E]]; [refine (gA _ _ _ _ E)|refine (gB _ _ _ _ E)|]; auto.
  Qed.
  Lemma pa_sink q : sink R q <-> q = e.
  Proof.
    rewrite (l_sink _ _ _ _ _ _ L). split.
    - intros [(Hg & [t Ht] & _)|(c & Hc & -> & N)].
      + destruct (HG q Hg) as [->| ->]; [|auto]. exfalso. apply Hpost in Ht. destruct Ht as [[_ [E|E]]|[_ E]]; [refine (gA _ _ _ _ E)|refine (gB _ _ _ _ E)|]; auto.
      + exfalso. apply N. exists t1. apply Hpre. destruct Hc as [<-|[<-|[]]]; auto.
    - intros ->. left. split; [auto|]. split; [exists t1; apply Hpost; auto|]. intros [t Ht]. apply Hpre in Ht.
      destruct Ht as [[_ E]|[_ [E|E]]]; [congruence|..]; [refine (gA _ _ _ _ E)|refine (gB _ _ _ _ E)]; auto.
  Qed.
  Lemma pa_connected : connected (c_net A) -> connected (c_net B) -> connected R.
  Proof.
    intros CA CB. eapply k_connected; [exact K|..].
    - intros c [<-|[<-|[]]]; auto.
    - intros t Hx. apply HX in Hx. destruct Hx as [->| ->].
      + split; [exists s; apply Hpre; auto|exists (c_p A (c_i A)); apply Hpost; auto].
      + split; [exists (c_p A (c_o A)); apply Hpre; auto|exists e; apply Hpost; auto].
  Qed.
  Variables (names : dict string string) (a b : pattern).
  Hypothesis (Ea : pnet a = c_net A) (Sa : spelled names A a) (Eb : pnet b = c_net B) (Sb : spelled names B b).
  Let P := Pattern R names.
  Let srcA : forall q, source (pnet a) q <-> q = c_i A.
  Proof. intros q. rewrite Ea. apply (l_i _ _ _ _ _ _ L A q (inA A B)). Qed.
  Let snkA : forall q, sink (pnet a) q <-> q = c_o A.
  Proof. intros q. rewrite Ea. apply (l_o _ _ _ _ _ _ L A q (inA A B)). Qed.
  Let srcB : forall q, source (pnet b) q <-> q = c_i B.
  Proof. intros q. rewrite Eb. apply (l_i _ _ _ _ _ _ L B q (inB A B)). Qed.
  Let snkB : forall q, sink (pnet b) q <-> q = c_o B.
  Proof. intros q. rewrite Eb. apply (l_o _ _ _ _ _ _ L B q (inB A B)). Qed.
  Lemma pa_words st w : speaks st P w <-> exists u v, shuffle u v w /\ speaks st a u /\ speaks st b v.
  Proof.
    rewrite (speaks_at st P _ _ _ pa_source pa_sink). cbn [pnet P]. split.
    - intros (l & H & <-). pose proof (run_has _ _ _ _ _ H) as F.
      assert (E1 : occ t0 l = 1%Z).
      { pose proof (run_tokens _ _ _ _ _ s H) as E. rewrite one_at_same, (one_at_other e s) in E by auto.
        rewrite (sum_as R _ (fun t => 0 - one_at t0 t)%Z l F) in E.
        - rewrite sum_sub, sum_0 in E. unfold occ. lia.
        - intros t Ht. apply (l_effect _ _ _ _ _ _ L); auto.
          + right. split; [|auto]. rewrite Hpost. intros [[_ [E'|E']]|[_ E']]; [refine (gA _ _ _ _ E')|refine (gB _ _ _ _ E')|]; auto.
          + rewrite Hpre. destruct (one_case t0 t) as [[-> ->]|[Hn ->]]; [left; auto|right; split; [|auto]].
            intros [[? _]|[_ [E'|E']]]; [auto|refine (gA _ _ _ _ E')|refine (gB _ _ _ _ E')]; auto. }
      assert (E2 : occ t1 l = 1%Z).
      { pose proof (run_tokens _ _ _ _ _ e H) as E. rewrite one_at_same, (one_at_other s e) in E by auto.
        rewrite (sum_as R _ (fun t => one_at t1 t - 0)%Z l F) in E.
        - rewrite sum_sub, sum_0 in E. unfold occ. lia.
        - intros t Ht. apply (l_effect _ _ _ _ _ _ L); auto.
          + rewrite Hpost. destruct (one_case t1 t) as [[-> ->]|[Hn ->]]; [left; auto|right; split; [|auto]].
            intros [[_ [E'|E']]|[? _]]; [refine (gA _ _ _ _ E')|refine (gB _ _ _ _ E')|auto]; auto.
          + right. split; [|auto]. rewrite Hpre. intros [[_ E']|[_ [E'|E']]]; [congruence|refine (gA _ _ _ _ E')|refine (gB _ _ _ _ E')]; auto. }
      exists (letters a (proj (c_net A) (c_t A) l)), (letters b (proj (c_net B) (c_t B) l)). split; [eapply letters_two; eauto|]. split.
      + apply (speaks_at _ _ _ _ _ srcA snkA). eexists. split; [|reflexivity]. rewrite Ea.
        eapply run_ext; [eapply (project _ _ _ _ _ _ L A _ _ l _ 1 1); eauto using inA|..].
        * apply view_one. intros p Hp E. symmetry in E. revert E. apply gA; auto.
        * apply view_one. intros p Hp E. symmetry in E. revert E. apply gA; auto.
        * rewrite <- E1. apply (sum_as R); [auto|]. intros t Ht. apply (l_enters _ _ _ _ _ _ L); auto using inA. rewrite Hpost.
          destruct (one_case t0 t) as [[-> ->]|[Hn ->]]; [left; auto|right; split; [|auto]]. intros [[? _]|[_ E]]; [auto|]. symmetry in E. revert E. apply gA; auto.
        * rewrite <- E2. apply (sum_as R); [auto|]. intros t Ht. apply (l_leaves _ _ _ _ _ _ L); auto using inA. rewrite Hpre.
          destruct (one_case t1 t) as [[-> ->]|[Hn ->]]; [left; auto|right; split; [|auto]]. intros [[_ E]|[? _]]; [|auto]. symmetry in E. revert E. apply gA; auto.
        * intros p. cbv beta. lia.
        * intros p. cbv beta. lia.
      + apply (speaks_at _ _ _ _ _ srcB snkB). eexists. split; [|reflexivity]. rewrite Eb.
        eapply run_ext; [eapply (project _ _ _ _ _ _ L B _ _ l _ 1 1); eauto using inB|..].
        * apply view_one. intros p Hp E. symmetry in E. revert E. apply gB; auto.
        * apply view_one. intros p Hp E. symmetry in E. revert E. apply gB; auto.
        * rewrite <- E1. apply (sum_as R); [auto|]. intros t Ht. apply (l_enters _ _ _ _ _ _ L); auto using inB. rewrite Hpost.
          destruct (one_case t0 t) as [[-> ->]|[Hn ->]]; [left; auto|right; split; [|auto]]. intros [[? _]|[_ E]]; [auto|]. symmetry in E. revert E. apply gB; auto.
        * rewrite <- E2. apply (sum_as R); [auto|]. intros t Ht. apply (l_leaves _ _ _ _ _ _ L); auto using inB. rewrite Hpre.
          destruct (one_case t1 t) as [[-> ->]|[Hn ->]]; [left; auto|right; split; [|auto]]. intros [[_ E]|[? _]]; [|auto]. symmetry in E. revert E. apply gB; auto.
        * intros p. cbv beta. lia.
        * intros p. cbv beta. lia.
    - intros (u & v & S & Hu & Hv). apply (speaks_at _ _ _ _ _ srcA snkA) in Hu. apply (speaks_at _ _ _ _ _ srcB snkB) in Hv.
      destruct Hu as (l1 & R1 & <-). destruct Hv as (l2 & R2 & <-). rewrite Ea in R1. rewrite Eb in R2.
      destruct (words_shuffle R A B X G pre post L names a b Ea Sa Eb Sb l1 l2 w (run_has _ _ _ _ _ R1) (run_has _ _ _ _ _ R2) S) as (l & Sl & <-).
      assert (X0 : X t0) by (apply HX; auto). assert (X1 : X t1) by (apply HX; auto).
      set (Q := fun q => (one_at (c_p A (c_i A)) q + one_at (c_p B (c_i B)) q)%Z).
      assert (VA : forall x p, has_place (c_net A) x -> has_place (c_net A) p -> one_at (c_p A x) (c_p A p) = one_at x p).
      { intros x p Hx Hp. pose proof (view_own _ _ _ _ _ _ L A x (inA A B) Hx p) as E. unfold view in E. rewrite (proj2 (mem_In p _) Hp) in E. auto. }
      assert (VB : forall x p, has_place (c_net B) x -> has_place (c_net B) p -> one_at (c_p B x) (c_p B p) = one_at x p).
      { intros x p Hx Hp. pose proof (view_own _ _ _ _ _ _ L B x (inB A B) Hx p) as E. unfold view in E. rewrite (proj2 (mem_In p _) Hp) in E. auto. }
      destruct (lift_shuffle R A B X G pre post L AB st _ _ _ _ _ _ l Q Sl R1 R2) as (Q' & RQ & QA & QB & QO).
      { intros p Hp. unfold Q. rewrite VA, (one_at_other (c_p B (c_i B))) by auto. lia. }
      { intros p Hp. unfold Q. rewrite VB by auto. rewrite (one_at_other (c_p A (c_i A))) by (apply not_eq_sym; auto). lia. }
      exists ([t0] ++ l ++ [t1]). split.
      + eapply run_app; [apply (glue_run _ _ _ _ _ _ L t0 st (one_at s) Q X0)|].
        * eapply marks_iff; [apply marks_one|]. intros q. rewrite Hpre. intuition.
        * eapply marks_iff; [apply marks_two; apply ap; auto|]. intros q. rewrite Hpost. intuition.
        * eapply run_app; [exact RQ|]. eapply run_start; [apply (glue_run _ _ _ _ _ _ L t1 st (fun q => one_at (c_p A (c_o A)) q + one_at (c_p B (c_o B)) q)%Z (one_at e) X1)|].
          -- eapply marks_iff; [apply marks_two; apply ap; auto|]. intros q. rewrite Hpre. intuition (auto; congruence).
          -- eapply marks_iff; [apply marks_one|]. intros q. rewrite Hpost. intuition (auto; congruence).
          -- intros q. cbv beta. destruct (image_dec (c_net A) (c_p A) q) as [(p & Hp & ->)|NA].
             ++ rewrite QA, VA, (one_at_other (c_p B (c_o B))) by auto. lia.
             ++ destruct (image_dec (c_net B) (c_p B) q) as [(p & Hp & ->)|NB].
                ** rewrite QB, VB, (one_at_other (c_p A (c_o A))) by auto. lia.
                ** rewrite QO by auto. unfold Q. rewrite !one_at_other by auto. lia.
      + rewrite !letters_app. cbn [letters flat_map]. unfold P. rewrite !(spell_glue _ _ _ _ _ _ L) by auto. rewrite ?app_nil_r. auto.
  Qed.
End Par.
