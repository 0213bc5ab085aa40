(** Activity patterns, part 1: runs of a net inside another net *)
From Coq Require Import String ZArith Permutation.
From Verif.Model Require Import Base PetriNet ActivityPattern.
From Verif.Spec Require Import PetriSpec ActivityPatternSpec.
From Verif.Lib Require Import ListLib DictLib.
From Verif.Proofs Require Import PetriA.
Open Scope string_scope.
Open Scope list_scope.
Open Scope nat_scope.

Notation mark := (string -> Z).
Definition ge0 (M : mark) : Prop := forall p, (0 <= M p)%Z.

Lemma run_start n st M l M1 K : run n st M l M1 -> (forall p, K p = M p) -> run n st K l M1.
Proof.
  intros H E. destruct H as [M M' E2|M t M1 l M2 (F1 & F2 & F3 & F4) R].
  - constructor. intros p. rewrite E2, E. auto.
  - econstructor; [|exact R]. split; [auto|]. split; [auto|]. split.
    + intros p Hp. rewrite E. auto.
    + intros p. rewrite E, F4. auto.
Qed.
Lemma run_app n st M l M1 m M2 : run n st M l M1 -> run n st M1 m M2 -> run n st M (l ++ m) M2.
Proof.
  induction 1 as [M M1 E|M t K l M1 F R IH]; intros R2; cbn [app].
  - eapply run_start; [exact R2|]. intros p. symmetry. auto.
  - econstructor; eauto.
Qed.
Lemma run_ext n st M l M1 K K1 : run n st M l M1 -> (forall p, K p = M p) -> (forall p, K1 p = M1 p) -> run n st K l K1.
Proof.
  intros R E E1. rewrite <- (app_nil_r l). eapply run_app; [eapply run_start; eauto|]. constructor. auto.
Qed.
Lemma run_split n st M l m M2 : run n st M (l ++ m) M2 -> exists M1, run n st M l M1 /\ run n st M1 m M2.
Proof.
  revert M. induction l as [|t l IH]; intros M; cbn [app].
  - intros R. exists M. split; [constructor; auto|auto].
  - intros R. inversion R as [|? ? M1 ? ? F R']; subst. destruct (IH _ R') as (K & R1 & R2).
    exists K. split; [econstructor; eauto|auto].
Qed.
Lemma run_cons_inv n st M t l M2 : run n st M (t :: l) M2 -> exists M1, fires n st M t M1 /\ run n st M1 l M2.
Proof. intros R. inversion R; subst. eauto. Qed.
Lemma run_nil_inv n st M M2 : run n st M [] M2 -> forall p, M2 p = M p.
Proof. intros R. inversion R; subst. auto. Qed.
Lemma run_has n st M l M1 : run n st M l M1 -> Forall (has_transition n) l.
Proof. induction 1 as [|? ? ? ? ? (F & _)]; constructor; auto. Qed.
(** more tokens do no harm *)
Lemma run_more n st M l M1 (D : mark) : run n st M l M1 -> ge0 D -> run n st (fun p => M p + D p)%Z l (fun p => M1 p + D p)%Z.
Proof.
  intros R HD. induction R as [M M' E|M t M1 l M2 (F1 & F2 & F3 & F4) R IH].
  - constructor. intros p. rewrite E. auto.
  - econstructor; [|exact IH]. split; [auto|]. split; [auto|]. split.
    + intros p Hp. specialize (F3 p Hp). specialize (HD p). lia.
    + intros p. rewrite F4. lia.
Qed.
Lemma ind_mem_In l p : ind l p = (if in_dec string_dec p l then 1 else 0)%Z.
Proof.
  unfold ind. destruct (in_dec string_dec p l) as [H|H].
  - rewrite (proj2 (mem_In p l) H). auto.
  - destruct (mem p l) eqn:E; [|auto]. exfalso. apply H, mem_In, E.
Qed.
Lemma effect_ind n t p : effect n t p = (ind (ends n t) p - ind (starts n t) p)%Z.
Proof. reflexivity. Qed.
Lemma fires_ge0 n st M t M1 : fires n st M t M1 -> ge0 M -> ge0 M1.
Proof.
  intros (_ & _ & F3 & F4) H p. rewrite F4, effect_ind, !ind_mem_In. specialize (H p).
  destruct (in_dec string_dec p (starts n t)) as [Hp|]; [specialize (F3 p Hp)|]; destruct in_dec; lia.
Qed.
Lemma run_ge0 n st M l M1 : run n st M l M1 -> ge0 M -> ge0 M1.
Proof.
  induction 1 as [M M' E|M t M1 l M2 F R IH]; intros H; [intros p; rewrite E; auto|].
  apply IH. eapply fires_ge0; eauto.
Qed.
Lemma one_at_ge0 i : ge0 (one_at i).
Proof. intros p. unfold one_at. destruct eqb; lia. Qed.
Lemma one_at_same i : one_at i i = 1%Z.
Proof. unfold one_at. rewrite eqb_refl. auto. Qed.
Lemma one_at_other i p : p <> i -> one_at i p = 0%Z.
Proof. unfold one_at. destruct (eqb_ok p i); [contradiction|auto]. Qed.

(** nothing fires without a token, and a firing leaves one *)
Lemma run_from_zero n st M l M1 : connected n -> run n st M l M1 -> (forall p, (M p <= 0)%Z) -> l = [].
Proof.
  intros C R H. destruct R as [|M t M1 l M2 (F1 & F2 & F3 & F4) R]; [auto|]. exfalso.
  destruct (C t F1) as [S _]. destruct (starts n t) as [|p s] eqn:E; [congruence|].
  specialize (F3 p (or_introl eq_refl)). specialize (H p). lia.
Qed.
Lemma fires_leaves n st M t M1 : connected n -> ge0 M -> fires n st M t M1 -> exists p, In p (ends n t) /\ (1 <= M1 p)%Z.
Proof.
  intros C G (F1 & F2 & F3 & F4). destruct (C t F1) as [_ S]. destruct (ends n t) as [|p s] eqn:E; [congruence|].
  exists p. split; [cbn; auto|]. rewrite F4, effect_ind, !ind_mem_In, E.
  destruct (in_dec string_dec p (p :: s)) as [_|N]; [|exfalso; apply N; cbn; auto].
  specialize (G p). destruct (in_dec string_dec p (starts n t)) as [Hp|]; [specialize (F3 p Hp)|]; lia.
Qed.
Lemma run_to_zero n st M l M1 : connected n -> ge0 M -> run n st M l M1 -> (forall p, (M1 p <= 0)%Z) -> l = [].
Proof.
  intros C G R H. destruct l as [|t l _] using rev_ind; [auto|]. exfalso.
  apply run_split in R. destruct R as (K & R1 & R2). apply run_cons_inv in R2. destruct R2 as (K1 & F & R2).
  destruct (fires_leaves _ _ _ _ _ C (run_ge0 _ _ _ _ _ R1 G) F) as (p & _ & Hp).
  pose proof (run_nil_inv _ _ _ _ R2 p). specialize (H p). lia.
Qed.

(** sums over a run *)
Fixpoint sum (f : string -> Z) (l : list string) : Z := match l with [] => 0%Z | t :: l' => (f t + sum f l')%Z end.
Lemma sum_ext f g l : (forall t, In t l -> f t = g t) -> sum f l = sum g l.
Proof. induction l as [|t l IH]; intros H; cbn; [auto|]. rewrite (H t) by (cbn; auto). rewrite IH; [auto|]. intros; apply H; cbn; auto. Qed.
Lemma sum_add f g l : sum (fun t => f t + g t)%Z l = (sum f l + sum g l)%Z.
Proof. induction l as [|t l IH]; cbn; [auto|]. rewrite IH. lia. Qed.
Lemma sum_sub f g l : sum (fun t => f t - g t)%Z l = (sum f l - sum g l)%Z.
Proof. induction l as [|t l IH]; cbn; [auto|]. rewrite IH. lia. Qed.
Lemma sum_0 l : sum (fun _ => 0%Z) l = 0%Z.
Proof. induction l; cbn; auto. Qed.
Lemma sum_ge0 f l : (forall t, (0 <= f t)%Z) -> (0 <= sum f l)%Z.
Proof. intros H. induction l as [|t l IH]; cbn; [lia|]. specialize (H t). lia. Qed.
Definition occ (x : string) (l : list string) : Z := sum (one_at x) l.
Lemma occ_ge0 x l : (0 <= occ x l)%Z.
Proof. apply sum_ge0. intros t. apply one_at_ge0. Qed.
Lemma occ_0 x l : occ x l = 0%Z <-> ~ In x l.
Proof.
  induction l as [|t l IH]; cbn; [tauto|]. fold (occ x l). pose proof (occ_ge0 x l). unfold one_at.
  destruct (eqb_ok t x) as [->|Hn]; split; intros H1.
  - lia.
  - exfalso. tauto.
  - intros [?|?]; [congruence|]. apply IH; auto.
  - change (occ x l = 0%Z). apply IH. tauto.
Qed.
Lemma occ_In x l : (1 <= occ x l)%Z -> In x l.
Proof. intros H. destruct (in_dec string_dec x l) as [|N]; [auto|]. apply occ_0 in N. lia. Qed.
(** the tokens of a place along a run *)
Lemma run_tokens n st M l M1 q : run n st M l M1 -> M1 q = (M q + sum (fun t => effect n t q) l)%Z.
Proof.
  induction 1 as [M M' E|M t M1 l M2 (F1 & F2 & F3 & F4) R IH]; cbn; [rewrite E; lia|]. rewrite IH, F4. lia.
Qed.

(** a net [c] inside [R]: [fp] and [ft] say under which ids; other transitions
    of [R] take from its place [o] and put on its place [i] only *)
Record inside (c R : net) (fp ft : string -> string) : Prop := {
  in_wf : wf c;
  in_place : forall p, has_place c p -> has_place R (fp p);
  in_pinj : forall p q, has_place c p -> has_place c q -> fp p = fp q -> p = q;
  in_tinj : forall t u, has_transition c t -> has_transition c u -> ft t = ft u -> t = u;
  in_trans : forall t, has_transition c t -> has_transition R (ft t);
  in_guard : forall t, has_transition c t -> guard_of R (ft t) = guard_of c t;
  in_starts : forall t q, has_transition c t -> In q (starts R (ft t)) <-> exists p, In p (starts c t) /\ q = fp p;
  in_ends : forall t q, has_transition c t -> In q (ends R (ft t)) <-> exists p, In p (ends c t) /\ q = fp p }.
Definition owner (c : net) (ft : string -> string) (t : string) : option string :=
  find (fun u => eqb (ft u) t) (keys (transitions c)).
Definition proj (c : net) (ft : string -> string) (l : list string) : list string :=
  flat_map (fun t => match owner c ft t with Some u => [u] | None => [] end) l.
Definition view (c : net) (fp : string -> string) (M : mark) : mark :=
  fun p => if mem p (keys (places c)) then M (fp p) else 0%Z.
Definition enters (c R : net) (fp ft : string -> string) (i : string) (t : string) : Z :=
  match owner c ft t with Some _ => 0%Z | None => ind (ends R t) (fp i) end.
Definition leaves (c R : net) (fp ft : string -> string) (o : string) (t : string) : Z :=
  match owner c ft t with Some _ => 0%Z | None => ind (starts R t) (fp o) end.
Definition gates (c R : net) (fp ft : string -> string) (i o : string) : Prop :=
  has_place c i /\ has_place c o /\
  forall t p, has_transition R t -> owner c ft t = None -> has_place c p ->
    (In (fp p) (ends R t) -> p = i) /\ (In (fp p) (starts R t) -> p = o).

Lemma owner_Some c ft t u : owner c ft t = Some u -> has_transition c u /\ ft u = t.
Proof. intros H. apply find_some in H. destruct H as [H1 H2]. destruct (eqb_ok (ft u) t); [auto|discriminate]. Qed.
Lemma owner_None c ft t : owner c ft t = None <-> forall u, has_transition c u -> ft u <> t.
Proof.
  split.
  - intros H u Hu. pose proof (find_none _ _ H u Hu) as E. cbv beta in E. destruct (eqb_ok (ft u) t); [discriminate|auto].
  - intros H. destruct (owner c ft t) as [u|] eqn:E; [|auto]. apply owner_Some in E. destruct E as [Hu E]. exfalso. eapply H; eauto.
Qed.
Lemma owner_image c R fp ft u : inside c R fp ft -> has_transition c u -> owner c ft (ft u) = Some u.
Proof.
  intros I Hu. destruct (owner c ft (ft u)) as [v|] eqn:E.
  - apply owner_Some in E. destruct E as [Hv E]. f_equal. eapply in_tinj; eauto.
  - exfalso. eapply (proj1 (owner_None _ _ _) E); eauto.
Qed.
Lemma proj_app c ft l m : proj c ft (l ++ m) = proj c ft l ++ proj c ft m.
Proof. apply flat_map_app. Qed.
Lemma proj_nil c ft l : proj c ft l = [] <-> forall t, In t l -> owner c ft t = None.
Proof.
  induction l as [|t l IH]; cbn; [split; [intros _ t []|auto]|]. destruct (owner c ft t) eqn:E; cbn; split.
  - discriminate.
  - intros H. rewrite (H t) in E by auto. discriminate.
  - intros H u [<-|Hu]; [auto|]. apply IH; auto.
  - intros H. apply IH. auto.
Qed.
Lemma ind_image c R fp ft t p : inside c R fp ft -> has_transition c t -> has_place c p ->
  ind (ends R (ft t)) (fp p) = ind (ends c t) p /\ ind (starts R (ft t)) (fp p) = ind (starts c t) p.
Proof.
  intros I Ht Hp. split; rewrite !ind_mem_In.
  - destruct (in_dec string_dec (fp p) (ends R (ft t))) as [H|H], (in_dec string_dec p (ends c t)) as [H2|H2]; auto; exfalso.
    + apply (in_ends _ _ _ _ I) in H; [|auto]. destruct H as (q & Hq & E). apply H2.
      replace p with q; [auto|]. symmetry. eapply in_pinj; eauto. eapply (w_ep c (in_wf _ _ _ _ I)); eauto.
    + apply H. apply (in_ends _ _ _ _ I); eauto.
  - destruct (in_dec string_dec (fp p) (starts R (ft t))) as [H|H], (in_dec string_dec p (starts c t)) as [H2|H2]; auto; exfalso.
    + apply (in_starts _ _ _ _ I) in H; [|auto]. destruct H as (q & Hq & E). apply H2.
      replace p with q; [auto|]. symmetry. eapply in_pinj; eauto. eapply (w_sp c (in_wf _ _ _ _ I)); eauto.
    + apply H. apply (in_starts _ _ _ _ I); eauto.
Qed.
Lemma effect_no_place n t p : wf n -> ~ has_place n p -> effect n t p = 0%Z.
Proof.
  intros W H. rewrite effect_ind, !ind_mem_In.
  destruct (in_dec string_dec p (ends n t)) as [E|]; [exfalso; apply H; eapply w_ep; eauto|].
  destruct (in_dec string_dec p (starts n t)) as [E|]; [exfalso; apply H; eapply w_sp; eauto|]. auto.
Qed.

Lemma proj_run c R fp ft i o st M l M1 : inside c R fp ft -> gates c R fp ft i o -> run R st M l M1 ->
  run c st (fun p => view c fp M p + sum (enters c R fp ft i) l * one_at i p)%Z (proj c ft l)
           (fun p => view c fp M1 p + sum (leaves c R fp ft o) l * one_at o p)%Z.
Proof.
  intros I (Gi & Go & G) H. pose proof (in_wf _ _ _ _ I) as W. induction H as [M M1 E|M t M1 l M2 F R' IH].
  - cbn. constructor. intros p. unfold view. destruct mem; [rewrite E|]; lia.
  - pose proof F as (F1 & F2 & F3 & F4). cbn [proj flat_map sum].
    fold (proj c ft l).
    set (E := sum (enters c R fp ft i) l) in *. set (L := sum (leaves c R fp ft o) l) in *.
    assert (HE : (0 <= E)%Z).
    { apply sum_ge0. intros u. unfold enters. destruct owner; [lia|]. rewrite ind_mem_In. destruct in_dec; lia. }
    unfold enters at 1, leaves at 1. destruct (owner c ft t) as [u|] eqn:Eo.
    + apply owner_Some in Eo. destruct Eo as [Hu <-]. cbn [app]. econstructor; [|eapply run_start; [exact IH|]].
      2:{ intros p. cbv beta. reflexivity. }
      split; [auto|]. split; [rewrite <- (in_guard _ _ _ _ I); auto|]. split.
      * intros p Hp. pose proof (w_sp c W u p Hp) as Hpl. unfold view. rewrite (proj2 (mem_In p _) Hpl).
        assert (1 <= M (fp p))%Z by (apply F3; apply (in_starts _ _ _ _ I); eauto).
        pose proof (one_at_ge0 i p). nia.
      * intros p. unfold view. destruct (mem p (keys (places c))) eqn:Em.
        -- apply mem_In in Em. rewrite F4. rewrite !effect_ind.
           destruct (ind_image _ _ _ _ _ _ I Hu Em) as [-> ->]. lia.
        -- assert (~ has_place c p) by (intros Hp; apply mem_In in Hp; congruence).
           rewrite (effect_no_place c u p W) by auto. lia.
    + set (x := ind (ends R t) (fp i)). set (y := ind (starts R t) (fp o)). cbn [app].
      assert (Hy : (0 <= y)%Z) by (unfold y; rewrite ind_mem_In; destruct in_dec; lia).
      eapply run_ext; [apply (run_more _ _ _ _ _ (fun p => y * one_at o p)%Z IH)|..].
      * intros p. pose proof (one_at_ge0 o p). nia.
      * intros p. cbv beta. unfold view. destruct (mem p (keys (places c))) eqn:Em.
        -- apply mem_In in Em. rewrite F4, effect_ind. destruct (G t p F1 Eo Em) as [G1 G2].
           assert (A1 : ind (ends R t) (fp p) = (x * one_at i p)%Z).
           { unfold x, one_at. destruct (eqb_ok p i) as [->|]; [lia|]. rewrite ind_mem_In. destruct in_dec as [Hi|]; [exfalso; auto|lia]. }
           assert (A2 : ind (starts R t) (fp p) = (y * one_at o p)%Z).
           { unfold y, one_at. destruct (eqb_ok p o) as [->|]; [lia|]. rewrite ind_mem_In. destruct in_dec as [Hi|]; [exfalso; auto|lia]. }
           rewrite A1, A2. lia.
        -- assert (~ has_place c p) by (intros Hp; apply mem_In in Hp; congruence).
           rewrite !one_at_other by (intros ->; contradiction). lia.
      * intros p. cbv beta. lia.
Qed.

(** the other way round *)
Lemma image_dec (c : net) (fp : string -> string) q : (exists p, has_place c p /\ q = fp p) \/ (forall p, has_place c p -> q <> fp p).
Proof.
  destruct (find (fun p => eqb (fp p) q) (keys (places c))) as [p|] eqn:E.
  - apply find_some in E. destruct E as [H E]. left. exists p. split; [auto|]. destruct (eqb_ok (fp p) q); [auto|discriminate].
  - right. intros p Hp ->. pose proof (find_none _ _ E p Hp) as E2. cbv beta in E2. rewrite eqb_refl in E2. discriminate.
Qed.
Lemma lift_fires c R fp ft st M t M1 K : inside c R fp ft -> fires c st M t M1 -> (forall p, has_place c p -> K (fp p) = M p) ->
  exists K1, fires R st K (ft t) K1 /\ (forall p, has_place c p -> K1 (fp p) = M1 p) /\
    forall q, (forall p, has_place c p -> q <> fp p) -> K1 q = K q.
Proof.
  intros I (F1 & F2 & F3 & F4) HK. pose proof (in_wf _ _ _ _ I) as W.
  exists (fun q => K q + effect R (ft t) q)%Z. split; [|split].
  - split; [eapply in_trans; eauto|]. split; [rewrite (in_guard _ _ _ _ I); auto|]. split; [|auto].
    intros q Hq. apply (in_starts _ _ _ _ I) in Hq; [|auto]. destruct Hq as (p & Hp & ->).
    rewrite HK; [auto|]. eapply w_sp; eauto.
  - intros p Hp. rewrite HK, F4, !effect_ind by auto. destruct (ind_image _ _ _ _ _ _ I F1 Hp) as [-> ->]. auto.
  - intros q Hq. rewrite effect_ind, !ind_mem_In.
    destruct (in_dec string_dec q (ends R (ft t))) as [E|].
    { exfalso. apply (in_ends _ _ _ _ I) in E; [|auto]. destruct E as (p & Hp & ->). eapply Hq; [|eauto]. eapply w_ep; eauto. }
    destruct (in_dec string_dec q (starts R (ft t))) as [E|].
    { exfalso. apply (in_starts _ _ _ _ I) in E; [|auto]. destruct E as (p & Hp & ->). eapply Hq; [|eauto]. eapply w_sp; eauto. }
    lia.
Qed.
Lemma lift_run c R fp ft st M l M1 K : inside c R fp ft -> run c st M l M1 -> (forall p, has_place c p -> K (fp p) = M p) ->
  exists K1, run R st K (map ft l) K1 /\ (forall p, has_place c p -> K1 (fp p) = M1 p) /\
    forall q, (forall p, has_place c p -> q <> fp p) -> K1 q = K q.
Proof.
  intros I R1. revert K. induction R1 as [M M1 E|M t M1 l M2 F R1 IH]; intros K HK.
  - exists K. split; [constructor; auto|]. split; [|auto]. intros p Hp. rewrite E. auto.
  - destruct (lift_fires _ _ _ _ _ _ _ _ K I F HK) as (K1 & G1 & G2 & G3). destruct (IH K1 G2) as (K2 & Q1 & Q2 & Q3).
    exists K2. split; [cbn; econstructor; eauto|]. split; [auto|]. intros q Hq. rewrite Q3, G3; auto.
Qed.
