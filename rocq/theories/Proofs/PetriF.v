(** Pruning of data petri nets, part 1: bypassing one place in an abstract net *)
From Coq Require Import String Permutation ZArith.
From Verif.Model Require Import Base PetriNet.
From Verif.Spec Require Import PetriSpec.
From Verif.Lib Require Import ListLib DictLib.
From Verif.Proofs Require Import PetriA.
Open Scope string_scope.
Open Scope list_scope.
Open Scope nat_scope.

Notation mark := (string -> Z).
Definition same (M M' : mark) : Prop := forall p, M' p = M p.

(** runs of the transitions in [A], with given pre- and postsets *)
Section Abs.
  Variables (A : string -> Prop) (pre post : string -> list string).
  Definition afire (M : mark) (t : string) (M' : mark) : Prop :=
    A t /\ (forall p, In p (pre t) -> (1 <= M p)%Z) /\ forall p, M' p = (M p + (ind (post t) p - ind (pre t) p))%Z.
  Inductive arun : mark -> list string -> mark -> Prop :=
  | ar_nil M M' : same M M' -> arun M [] M'
  | ar_cons M t M1 l M2 : afire M t M1 -> arun M1 l M2 -> arun M (t :: l) M2.
  Lemma arun_app M l M1 m M2 : arun M l M1 -> arun M1 m M2 -> arun M (l ++ m) M2.
  Proof.
    induction 1 as [M M1 E|M t K l M1 F R IH]; intros R2; cbn [app].
    - inversion R2 as [? ? E2|? t K l ? F R]; subst.
      + constructor. intros p. rewrite E2, E. auto.
      + econstructor; [|eauto]. destruct F as (Ft & F1 & F2). split; [auto|]. split.
        * intros p Hp. rewrite <- E. auto.
        * intros p. rewrite F2, E. auto.
    - econstructor; eauto.
  Qed.
  Lemma arun_ext M l M1 K K1 : arun M l M1 -> same M K -> same M1 K1 -> arun K l K1.
  Proof.
    intros R E E1. change l with ([] ++ l). apply (arun_app K [] M).
    - constructor. intros p. rewrite E. auto.
    - rewrite <- (app_nil_r l). eapply arun_app; [exact R|]. constructor. auto.
  Qed.
  (** only the places of the transitions matter *)
  Lemma arun_shift (Att : string -> Prop) M l M1 K : arun M l M1 ->
    (forall t p, A t -> In p (pre t) -> Att p) -> (forall p, Att p -> K p = M p) ->
    exists K1, arun K l K1 /\ forall p, Att p -> K1 p = M1 p.
  Proof.
    intros R HA. revert K. induction R as [M M1 E|M t M2 l M1 (Ft & F1 & F2) R IH]; intros K E0.
    - exists K. split; [constructor; intros p; auto|]. intros p Hp. rewrite E0, E; auto.
    - set (K2 := fun p => (K p + (ind (post t) p - ind (pre t) p))%Z).
      destruct (IH K2) as (K1 & R1 & E1).
      { intros p Hp. unfold K2. rewrite F2, E0; auto. }
      exists K1. split; [|auto]. econstructor; [|exact R1]. split; [auto|]. split; [|intros p; reflexivity].
      intros p Hp. rewrite E0; eauto.
  Qed.
End Abs.

Lemma arun_impl (A A' : string -> Prop) pre post pre' post' M l M1 : arun A pre post M l M1 ->
  (forall t, A t -> A' t /\ (forall p, ind (pre' t) p = ind (pre t) p) /\ forall p, ind (post' t) p = ind (post t) p) ->
  arun A' pre' post' M l M1.
Proof.
  intros R HA. induction R as [M M1 E|M t M2 l M1 (Ft & F1 & F2) R IH]; [constructor; auto|].
  destruct (HA t Ft) as (At & Ep & Eq). econstructor; [|exact IH]. split; [auto|]. split.
  - intros p Hp. apply F1. specialize (Ep p). unfold ind in Ep. rewrite (proj2 (mem_In p (pre' t)) Hp) in Ep.
    destruct (mem p (pre t)) eqn:Em; [apply mem_In; auto|lia].
  - intros p. rewrite Ep, Eq. auto.
Qed.

Lemma ind_single x p : ind [x] p = if eqb p x then 1%Z else 0%Z.
Proof. unfold ind. cbn [mem existsb]. unfold mem. cbn [existsb]. destruct (eqb p x); auto. Qed.
Lemma ind_nonneg l p : (0 <= ind l p)%Z.
Proof. unfold ind. destruct (mem p l); lia. Qed.
Lemma ind_out l p : ~ In p l -> ind l p = 0%Z.
Proof. unfold ind. intros Hn. rewrite (proj2 (mem_not_In p l) Hn). auto. Qed.

Section Bypass.
  Variables (A : string -> Prop) (pre post pre' post' : string -> list string) (t s e : string).
  Hypothesis At : A t.
  Hypothesis Pt : pre t = [s].
  Hypothesis Qt : post t = [e].
  Hypothesis Hse : s <> e.
  Hypothesis Hs : forall u, A u -> u <> t -> ~ In s (pre u).
  Hypothesis Hpre : forall u, A u -> u <> t -> pre' u = pre u.
  Hypothesis Hpost : forall u, A u -> u <> t ->
    forall p, ind (post' u) p = if eqb p s then 0%Z else if eqb p e then (ind (post u) e + ind (post u) s)%Z else ind (post u) p.
  Definition A' (u : string) : Prop := A u /\ u <> t.
  (** the tokens of the place that goes move on *)
  Definition moved (M : mark) : mark := fun p => if eqb p s then 0%Z else if eqb p e then (M e + M s)%Z else M p.
  Definition others (l : list string) : list string := filter (fun u => negb (eqb u t)) l.

  Lemma moved_other u M M1 : A u -> u <> t -> same M1 (fun p => (M p + (ind (post u) p - ind (pre u) p))%Z) ->
    same (moved M1) (fun p => (moved M p + (ind (post' u) p - ind (pre' u) p))%Z).
  Proof.
    intros Au Hu E p. rewrite Hpost, Hpre by auto. unfold moved.
    pose proof (ind_out (pre u) s (Hs u Au Hu)) as Z0.
    destruct (eqb_ok p s) as [->|Hps]; [lia|]. destruct (eqb_ok p e) as [->|Hpe]; rewrite <- !E; lia.
  Qed.
  Lemma moved_t M M1 : same M1 (fun p => (M p + (ind (post t) p - ind (pre t) p))%Z) -> same (moved M) (moved M1).
  Proof.
    intros E p. unfold moved. destruct (eqb_ok p s) as [->|Hps]; [auto|].
    assert (E1 : forall q, M1 q = (M q + ((if eqb q e then 1 else 0) - (if eqb q s then 1 else 0)))%Z).
    { intros q. rewrite <- E, Pt, Qt, !ind_single. auto. }
    destruct (eqb_ok p e) as [->|Hpe].
    - rewrite (E1 e), (E1 s), !eqb_refl. destruct (eqb_ok e s); [congruence|]. destruct (eqb_ok s e); [congruence|]. lia.
    - rewrite (E1 p). destruct (eqb_ok p e); [congruence|]. destruct (eqb_ok p s); [congruence|]. lia.
  Qed.

  Lemma bypass_forward M l M1 : arun A pre post M l M1 -> (0 <= M s)%Z -> forall K, same (moved M) K ->
    exists K1, arun A' pre' post' K (others l) K1 /\ same (moved M1) K1.
  Proof.
    induction 1 as [M M1 E|M u M2 l M1 (Fu & F1 & F2) R IH]; intros H0 K EK.
    - exists K. split; [constructor; intros p; auto|]. intros p. rewrite EK. unfold moved. rewrite !E. auto.
    - cbn [others filter]. destruct (eqb_ok u t) as [->|Hu]; cbn [negb].
      + apply IH.
        * rewrite F2, Pt, Qt, !ind_single, eqb_refl. destruct (eqb_ok s e); [congruence|]. specialize (F1 s).
          rewrite Pt in F1. cbn in F1. specialize (F1 (or_introl eq_refl)). lia.
        * intros p. rewrite EK. symmetry. apply (moved_t M M2). intros q. rewrite F2. auto.
      + destruct (IH) with (K := fun p => (K p + (ind (post' u) p - ind (pre' u) p))%Z) as (K1 & R1 & E1).
        * rewrite F2, (ind_out (pre u) s) by auto. pose proof (ind_nonneg (post u) s). lia.
        * intros p. rewrite EK. apply (moved_other u M M2); auto. intros q. rewrite F2. auto.
        * exists K1. split; [|auto]. econstructor; [|exact R1]. split; [split; auto|]. split; [|intros p; auto].
          intros p Hp. rewrite Hpre in Hp by auto. rewrite EK. unfold moved.
          destruct (eqb_ok p s) as [->|]; [exfalso; exact (Hs u Fu Hu Hp)|].
          specialize (F1 p Hp). destruct (eqb_ok p e) as [->|]; lia.
  Qed.

  Lemma flush k : forall M, M s = Z.of_nat k -> exists M1, arun A pre post M (repeat t k) M1 /\ M1 s = 0%Z /\ same (moved M) (moved M1).
  Proof.
    induction k as [|k IH]; intros M E.
    - exists M. split; [constructor; intros p; auto|]. split; [lia|]. intros p. auto.
    - set (M2 := fun p => (M p + (ind (post t) p - ind (pre t) p))%Z).
      destruct (IH M2) as (M1 & R1 & Z1 & S1).
      { unfold M2. rewrite Pt, Qt, !ind_single, eqb_refl. destruct (eqb_ok s e); [congruence|]. lia. }
      exists M1. split; [|split; [auto|]].
      + cbn [repeat]. econstructor; [|exact R1]. split; [auto|]. split; [|intros p; auto].
        intros p. rewrite Pt. intros [<-|[]]. lia.
      + intros p. rewrite S1. apply (moved_t M M2). intros q. auto.
  Qed.
  Lemma others_repeat k : others (repeat t k) = [].
  Proof. induction k; cbn [repeat others filter]; auto. rewrite eqb_refl. auto. Qed.
  Lemma others_app l m : others (l ++ m) = others l ++ others m.
  Proof. apply filter_app. Qed.

  Lemma bypass_backward K l K1 : arun A' pre' post' K l K1 -> forall M, (0 <= M s)%Z -> same (moved M) K ->
    exists m M1, arun A pre post M m M1 /\ others m = l /\ M1 s = 0%Z /\ same (moved M1) K1.
  Proof.
    induction 1 as [K K1 E|K u K2 l K1 ((Fu & Hu) & F1 & F2) R IH]; intros M H0 EK.
    - destruct (flush (Z.to_nat (M s)) M) as (M1 & R1 & Z1 & S1); [lia|].
      exists (repeat t (Z.to_nat (M s))), M1. split; [auto|]. split; [apply others_repeat|]. split; [auto|].
      intros p. rewrite E, EK, S1. auto.
    - destruct (flush (Z.to_nat (M s)) M) as (M1 & R1 & Z1 & S1); [lia|].
      set (M2 := fun p => (M1 p + (ind (post u) p - ind (pre u) p))%Z).
      destruct (IH M2) as (m & M3 & R3 & E3 & Z3 & S3).
      + unfold M2. rewrite (ind_out (pre u) s) by auto. pose proof (ind_nonneg (post u) s). lia.
      + intros p. rewrite F2, EK, <- S1. apply (moved_other u M1 M2); auto. intros q. auto.
      + exists (repeat t (Z.to_nat (M s)) ++ u :: m), M3. split; [|split; [|split; [auto|auto]]].
        * eapply arun_app; [exact R1|]. econstructor; [|exact R3]. split; [auto|]. split; [|intros p; auto].
          intros p Hp. rewrite Hpre in F1 by auto. specialize (F1 p Hp). rewrite EK, <- S1 in F1. unfold moved in F1.
          destruct (eqb_ok p s) as [->|]; [lia|]. destruct (eqb_ok p e) as [->|]; lia.
        * rewrite others_app, others_repeat. cbn [app others filter]. destruct (eqb_ok u t); [congruence|]. cbn [negb]. f_equal. auto.
  Qed.
  (** the bypassed place is empty: nothing moves *)
End Bypass.

Lemma moved_id s e M : M s = 0%Z -> same (moved s e M) M.
Proof.
  intros E p. unfold moved. destruct (eqb_ok p s) as [->|]; [lia|]. destruct (eqb_ok p e) as [->|]; lia.
Qed.
