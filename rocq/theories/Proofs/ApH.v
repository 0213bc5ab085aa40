(** Activity patterns, part 8: sequences, choices and parallel nets *)
From Coq Require Import String ZArith Permutation.
From Verif.Model Require Import Base PetriNet ActivityPattern.
From Verif.Spec Require Import PetriSpec ActivityPatternSpec.
From Verif.Lib Require Import ListLib DictLib.
From Verif.Proofs Require Import PetriA PetriC PetriD ApA ApB ApC ApD ApE ApF ApG ApS.
Open Scope string_scope.
Open Scope list_scope.
Open Scope nat_scope.

Definition old_t (a b : pattern) (x : string) : Prop := has_transition (pnet a) x \/ exists u k, has_transition (pnet b) u /\ x = quoted u k.
Definition old_p (a b : pattern) (x : string) : Prop := has_place (pnet a) x \/ exists u k, has_place (pnet b) u /\ x = quoted u k.
Definition works (p : pattern) : Prop := good p /\ is_workflow_net (pnet p) = true.

(** what is known of two patterns put side by side *)
Record side (a b : pattern) (s1 e1 s2 e2 : string) (fp ft : string -> string) (names : dict string string) (N : net) (A B : comp) : Prop := {
  d_A : A = Comp 0 (pnet a) (fun x => x) (fun x => x) s1 e1;
  d_B : B = Comp 1 (pnet b) fp ft s2 e2;
  d_k : composed N [A; B] nothing nothing nothing2 nothing2;
  d_a : spelled names A a;
  d_b : spelled names B b;
  d_ga : good a; d_gb : good b;
  d_ia : forall p, source (pnet a) p <-> p = s1; d_oa : forall p, sink (pnet a) p <-> p = e1;
  d_ib : forall p, source (pnet b) p <-> p = s2; d_ob : forall p, sink (pnet b) p <-> p = e2;
  d_fp : forall p, has_place (pnet b) p -> exists k, fp p = quoted p k;
  d_ft : forall t, has_transition (pnet b) t -> exists k, ft t = quoted t k }.
Lemma unique_iff (P : string -> Prop) x : (forall x y, P x -> P y -> x = y) -> P x -> forall y, P y <-> y = x.
Proof. intros U H y. split; [intros Hy; apply U; auto|intros ->; auto]. Qed.
Lemma prepared ord st a b s1 e1 s2 e2 : any_order ord -> good a -> good b ->
  source (pnet a) s1 -> sink (pnet a) e1 -> source (pnet b) s2 -> sink (pnet b) e2 ->
  exists fp ft names N st' A B, prepare_composition ord st a b = Ok (s1, e1, fp s2, fp e2, names, N, st') /\ side a b s1 e1 s2 e2 fp ft names N A B.
Proof.
  intros HO Ga Gb S1 E1 S2 E2. destruct (prepare_ok ord st a b s1 e1 s2 e2 HO Ga Gb S1 E1 S2 E2) as (fp & ft & names & N & st' & E & K & Sa & Sb & Qp & Qt).
  exists fp, ft, names, N, st'. eexists. eexists. split; [exact E|]. constructor; try reflexivity; auto.
  - apply unique_iff; [apply (g_src _ Ga)|auto].
  - apply unique_iff; [apply (g_snk _ Ga)|auto].
  - apply unique_iff; [apply (g_src _ Gb)|auto].
  - apply unique_iff; [apply (g_snk _ Gb)|auto].
Qed.
Section Side.
  Variables (a b : pattern) (s1 e1 s2 e2 : string) (fp ft : string -> string) (names : dict string string) (N : net) (A B : comp).
  Hypothesis D : side a b s1 e1 s2 e2 fp ft names N A B.
  Lemma s_AB : c_nr A <> c_nr B.
  Proof. rewrite (d_A _ _ _ _ _ _ _ _ _ _ _ _ D), (d_B _ _ _ _ _ _ _ _ _ _ _ _ D). cbn. discriminate. Qed.
  Lemma s_Aeq : pnet a = c_net A /\ c_i A = s1 /\ c_o A = e1 /\ (forall x, c_p A x = x) /\ (forall x, c_t A x = x).
  Proof. rewrite (d_A _ _ _ _ _ _ _ _ _ _ _ _ D). cbn. auto. Qed.
  Lemma s_Beq : pnet b = c_net B /\ c_i B = s2 /\ c_o B = e2 /\ (forall x, c_p B x = fp x) /\ (forall x, c_t B x = ft x).
  Proof. rewrite (d_B _ _ _ _ _ _ _ _ _ _ _ _ D). cbn. auto. Qed.
  Lemma s_t x : has_transition N x -> old_t a b x.
  Proof.
    intros H. apply (k_t _ _ _ _ _ _ (d_k _ _ _ _ _ _ _ _ _ _ _ _ D)) in H. destruct H as [[]|(c & u & Hc & Hu & ->)].
    rewrite (d_A _ _ _ _ _ _ _ _ _ _ _ _ D), (d_B _ _ _ _ _ _ _ _ _ _ _ _ D) in Hc. destruct Hc as [<-|[<-|[]]]; cbn in *; [left; auto|right].
    destruct (d_ft _ _ _ _ _ _ _ _ _ _ _ _ D u Hu) as [k E]. exists u, k. auto.
  Qed.
  Lemma s_p x : has_place N x -> old_p a b x.
  Proof.
    intros H. apply (k_p _ _ _ _ _ _ (d_k _ _ _ _ _ _ _ _ _ _ _ _ D)) in H. destruct H as [[]|(c & u & Hc & Hu & ->)].
    rewrite (d_A _ _ _ _ _ _ _ _ _ _ _ _ D), (d_B _ _ _ _ _ _ _ _ _ _ _ _ D) in Hc. destruct Hc as [<-|[<-|[]]]; cbn in *; [left; auto|right].
    destruct (d_fp _ _ _ _ _ _ _ _ _ _ _ _ D u Hu) as [k E]. exists u, k. auto.
  Qed.
  Lemma s_s1 : has_place (pnet a) s1.
  Proof. apply before_place; [apply (d_ga _ _ _ _ _ _ _ _ _ _ _ _ D)|]. apply (d_ia _ _ _ _ _ _ _ _ _ _ _ _ D). auto. Qed.
  Lemma s_e1 : has_place (pnet a) e1.
  Proof. apply behind_place; [apply (d_ga _ _ _ _ _ _ _ _ _ _ _ _ D)|]. apply (d_oa _ _ _ _ _ _ _ _ _ _ _ _ D). auto. Qed.
  Lemma s_s2 : has_place (pnet b) s2.
  Proof. apply before_place; [apply (d_gb _ _ _ _ _ _ _ _ _ _ _ _ D)|]. apply (d_ib _ _ _ _ _ _ _ _ _ _ _ _ D). auto. Qed.
  Lemma s_e2 : has_place (pnet b) e2.
  Proof. apply behind_place; [apply (d_gb _ _ _ _ _ _ _ _ _ _ _ _ D)|]. apply (d_ob _ _ _ _ _ _ _ _ _ _ _ _ D). auto. Qed.
  Lemma s_q2 : exists k, fp s2 = quoted s2 k.
  Proof. apply (d_fp _ _ _ _ _ _ _ _ _ _ _ _ D). apply s_s2. Qed.
  Lemma s_q3 : exists k, fp e2 = quoted e2 k.
  Proof. apply (d_fp _ _ _ _ _ _ _ _ _ _ _ _ D). apply s_e2. Qed.
  (** the places at the ends, wherever further transitions and places are added *)
  Lemma s_has R X G pre post : composed R [A; B] X G pre post ->
    has_place R s1 /\ has_place R e1 /\ has_place R (fp s2) /\ has_place R (fp e2).
  Proof.
    intros K. destruct s_Aeq as (A1 & A2 & A3 & A4 & A5). destruct s_Beq as (B1 & B2 & B3 & B4 & B5).
    pose proof s_s1. pose proof s_e1. pose proof s_s2. pose proof s_e2. repeat split; apply (k_p _ _ _ _ _ _ K); right.
    - exists A, s1. rewrite A4, <- A1. split; [apply inA|auto].
    - exists A, e1. rewrite A4, <- A1. split; [apply inA|auto].
    - exists B, s2. rewrite B4, <- B1. split; [apply inB|auto].
    - exists B, e2. rewrite B4, <- B1. split; [apply inB|auto].
  Qed.
  Lemma s_dist : s1 <> e1 /\ s2 <> e2 /\ s1 <> fp s2 /\ s1 <> fp e2 /\ e1 <> fp s2 /\ e1 <> fp e2 /\ fp s2 <> fp e2.
  Proof.
    destruct s_Aeq as (A1 & A2 & A3 & A4 & A5). destruct s_Beq as (B1 & B2 & B3 & B4 & B5).
    pose proof (d_k _ _ _ _ _ _ _ _ _ _ _ _ D) as K. pose proof s_s1 as H1. pose proof s_e1 as H2. pose proof s_s2 as H3. pose proof s_e2 as H4.
    assert (N1 : s1 <> e1).
    { intros E. destruct (proj2 (d_ia _ _ _ _ _ _ _ _ _ _ _ _ D s1) eq_refl) as [_ Q]. apply Q. rewrite E. apply (d_oa _ _ _ _ _ _ _ _ _ _ _ _ D e1). auto. }
    assert (N2 : s2 <> e2).
    { intros E. destruct (proj2 (d_ib _ _ _ _ _ _ _ _ _ _ _ _ D s2) eq_refl) as [_ Q]. apply Q. rewrite E. apply (d_ob _ _ _ _ _ _ _ _ _ _ _ _ D e2). auto. }
    assert (Q : forall x y, has_place (pnet a) x -> has_place (pnet b) y -> x <> fp y).
    { intros x y Hx Hy E. destruct (k_same_p _ _ _ _ _ _ K A B x y) as [E' _]; [apply inA|apply inB|rewrite <- A1; auto|rewrite <- B1; auto|rewrite A4, B4; auto|].
      apply s_AB. rewrite E'. auto. }
    split; [auto|]. split; [auto|]. do 4 (split; [auto|]). intros E.
    destruct (k_same_p _ _ _ _ _ _ K B B s2 e2) as [_ E']; [apply inB|apply inB|rewrite <- B1; auto|rewrite <- B1; auto|rewrite !B4; auto|auto].
  Qed.
  Lemma s_four : NoDup [s1; e1; fp s2; fp e2].
  Proof. destruct s_dist as (H1 & H2 & H3 & H4 & H5 & H6 & H7). repeat (constructor; [cbn [In]; intros HH; decompose [or] HH; congruence|]). constructor. Qed.
  Lemma s_link R (X G : string -> Prop) (pre post : string -> string -> Prop) : composed R [A; B] X G pre post ->
    (forall t q, pre t q -> G q \/ q = e1 \/ q = fp e2) -> (forall t q, post t q -> G q \/ q = s1 \/ q = fp s2) ->
    linked R [A; B] X G pre post.
  Proof.
    intros K H1 H2. destruct s_Aeq as (A1 & A2 & A3 & A4 & A5). destruct s_Beq as (B1 & B2 & B3 & B4 & B5).
    pose proof s_s1 as P1. pose proof s_e1 as P2. pose proof s_s2 as P3. pose proof s_e2 as P4.
    assert (PA : forall c p q, In c [A; B] -> has_place (c_net c) p -> has_place (pnet a) q -> c_p c p = q -> c = A /\ p = q).
    { intros c p q Hc Hp Hq E. apply (k_same_p _ _ _ _ _ _ K c A p q); auto; [apply inA|rewrite <- A1; auto|rewrite A4; auto]. }
    assert (PB : forall c p q, In c [A; B] -> has_place (c_net c) p -> has_place (pnet b) q -> c_p c p = fp q -> c = B /\ p = q).
    { intros c p q Hc Hp Hq E. apply (k_same_p _ _ _ _ _ _ K c B p q); auto; [apply inB|rewrite <- B1; auto|rewrite B4; auto]. }
    constructor; [auto|..].
    - intros c p [<-|[<-|[]]]; [rewrite A2, <- A1; apply (d_ia _ _ _ _ _ _ _ _ _ _ _ _ D)|rewrite B2, <- B1; apply (d_ib _ _ _ _ _ _ _ _ _ _ _ _ D)].
    - intros c p [<-|[<-|[]]]; [rewrite A3, <- A1; apply (d_oa _ _ _ _ _ _ _ _ _ _ _ _ D)|rewrite B3, <- B1; apply (d_ob _ _ _ _ _ _ _ _ _ _ _ _ D)].
    - intros c t p Hc Hp Ht. destruct (H1 _ _ Ht) as [Hg|[E|E]].
      + exfalso. eapply (k_gp _ _ _ _ _ _ K); eauto.
      + destruct (PA c p e1 Hc Hp P2 E) as [-> ->]. auto.
      + destruct (PB c p e2 Hc Hp P4 E) as [-> ->]. auto.
    - intros c t p Hc Hp Ht. destruct (H2 _ _ Ht) as [Hg|[E|E]].
      + exfalso. eapply (k_gp _ _ _ _ _ _ K); eauto.
      + destruct (PA c p s1 Hc Hp P1 E) as [-> ->]. auto.
      + destruct (PB c p s2 Hc Hp P3 E) as [-> ->]. auto.
  Qed.
  Lemma s_parts : forall c, In c [A; B] -> exists p, pnet p = c_net c /\ good p /\ spelled names c p.
  Proof.
    destruct s_Aeq as (A1 & _). destruct s_Beq as (B1 & _). intros c [<-|[<-|[]]].
    - exists a. split; [auto|]. split; [apply (d_ga _ _ _ _ _ _ _ _ _ _ _ _ D)|apply (d_a _ _ _ _ _ _ _ _ _ _ _ _ D)].
    - exists b. split; [auto|]. split; [apply (d_gb _ _ _ _ _ _ _ _ _ _ _ _ D)|apply (d_b _ _ _ _ _ _ _ _ _ _ _ _ D)].
  Qed.
End Side.

Lemma sequence_case ord st a b s1 e1 s2 e2 : any_order ord -> good a -> good b ->
  source (pnet a) s1 -> sink (pnet a) e1 -> source (pnet b) s2 -> sink (pnet b) e2 ->
  (sequence ord st a b = Err ValueError /\ exists k, old_t a b (e1 ++ "," ++ quoted s2 k)%string) \/
  exists p st', sequence ord st a b = Ok (p, st') /\ works p /\ (connected (pnet a) -> connected (pnet b) -> connected (pnet p)) /\
    (forall st, connected (pnet a) -> connected (pnet b) -> ends_clean st a -> ends_clean st b -> ends_clean st p) /\
    (forall st u v, speaks st a u -> speaks st b v -> speaks st p (u ++ v)) /\
    (forall st w, connected (pnet a) -> connected (pnet b) -> ends_once st a -> speaks st p w -> exists u v, w = u ++ v /\ speaks st a u /\ speaks st b v).
Proof.
  intros HO Ga Gb S1 E1 S2 E2. destruct (prepared ord st a b s1 e1 s2 e2 HO Ga Gb S1 E1 S2 E2) as (fp & ft & names & N & st' & A & B & E & D).
  unfold sequence. rewrite E. cbn [bind]. clear E.
  destruct (s_Aeq _ _ _ _ _ _ _ _ _ _ _ _ D) as (A1 & A2 & A3 & A4 & A5). destruct (s_Beq _ _ _ _ _ _ _ _ _ _ _ _ D) as (B1 & B2 & B3 & B4 & B5).
  set (t := (e1 ++ "," ++ fp s2)%string).
  destruct (composed_transition _ _ _ _ _ _ t (d_k _ _ _ _ _ _ _ _ _ _ _ _ D)) as [[Ht ->]|(Ht & R1 & -> & K1)].
  { left. split; [auto|]. apply (s_t _ _ _ _ _ _ _ _ _ _ _ _ D) in Ht. destruct (s_q2 _ _ _ _ _ _ _ _ _ _ _ _ D) as [k Ek]. exists k. rewrite <- Ek. auto. }
  right. cbn [bind]. destruct (s_has _ _ _ _ _ _ _ _ _ _ _ _ D _ _ _ _ _ K1) as (P1 & P2 & P3 & P4).
  destruct (composed_connection _ _ _ _ _ _ e1 t (fp s2) K1) as (R2 & -> & K2); auto. cbn [bind].
  assert (L : linked R2 [A; B] (fun u => u = t) nothing (fun u q => u = t /\ q = e1) (fun u q => u = t /\ q = fp s2)).
  { apply (s_link _ _ _ _ _ _ _ _ _ _ _ _ D).
    - eapply composed_iff; [exact K2|..]; unfold nothing, nothing2; intros; cbv beta; tauto.
    - intros u q [_ ->]. auto.
    - intros u q [_ ->]. auto. }
  pose proof (s_AB _ _ _ _ _ _ _ _ _ _ _ _ D) as AB.
  assert (HX : forall u, u = t <-> u = t) by tauto. assert (HG : forall q, ~ nothing q) by (intros q []).
  assert (Hpre : forall u q, (u = t /\ q = e1) <-> u = t /\ q = c_p A (c_o A)) by (intros; rewrite A3, A4; tauto).
  assert (Hpost : forall u q, (u = t /\ q = fp s2) <-> u = t /\ q = c_p B (c_i B)) by (intros; rewrite B2, B4; tauto).
  pose proof (seq_source _ _ _ _ _ _ _ _ L AB HG Hpost) as So. pose proof (seq_sink _ _ _ _ _ _ _ _ L AB HG Hpre) as Si.
  destruct (k_new _ _ _ _ _ _ (l_k _ _ _ _ _ _ L) ord st' names _ _ So Si (s_parts _ _ _ _ _ _ _ _ _ _ _ _ D)) as (En & W & Gp).
  exists (Pattern R2 names), st'. split; [exact En|]. split; [split; auto|]. cbn [pnet]. split; [|split; [|rewrite A1, B1; split]].
  - rewrite A1, B1. apply (seq_connected _ _ _ _ _ _ _ _ L HX Hpre Hpost).
  - intros st0 Ca Cb. rewrite A1 in Ca. rewrite B1 in Cb. apply (seq_clean _ _ _ _ _ _ _ _ L AB HX HG Hpre Hpost names a b A1 B1 st0 Ca Cb).
  - intros st0 u v. apply (seq_words_in _ _ _ _ _ _ _ _ L AB HX HG Hpre Hpost names a b); auto; apply D.
  - intros st0 w. apply (seq_words_out _ _ _ _ _ _ _ _ L AB HX HG Hpre Hpost names a b); auto; apply D.
Qed.

(** two sinks become one *)
Lemma composed_sinks R cs X G pre post x y : composed R cs X G pre post -> has_place R x -> has_place R y ->
  let e := (x ++ "," ++ y)%string in
  (introduce_new_sink_place [x; y] R = Err ValueError /\ has_place R e) \/
  exists R' t3 t4, introduce_new_sink_place [x; y] R = Ok R' /\ ~ has_place R e /\ ~ has_transition R t3 /\ ~ has_transition R t4 /\ t3 <> t4 /\
    composed R' cs (fun u => u = t3 \/ u = t4 \/ X u) (fun q => q = e \/ G q)
      (fun u q => (u = t3 /\ q = x) \/ (u = t4 /\ q = y) \/ pre u q) (fun u q => (u = t3 /\ q = e) \/ (u = t4 /\ q = e) \/ post u q).
Proof.
  intros K Hx Hy e. unfold introduce_new_sink_place. change (String.concat "," [x; y]) with e.
  destruct (composed_place _ _ _ _ _ _ e K) as [[He ->]|(He & R1 & -> & K1)]; [left; auto|]. right. cbn [bind foldM].
  assert (P : forall z, has_place R z -> has_place R1 z).
  { intros z Hz. apply (k_p _ _ _ _ _ _ K) in Hz. apply (k_p _ _ _ _ _ _ K1). destruct Hz as [?|?]; auto. }
  assert (Pe : has_place R1 e) by (apply (k_p _ _ _ _ _ _ K1); auto).
  assert (T : forall z, has_transition R1 z <-> has_transition R z).
  { intros z. rewrite (k_t _ _ _ _ _ _ K), (k_t _ _ _ _ _ _ K1). tauto. }
  destruct (composed_unique _ _ _ _ _ _ x K1) as (t3 & R2 & -> & N3 & E2 & K2). cbn [bind]. rewrite E2. cbn [bind].
  assert (P2 : forall z, has_place R1 z -> has_place R2 z).
  { intros z Hz. apply (k_p _ _ _ _ _ _ K1) in Hz. apply (k_p _ _ _ _ _ _ K2). auto. }
  destruct (composed_connection _ _ _ _ _ _ x t3 e K2) as (R3 & -> & K3); auto. cbn [bind].
  assert (P3 : forall z, has_place R2 z -> has_place R3 z).
  { intros z Hz. apply (k_p _ _ _ _ _ _ K2) in Hz. apply (k_p _ _ _ _ _ _ K3). auto. }
  destruct (composed_unique _ _ _ _ _ _ y K3) as (t4 & R4 & -> & N4 & E4 & K4). cbn [bind]. rewrite E4. cbn [bind].
  assert (P4 : forall z, has_place R3 z -> has_place R4 z).
  { intros z Hz. apply (k_p _ _ _ _ _ _ K3) in Hz. apply (k_p _ _ _ _ _ _ K4). auto. }
  destruct (composed_connection _ _ _ _ _ _ y t4 e K4) as (R5 & -> & K5); auto. cbn [bind].
  exists R5, t3, t4. split; [auto|]. split; [auto|]. rewrite <- T. split; [auto|]. split; [|split].
  - intros H. apply N4. apply (k_t _ _ _ _ _ _ K) in H. apply (k_t _ _ _ _ _ _ K3). destruct H as [?|?]; auto.
  - intros <-. apply N4. apply (k_t _ _ _ _ _ _ K3). auto.
  - eapply composed_iff; [exact K5|..]; intros; cbv beta; tauto.
Qed.

Lemma two_places l (x y : string) : NoDup l -> x <> y -> (forall z, In z l <-> z = x \/ z = y) -> l = [x; y] \/ l = [y; x].
Proof.
  intros N Hn H. destruct l as [|u [|v [|w l]]].
  - exfalso. apply (proj2 (H x)). auto.
  - exfalso. pose proof (proj2 (H x) (or_introl eq_refl)) as H1. pose proof (proj2 (H y) (or_intror eq_refl)) as H2. cbn in *. destruct H1 as [<-|[]], H2 as [<-|[]]. auto.
  - pose proof (proj1 (H u) (or_introl eq_refl)) as H1. pose proof (proj1 (H v) (or_intror (or_introl eq_refl))) as H2.
    apply NoDup_cons_iff in N. destruct N as [N _]. cbn in N. destruct H1 as [->| ->], H2 as [->| ->]; auto; exfalso; apply N; auto.
  - exfalso. pose proof (proj1 (H u) (or_introl eq_refl)) as H1. pose proof (proj1 (H v) (or_intror (or_introl eq_refl))) as H2.
    pose proof (proj1 (H w) (or_intror (or_intror (or_introl eq_refl)))) as H3.
    apply NoDup_cons_iff in N. destruct N as [N N']. apply NoDup_cons_iff in N'. destruct N' as [N' _]. cbn in N, N'.
    destruct H1 as [->| ->], H2 as [->| ->], H3 as [->| ->]; tauto.
Qed.

Lemma choice_case ord st a b s1 e1 s2 e2 : any_order ord -> good a -> good b ->
  source (pnet a) s1 -> sink (pnet a) e1 -> source (pnet b) s2 -> sink (pnet b) e2 ->
  (choice ord st a b = Err ValueError /\ exists k j, NoDup [s1; e1; quoted s2 k; quoted e2 j] /\ let s := (s1 ++ "," ++ quoted s2 k)%string in old_p a b s \/
    exists e, (e = (e1 ++ "," ++ quoted e2 j)%string \/ e = (quoted e2 j ++ "," ++ e1)%string) /\ (e = s \/ old_p a b e)) \/
  exists p st', choice ord st a b = Ok (p, st') /\ works p /\ (connected (pnet a) -> connected (pnet b) -> connected (pnet p)) /\
    (forall st, connected (pnet a) -> connected (pnet b) -> ends_clean st a -> ends_clean st b -> ends_clean st p) /\
    (forall st w, connected (pnet a) -> connected (pnet b) -> speaks st p w <-> speaks st a w \/ speaks st b w).
Proof.
  intros HO Ga Gb S1 E1 S2 E2. destruct (prepared ord st a b s1 e1 s2 e2 HO Ga Gb S1 E1 S2 E2) as (fp & ft & names & N & st' & A & B & E & D).
  unfold choice. rewrite E. cbn [bind]. clear E.
  destruct (s_Aeq _ _ _ _ _ _ _ _ _ _ _ _ D) as (A1 & A2 & A3 & A4 & A5). destruct (s_Beq _ _ _ _ _ _ _ _ _ _ _ _ D) as (B1 & B2 & B3 & B4 & B5).
  pose proof (s_AB _ _ _ _ _ _ _ _ _ _ _ _ D) as AB. destruct (s_dist _ _ _ _ _ _ _ _ _ _ _ _ D) as (d1 & d2 & d3 & d4 & d5 & d6 & d7).
  destruct (s_q2 _ _ _ _ _ _ _ _ _ _ _ _ D) as [k Ek]. destruct (s_q3 _ _ _ _ _ _ _ _ _ _ _ _ D) as [j Ej].
  set (s := (s1 ++ "," ++ fp s2)%string).
  destruct (composed_place _ _ _ _ _ _ s (d_k _ _ _ _ _ _ _ _ _ _ _ _ D)) as [[Ht ->]|(Hs & R1 & -> & K1)].
  { left. split; [auto|]. apply (s_p _ _ _ _ _ _ _ _ _ _ _ _ D) in Ht. exists k, j. rewrite <- Ek, <- Ej. split; [apply (s_four _ _ _ _ _ _ _ _ _ _ _ _ D)|]. left. auto. }
  cbn [bind]. destruct (composed_unique _ _ _ _ _ _ s1 K1) as (t1 & R2 & -> & N1 & E2' & K2). cbn [bind]. rewrite E2'. cbn [bind].
  destruct (composed_unique _ _ _ _ _ _ (fp s2) K2) as (t2 & R3 & -> & N2 & E3' & K3). cbn [bind]. rewrite E3'. cbn [bind].
  destruct (s_has _ _ _ _ _ _ _ _ _ _ _ _ D _ _ _ _ _ K3) as (P1 & P2 & P3 & P4).
  assert (Ps : has_place R3 s) by (apply (k_p _ _ _ _ _ _ K3); auto).
  destruct (composed_connection _ _ _ _ _ _ s t1 s1 K3) as (R4 & -> & K4); auto. cbn [bind].
  destruct (s_has _ _ _ _ _ _ _ _ _ _ _ _ D _ _ _ _ _ K4) as (P1' & P2' & P3' & P4').
  destruct (composed_connection _ _ _ _ _ _ s t2 (fp s2) K4) as (R5 & -> & K5); auto; [apply (k_p _ _ _ _ _ _ K4); auto|]. cbn [bind].
  assert (n12 : t1 <> t2) by (intros <-; apply N2; apply (k_t _ _ _ _ _ _ K2); auto).
  set (X5 := fun u => u = t1 \/ u = t2). set (G5 := fun q => q = s).
  set (pre5 := fun u q => (u = t1 \/ u = t2) /\ q = s). set (post5 := fun u q => (u = t1 /\ q = s1) \/ (u = t2 /\ q = fp s2)).
  assert (K5' : composed R5 [A; B] X5 G5 pre5 post5).
  { eapply composed_iff; [exact K5|..]; unfold X5, G5, pre5, post5, nothing, nothing2; intros; cbv beta; tauto. }
  destruct (copy st' R5) as [[C st2]|] eqn:EC; [|rewrite copy_ok in EC by apply K5; discriminate].
  destruct (wf_copy _ _ _ _ (k_wf _ _ _ _ _ _ K5) EC) as (WC & PC & TC).
  pose proof (composed_ext _ C _ _ _ _ _ K5' WC PC TC) as KC.
  assert (LC : linked C [A; B] X5 G5 pre5 post5).
  { apply (s_link _ _ _ _ _ _ _ _ _ _ _ _ D); [auto|..]; unfold pre5, post5, G5; intros; tauto. }
  unfold transform_to_workflow_net. rewrite EC. cbn [bind]. destruct (get_source_sink_places C) as [so si] eqn:Q.
  apply source_sink_ok in Q; [|apply (w_trans _ WC)]. destruct Q as (D1 & D2 & D3 & D4).
  assert (Gs : G5 s) by (unfold G5; auto).
  assert (gA : forall p, has_place (c_net A) p -> s <> c_p A p) by (intros p; apply (k_gp _ _ _ _ _ _ KC s A p Gs (inA A B))).
  assert (gB : forall p, has_place (c_net B) p -> s <> c_p B p) by (intros p; apply (k_gp _ _ _ _ _ _ KC s B p Gs (inB A B))).
  pose proof (l_ip _ _ _ _ _ _ LC A (inA A B)) as pA. pose proof (l_op _ _ _ _ _ _ LC A (inA A B)) as qA.
  pose proof (l_ip _ _ _ _ _ _ LC B (inB A B)) as pB. pose proof (l_op _ _ _ _ _ _ LC B (inB A B)) as qB.
  assert (F1 : s <> s1). { specialize (gA _ pA). rewrite A2, A4 in gA. auto. }
  assert (F2 : s <> e1). { specialize (gA _ qA). rewrite A3, A4 in gA. auto. }
  assert (F3 : s <> fp s2). { specialize (gB _ pB). rewrite B2, B4 in gB. auto. }
  assert (F4 : s <> fp e2). { specialize (gB _ qB). rewrite B3, B4 in gB. auto. }
  assert (So : forall q, In q so <-> q = s).
  { intros q. rewrite D3. change (source C q <-> q = s). rewrite (l_source _ _ _ _ _ _ LC). split.
    - intros [(Hg & _)|(c & Hc & -> & Hn)]; [auto|]. exfalso. apply Hn. destruct Hc as [<-|[<-|[]]].
      + exists t1. unfold post5. rewrite A2, A4. auto.
      + exists t2. unfold post5. rewrite B2, B4. auto.
    - intros ->. left. split; [auto|]. split; [exists t1; unfold pre5; auto|]. intros [t [[_ H]|[_ H]]]; auto. }
  assert (Si : forall q, In q si <-> q = e1 \/ q = fp e2).
  { intros q. rewrite D4. change (sink C q <-> q = e1 \/ q = fp e2). rewrite (l_sink _ _ _ _ _ _ LC). split.
    - intros [(Hg & [t Hp] & _)|(c & Hc & -> & Hn)].
      + exfalso. unfold G5 in Hg. subst q. destruct Hp as [[_ H]|[_ H]]; auto.
      + destruct Hc as [<-|[<-|[]]]; [rewrite A3, A4|rewrite B3, B4]; auto.
    - intros [->| ->]; right.
      + exists A. split; [apply inA|]. rewrite A3, A4. split; [auto|]. intros [t [_ H]]. auto.
      + exists B. split; [apply inB|]. rewrite B3, B4. split; [auto|]. intros [t [_ H]]. auto. }
  rewrite (size1 so s D1 So). change (1 <? 1) with false. cbn [bind].
  assert (Os : ord si = [e1; fp e2] \/ ord si = [fp e2; e1]).
  { apply two_places; [|auto|].
    - eapply Permutation_NoDup; [apply Permutation_sym, HO|auto].
    - intros z. rewrite <- Si. split; [apply (Permutation_in _ (HO si))|apply (Permutation_in _ (Permutation_sym (HO si)))]. }
  assert (Ls : length si = 2).
  { rewrite <- (Permutation_length (HO si)). destruct Os as [->| ->]; auto. }
  rewrite Ls. change (1 <? 2) with true. cbv iota.
  destruct (s_has _ _ _ _ _ _ _ _ _ _ _ _ D _ _ _ _ _ KC) as (Q1 & Q2 & Q3 & Q4).
  assert (Fin : forall x y e t3 t4 T, (x = e1 /\ y = fp e2 /\ T = (t3, t4)) \/ (x = fp e2 /\ y = e1 /\ T = (t4, t3)) -> e = (x ++ "," ++ y)%string ->
     forall R', introduce_new_sink_place [x; y] C = Ok R' -> ~ has_place C e -> ~ has_transition C t3 -> ~ has_transition C t4 -> t3 <> t4 ->
      composed R' [A; B] (fun u => u = t3 \/ u = t4 \/ X5 u) (fun q => q = e \/ G5 q)
      (fun u q => (u = t3 /\ q = x) \/ (u = t4 /\ q = y) \/ pre5 u q) (fun u q => (u = t3 /\ q = e) \/ (u = t4 /\ q = e) \/ post5 u q) ->
     exists p st', new_pattern ord st2 R' (Named names) = Ok (p, st') /\ works p /\ (connected (pnet a) -> connected (pnet b) -> connected (pnet p)) /\
    (forall st, connected (pnet a) -> connected (pnet b) -> ends_clean st a -> ends_clean st b -> ends_clean st p) /\
    (forall st w, connected (pnet a) -> connected (pnet b) -> speaks st p w <-> speaks st a w \/ speaks st b w)).
  { intros x y e t3 t4 T HT Ee R' _ He N3 N4 n34 KR.
    set (sg := fun c => if c_nr c =? 0 then t1 else t2). set (ep := fun c => if c_nr c =? 0 then fst T else snd T).
    assert (nA : c_nr A = 0) by (rewrite (d_A _ _ _ _ _ _ _ _ _ _ _ _ D); auto). assert (nB : c_nr B = 1) by (rewrite (d_B _ _ _ _ _ _ _ _ _ _ _ _ D); auto).
    assert (sgA : sg A = t1) by (unfold sg; rewrite nA; auto). assert (sgB : sg B = t2) by (unfold sg; rewrite nB; auto).
    assert (epA : ep A = fst T) by (unfold ep; rewrite nA; auto). assert (epB : ep B = snd T) by (unfold ep; rewrite nB; auto).
    clearbody sg ep.
    assert (Hpre : forall t q, ((t = t3 /\ q = x) \/ (t = t4 /\ q = y) \/ pre5 t q) <->
      exists c, In c [A; B] /\ ((t = sg c /\ q = s) \/ (t = ep c /\ q = c_p c (c_o c)))).
    { intros t q. transitivity ((t = sg A /\ q = s) \/ (t = sg B /\ q = s) \/ (t = ep A /\ q = e1) \/ (t = ep B /\ q = fp e2)).
      - rewrite sgA, sgB, epA, epB. unfold pre5. destruct HT as [(-> & -> & ->)|(-> & -> & ->)]; cbn [fst snd]; tauto.
      - split.
        + intros [[-> ->]|[[-> ->]|[[-> ->]|[-> ->]]]]; [exists A|exists B|exists A|exists B]; (split; [cbn; auto|]); rewrite ?A3, ?A4, ?B3, ?B4; auto.
        + intros (c & [<-|[<-|[]]] & H); rewrite ?A3, ?A4, ?B3, ?B4 in H; tauto. }
    assert (Hpost : forall t q, ((t = t3 /\ q = e) \/ (t = t4 /\ q = e) \/ post5 t q) <->
      exists c, In c [A; B] /\ ((t = sg c /\ q = c_p c (c_i c)) \/ (t = ep c /\ q = e))).
    { intros t q. transitivity ((t = sg A /\ q = s1) \/ (t = sg B /\ q = fp s2) \/ (t = ep A /\ q = e) \/ (t = ep B /\ q = e)).
      - rewrite sgA, sgB, epA, epB. unfold post5. destruct HT as [(-> & -> & ->)|(-> & -> & ->)]; cbn [fst snd]; tauto.
      - split.
        + intros [[-> ->]|[[-> ->]|[[-> ->]|[-> ->]]]]; [exists A|exists B|exists A|exists B]; (split; [cbn; auto|]); rewrite ?A2, ?A4, ?B2, ?B4; auto.
        + intros (c & [<-|[<-|[]]] & H); rewrite ?A2, ?A4, ?B2, ?B4 in H; tauto. }
    assert (HX : forall t, (t = t3 \/ t = t4 \/ X5 t) <-> exists c, In c [A; B] /\ (t = sg c \/ t = ep c)).
    { intros t. transitivity (t = sg A \/ t = sg B \/ t = ep A \/ t = ep B).
      - rewrite sgA, sgB, epA, epB. unfold X5. destruct HT as [(-> & -> & ->)|(-> & -> & ->)]; cbn [fst snd]; tauto.
      - split.
        + intros [->|[->|[->| ->]]]; [exists A|exists B|exists A|exists B]; cbn; auto.
        + intros (c & [<-|[<-|[]]] & H); tauto. }
    set (X := fun u => u = t3 \/ u = t4 \/ X5 u) in *. set (G := fun q => q = e \/ G5 q) in *.
    set (pre := fun u q => (u = t3 /\ q = x) \/ (u = t4 /\ q = y) \/ pre5 u q) in *. set (post := fun u q => (u = t3 /\ q = e) \/ (u = t4 /\ q = e) \/ post5 u q) in *.
    assert (Gs' : G s) by (right; auto). assert (Ge' : G e) by (left; auto).
    assert (LR : linked R' [A; B] X G pre post).
    { apply (s_link _ _ _ _ _ _ _ _ _ _ _ _ D); [auto|..].
      - intros t q [[_ ->]|[[_ ->]|[_ ->]]]; [..|left; auto]; destruct HT as [(-> & -> & _)|(-> & -> & _)]; auto.
      - intros t q [[_ ->]|[[_ ->]|[[_ ->]|[_ ->]]]]; auto. }
    assert (se : s <> e). { intros ->. apply He. apply (k_p _ _ _ _ _ _ KC). left. auto. }
    assert (HG : forall q, G q -> q = s \/ q = e) by (intros q [?|?]; auto).
    assert (NE : [A; B] <> []) by discriminate.
    assert (NC : NoDup [A; B]). { repeat constructor; cbn; [|tauto]. intros [E|[]]. apply AB. rewrite E. auto. }
    pose proof (ch_source _ _ _ _ _ _ s e sg ep LR NE Gs' Ge' se HG Hpre Hpost) as So'.
    pose proof (ch_sink _ _ _ _ _ _ s e sg ep LR NE Gs' Ge' se HG Hpre Hpost) as Si'.
    destruct (k_new _ _ _ _ _ _ (l_k _ _ _ _ _ _ LR) ord st2 names _ _ So' Si' (s_parts _ _ _ _ _ _ _ _ _ _ _ _ D)) as (En & W & Gp).
    exists (Pattern R' names), st2. split; [exact En|]. split; [split; auto|]. cbn [pnet].
    assert (CC : connected (pnet a) -> connected (pnet b) -> forall c, In c [A; B] -> connected (c_net c)).
    { rewrite A1, B1. intros Ca Cb c [<-|[<-|[]]]; auto. }
    split; [intros Ca Cb; apply (ch_connected _ _ _ _ _ _ s e sg ep LR Gs' Ge' Hpre Hpost HX); auto|].
    assert (H12 : forall t, t = t1 \/ t = t2 -> has_transition C t) by (intros t Ht; apply (k_t _ _ _ _ _ _ KC); left; auto).
    assert (TT : (fst T = t3 /\ snd T = t4) \/ (fst T = t4 /\ snd T = t3)) by (destruct HT as [(_ & _ & ->)|(_ & _ & ->)]; auto).
    set (pat := fun c => if c_nr c =? 0 then a else b).
    assert (pA' : pat A = a) by (unfold pat; rewrite nA; auto). assert (pB' : pat B = b) by (unfold pat; rewrite nB; auto). clearbody pat.
    assert (Isg : forall c d, In c [A; B] -> In d [A; B] -> sg c = sg d -> c = d).
    { intros c d [<-|[<-|[]]] [<-|[<-|[]]]; rewrite ?sgA, ?sgB; auto; intros; exfalso; auto. }
    assert (Iep : forall c d, In c [A; B] -> In d [A; B] -> ep c = ep d -> c = d).
    { intros c d [<-|[<-|[]]] [<-|[<-|[]]]; rewrite ?epA, ?epB; auto; intros EE; exfalso; destruct TT as [[T1 T2]|[T1 T2]]; congruence. }
    assert (Epa : forall c, In c [A; B] -> pnet (pat c) = c_net c).
    { intros c [<-|[<-|[]]]; rewrite ?pA', ?pB'; auto. }
    split.
    { intros st0 Ca Cb La Lb. apply (choice_clean _ _ _ _ _ _ s e sg ep LR NC NE Gs' Ge' se HG Hpre Hpost HX Isg Iep names pat Epa); auto.
      intros c [<-|[<-|[]]]; rewrite ?pA', ?pB'; auto. }
    intros st0 w Ca Cb. rewrite (ch_words _ _ _ _ _ _ s e sg ep LR NC NE Gs' Ge' se HG Hpre Hpost HX) with (pat := pat); auto.
    - split.
      + intros (c & [<-|[<-|[]]] & H); rewrite ?pA', ?pB' in H; auto.
      + intros [H|H]; [exists A; rewrite pA'|exists B; rewrite pB']; cbn; auto.
    - intros c d Hc Hd EE. assert (has_transition C (sg c)) by (apply H12; destruct Hc as [<-|[<-|[]]]; auto).
      destruct Hd as [<-|[<-|[]]]; rewrite ?epA, ?epB in EE; rewrite EE in *; destruct TT as [[T1 T2]|[T1 T2]]; congruence.
    - intros c [<-|[<-|[]]]; rewrite ?pA', ?pB'; [apply (d_a _ _ _ _ _ _ _ _ _ _ _ _ D)|apply (d_b _ _ _ _ _ _ _ _ _ _ _ _ D)]. }
  assert (Fail : forall e, has_place C e -> e = s \/ old_p a b e).
  { intros e He. apply (k_p _ _ _ _ _ _ KC) in He. destruct He as [He|He]; [left; auto|right]. apply (s_p _ _ _ _ _ _ _ _ _ _ _ _ D).
    apply (k_p _ _ _ _ _ _ (d_k _ _ _ _ _ _ _ _ _ _ _ _ D)). auto. }
  destruct Os as [->| ->].
  - destruct (composed_sinks _ _ _ _ _ _ e1 (fp e2) KC Q2 Q4) as [[-> He]|(R' & t3 & t4 & ER & He & N3 & N4 & n34 & KR)].
    + left. split; [auto|]. exists k, j. cbv zeta. rewrite <- Ek, <- Ej. split; [apply (s_four _ _ _ _ _ _ _ _ _ _ _ _ D)|]. right. eexists. split; [left; reflexivity|]. apply Fail. auto.
    + right. rewrite ER. cbn [bind]. apply (Fin e1 (fp e2) _ t3 t4 (t3, t4) (or_introl (conj eq_refl (conj eq_refl eq_refl))) eq_refl R' ER He N3 N4 n34 KR).
  - destruct (composed_sinks _ _ _ _ _ _ (fp e2) e1 KC Q4 Q2) as [[-> He]|(R' & t3 & t4 & ER & He & N3 & N4 & n34 & KR)].
    + left. split; [auto|]. exists k, j. cbv zeta. rewrite <- Ek, <- Ej. split; [apply (s_four _ _ _ _ _ _ _ _ _ _ _ _ D)|]. right. eexists. split; [right; reflexivity|]. apply Fail. auto.
    + right. rewrite ER. cbn [bind]. apply (Fin (fp e2) e1 _ t3 t4 (t4, t3) (or_intror (conj eq_refl (conj eq_refl eq_refl))) eq_refl R' ER He N3 N4 n34 KR).
Qed.
