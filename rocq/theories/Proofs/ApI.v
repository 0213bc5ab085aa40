(** Activity patterns, part 9: parallel nets, repetitions and interleavings *)
From Coq Require Import String ZArith Permutation.
From Verif.Model Require Import Base PetriNet ActivityPattern.
From Verif.Spec Require Import PetriSpec ActivityPatternSpec.
From Verif.Lib Require Import ListLib DictLib.
From Verif.Proofs Require Import PetriA PetriC PetriD ApA ApB ApC ApD ApE ApF ApG ApS ApH.
Open Scope string_scope.
Open Scope list_scope.
Open Scope nat_scope.

Lemma parallel_case ord st a b s1 e1 s2 e2 : any_order ord -> good a -> good b ->
  source (pnet a) s1 -> sink (pnet a) e1 -> source (pnet b) s2 -> sink (pnet b) e2 ->
  (parallel ord st a b = Err ValueError /\ exists k j, let s := (s1 ++ "," ++ quoted s2 k)%string in let e := (e1 ++ "," ++ quoted e2 j)%string in
    old_p a b s \/ old_t a b s1 \/ e = s \/ old_p a b e \/ e = s1 \/ old_t a b e) \/
  exists p st', parallel ord st a b = Ok (p, st') /\ works p /\ (connected (pnet a) -> connected (pnet b) -> connected (pnet p)) /\
    (forall st, connected (pnet a) -> connected (pnet b) -> ends_clean st a -> ends_clean st b -> ends_clean st p) /\
    (forall st w, speaks st p w <-> exists u v, shuffle u v w /\ speaks st a u /\ speaks st b v).
Proof.
  intros HO Ga Gb S1 E1 S2 E2. destruct (prepared ord st a b s1 e1 s2 e2 HO Ga Gb S1 E1 S2 E2) as (fp & ft & names & N & st' & A & B & E & D).
  unfold parallel. rewrite E. cbn [bind]. clear E.
  destruct (s_Aeq _ _ _ _ _ _ _ _ _ _ _ _ D) as (A1 & A2 & A3 & A4 & A5). destruct (s_Beq _ _ _ _ _ _ _ _ _ _ _ _ D) as (B1 & B2 & B3 & B4 & B5).
  pose proof (s_AB _ _ _ _ _ _ _ _ _ _ _ _ D) as AB.
  destruct (s_q2 _ _ _ _ _ _ _ _ _ _ _ _ D) as [k Ek]. destruct (s_q3 _ _ _ _ _ _ _ _ _ _ _ _ D) as [j Ej].
  set (s := (s1 ++ "," ++ fp s2)%string). set (e := (e1 ++ "," ++ fp e2)%string).
  assert (Fp : forall R X G pre post x, composed R [A; B] X G pre post -> has_place R x -> G x \/ old_p a b x).
  { intros R X G pre post x KR Hx. apply (k_p _ _ _ _ _ _ KR) in Hx. destruct Hx as [Hx|Hx]; [auto|right].
    apply (s_p _ _ _ _ _ _ _ _ _ _ _ _ D). apply (k_p _ _ _ _ _ _ (d_k _ _ _ _ _ _ _ _ _ _ _ _ D)). auto. }
  assert (Ft : forall R X G pre post x, composed R [A; B] X G pre post -> has_transition R x -> X x \/ old_t a b x).
  { intros R X G pre post x KR Hx. apply (k_t _ _ _ _ _ _ KR) in Hx. destruct Hx as [Hx|Hx]; [auto|right].
    apply (s_t _ _ _ _ _ _ _ _ _ _ _ _ D). apply (k_t _ _ _ _ _ _ (d_k _ _ _ _ _ _ _ _ _ _ _ _ D)). auto. }
  destruct (composed_place _ _ _ _ _ _ s (d_k _ _ _ _ _ _ _ _ _ _ _ _ D)) as [[Hc ->]|(Hs & R1 & -> & K1)].
  { left. split; [auto|]. exists k, j. cbv zeta. rewrite <- Ek, <- Ej. destruct (Fp _ _ _ _ _ _ (d_k _ _ _ _ _ _ _ _ _ _ _ _ D) Hc) as [[]|?]. auto. }
  cbn [bind]. destruct (composed_transition _ _ _ _ _ _ s1 K1) as [[Hc ->]|(Ht1 & R2 & -> & K2)].
  { left. split; [auto|]. exists k, j. cbv zeta. rewrite <- Ek, <- Ej. destruct (Ft _ _ _ _ _ _ K1 Hc) as [[]|?]. auto. }
  cbn [bind]. destruct (s_has _ _ _ _ _ _ _ _ _ _ _ _ D _ _ _ _ _ K2) as (P1 & P2 & P3 & P4).
  destruct (composed_connection _ _ _ _ _ _ s s1 s1 K2) as (R3 & -> & K3); auto; [apply (k_p _ _ _ _ _ _ K2); auto|]. cbn [bind].
  destruct (s_has _ _ _ _ _ _ _ _ _ _ _ _ D _ _ _ _ _ K3) as (P1' & P2' & P3' & P4').
  destruct (composed_connection _ _ _ _ _ _ s s1 (fp s2) K3) as (R4 & -> & K4); auto; [apply (k_p _ _ _ _ _ _ K3); auto|]. cbn [bind].
  destruct (composed_place _ _ _ _ _ _ e K4) as [[Hc ->]|(He & R5 & -> & K5)].
  { left. split; [auto|]. exists k, j. cbv zeta. rewrite <- Ek, <- Ej. destruct (Fp _ _ _ _ _ _ K4 Hc) as [[?|[]]|?]; tauto. }
  cbn [bind]. destruct (composed_transition _ _ _ _ _ _ e K5) as [[Hc ->]|(Ht2 & R6 & -> & K6)].
  { left. split; [auto|]. exists k, j. cbv zeta. rewrite <- Ek, <- Ej. destruct (Ft _ _ _ _ _ _ K5 Hc) as [[?|[]]|?]; tauto. }
  cbn [bind]. right. destruct (s_has _ _ _ _ _ _ _ _ _ _ _ _ D _ _ _ _ _ K6) as (P1'' & P2'' & P3'' & P4'').
  destruct (composed_connection _ _ _ _ _ _ e1 e e K6) as (R7 & -> & K7); auto; [apply (k_p _ _ _ _ _ _ K6); auto|]. cbn [bind].
  destruct (s_has _ _ _ _ _ _ _ _ _ _ _ _ D _ _ _ _ _ K7) as (P5 & P6 & P7 & P8).
  destruct (composed_connection _ _ _ _ _ _ (fp e2) e e K7) as (R8 & -> & K8); auto; [apply (k_p _ _ _ _ _ _ K7); auto|]. cbn [bind].
  assert (se : s <> e). { intros Es. apply He. rewrite <- Es. apply (k_p _ _ _ _ _ _ K4). auto. }
  assert (te : s1 <> e). { intros Es. apply Ht2. rewrite <- Es. apply (k_t _ _ _ _ _ _ K5). auto. }
  set (X := fun u => u = s1 \/ u = e). set (G := fun q => q = s \/ q = e).
  set (pre := fun u q => (u = s1 /\ q = s) \/ (u = e /\ (q = e1 \/ q = fp e2))).
  set (post := fun u q => (u = s1 /\ (q = s1 \/ q = fp s2)) \/ (u = e /\ q = e)).
  assert (KR : composed R8 [A; B] X G pre post).
  { eapply composed_iff; [exact K8|..]; unfold X, G, pre, post, nothing, nothing2; intros; cbv beta; clear; tauto. }
  assert (L : linked R8 [A; B] X G pre post).
  { apply (s_link _ _ _ _ _ _ _ _ _ _ _ _ D); [auto|..]; unfold pre, post, G; intros; tauto. }
  assert (HG : forall q, G q -> q = s \/ q = e) by (intros q; unfold G; auto).
  assert (Gs : G s) by (left; auto). assert (Ge : G e) by (right; auto).
  assert (HX : forall t, X t <-> t = s1 \/ t = e) by (intros; unfold X; tauto).
  assert (Hpre : forall t q, pre t q <-> (t = s1 /\ q = s) \/ (t = e /\ (q = c_p A (c_o A) \/ q = c_p B (c_o B)))) by (intros; unfold pre; rewrite A3, A4, B3, B4; tauto).
  assert (Hpost : forall t q, post t q <-> (t = s1 /\ (q = c_p A (c_i A) \/ q = c_p B (c_i B))) \/ (t = e /\ q = e)) by (intros; unfold post; rewrite A2, A4, B2, B4; tauto).
  pose proof (pa_source _ _ _ _ _ _ _ s e s1 e L Gs se HG Hpre Hpost) as So. pose proof (pa_sink _ _ _ _ _ _ _ s e s1 e L Ge se HG Hpre Hpost) as Si.
  destruct (k_new _ _ _ _ _ _ KR ord st' names _ _ So Si (s_parts _ _ _ _ _ _ _ _ _ _ _ _ D)) as (En & W & Gp).
  exists (Pattern R8 names), st'. split; [exact En|]. split; [split; auto|]. cbn [pnet]. split; [|split].
  - rewrite A1, B1. apply (pa_connected _ _ _ _ _ _ _ s e s1 e L HX Hpre Hpost).
  - intros st0 Ca Cb. rewrite A1 in Ca. rewrite B1 in Cb. apply (par_clean _ _ _ _ _ _ _ s e s1 e L AB Gs Ge se HG HX Hpre Hpost names a b A1 B1 st0 Ca Cb).
  - intros st0 w. apply (pa_words _ _ _ _ _ _ _ s e s1 e L AB Gs Ge se HG te HX Hpre Hpost names a b); auto; apply D.
Qed.

(** one net *)
Lemma single n v i o : wf n -> composed (Net (places n) (transitions n) v) [Comp 0 n (fun x => x) (fun x => x) i o] nothing nothing nothing2 nothing2.
Proof.
  intros W. set (A := Comp 0 n (fun x => x) (fun x => x) i o).
  assert (E : Net (places n) (transitions n) v = union [A] v).
  { unfold union. cbn [flat_map]. unfold comp_places, comp_transitions, A. cbn [c_net c_p c_t]. rewrite map_id_renamed_p, map_id_renamed_t, !app_nil_r. auto. }
  rewrite E. apply union_ok.
  - intros c [<-|[]]; auto.
  - rewrite <- E. apply W.
  - rewrite <- E. apply W.
Qed.

Lemma repetition_case ord st a s e : any_order ord -> good a -> source (pnet a) s -> sink (pnet a) e ->
  exists p st', unbounded_repetition ord st a = Ok (p, st') /\ works p /\ (connected (pnet a) -> connected (pnet p)) /\
    (forall st, connected (pnet a) -> ends_clean st a -> ends_clean st p) /\
    (forall st w, repeated (speaks st a) w -> speaks st p w) /\
    (forall st w, connected (pnet a) -> ends_clean st a -> speaks st p w -> repeated (speaks st a) w).
Proof.
  intros HO Ga S E. unfold unbounded_repetition.
  destruct (copy st (pnet a)) as [[n st1]|] eqn:C1; [|rewrite copy_ok in C1 by apply Ga; discriminate].
  destruct (wf_copy _ _ _ _ (g_wf _ Ga) C1) as (W1 & Pl1 & Tr1). cbn [bind].
  destruct (get_source_sink_places n) as [so si] eqn:Q. apply source_sink_ok in Q; [|apply (w_trans _ W1)]. destruct Q as (D1 & D2 & D3 & D4).
  assert (SS : forall p, before_some n p <-> before_some (pnet a) p) by (intros; unfold before_some, starts; rewrite Tr1; tauto).
  assert (TT : forall p, behind_some n p <-> behind_some (pnet a) p) by (intros; unfold behind_some, ends; rewrite Tr1; tauto).
  rewrite (pop_ok ord s (source (pnet a)) so HO D1) by first [apply (g_src _ Ga)|assumption|intros; rewrite D3, SS, TT; unfold source; tauto].
  cbn [bind].
  rewrite (pop_ok ord e (sink (pnet a)) si HO D2) by first [apply (g_snk _ Ga)|assumption|intros; rewrite D4, SS, TT; unfold sink; tauto].
  cbn [bind].
  set (A := Comp 0 (pnet a) (fun x => x) (fun x => x) s e).
  assert (K0 : composed n [A] nothing nothing nothing2 nothing2).
  { eapply composed_ext; [apply (single (pnet a) []); apply Ga|auto|auto|auto]. }
  assert (Hs : has_place (pnet a) s) by (apply before_place; [apply Ga|apply S]). assert (He : has_place (pnet a) e) by (apply behind_place; [apply Ga|apply E]).
  assert (iA : In A [A]) by (cbn; auto).
  assert (Ps : forall R X G pre post, composed R [A] X G pre post -> has_place R s /\ has_place R e).
  { intros R X G pre post KR. split; apply (k_p _ _ _ _ _ _ KR); right; exists A; [exists s|exists e]; auto. }
  destruct (make_id_unique_ok s (keys (places n))) as (k1 & -> & N1 & _). cbn [bind].
  destruct (composed_place _ _ _ _ _ _ (quoted s k1) K0) as [[Hc _]|(_ & R1 & -> & K1)]; [contradiction|]. cbn [bind].
  destruct (make_id_unique_ok e (keys (places R1))) as (k2 & -> & N2 & _). cbn [bind].
  destruct (composed_place _ _ _ _ _ _ (quoted e k2) K1) as [[Hc _]|(_ & R2 & -> & K2)]; [contradiction|]. cbn [bind].
  destruct (composed_unique _ _ _ _ _ _ s K2) as (t0 & R3 & -> & M0 & E3 & K3). cbn [bind]. rewrite E3. cbn [bind].
  destruct (composed_unique _ _ _ _ _ _ e K3) as (t1 & R4 & -> & M1 & E4 & K4). cbn [bind]. rewrite E4. cbn [bind].
  destruct (composed_unique _ _ _ _ _ _ (s ++ "," ++ e)%string K4) as (t2 & R5 & -> & M2 & E5 & K5). cbn [bind]. rewrite E5. cbn [bind].
  set (s' := quoted s k1) in *. set (e' := quoted e k2) in *.
  destruct (Ps _ _ _ _ _ K5) as [P1 P2].
  destruct (composed_connection _ _ _ _ _ _ s' t0 s K5) as (R6 & -> & K6); auto; [apply (k_p _ _ _ _ _ _ K5); auto|]. cbn [bind].
  destruct (Ps _ _ _ _ _ K6) as [P3 P4].
  destruct (composed_connection _ _ _ _ _ _ e t1 e' K6) as (R7 & -> & K7); auto; [apply (k_p _ _ _ _ _ _ K6); auto|]. cbn [bind].
  destruct (Ps _ _ _ _ _ K7) as [P5 P6].
  destruct (composed_connection _ _ _ _ _ _ e t2 s K7) as (R8 & -> & K8); auto. cbn [bind].
  assert (se : s' <> e') by (intros Es; apply N2; rewrite <- Es; apply (k_p _ _ _ _ _ _ K1); auto).
  assert (n01 : t0 <> t1) by (intros Es; apply M1; rewrite <- Es; apply (k_t _ _ _ _ _ _ K3); auto).
  assert (n02 : t0 <> t2) by (intros Es; apply M2; rewrite <- Es; apply (k_t _ _ _ _ _ _ K4); auto).
  assert (n12 : t1 <> t2) by (intros Es; apply M2; rewrite <- Es; apply (k_t _ _ _ _ _ _ K4); auto).
  set (X := fun u => u = t0 \/ u = t1 \/ u = t2). set (G := fun q => q = s' \/ q = e').
  set (pre := fun u q => (u = t0 /\ q = s') \/ (u = t1 /\ q = e) \/ (u = t2 /\ q = e)).
  set (post := fun u q => (u = t0 /\ q = s) \/ (u = t1 /\ q = e') \/ (u = t2 /\ q = s)).
  assert (KR : composed R8 [A] X G pre post).
  { eapply composed_iff; [exact K8|..]; unfold X, G, pre, post, nothing, nothing2; intros; cbv beta; clear; tauto. }
  assert (L : linked R8 [A] X G pre post).
  { constructor; [auto|..].
    - intros c p [<-|[]]. apply unique_iff; [apply (g_src _ Ga)|auto].
    - intros c p [<-|[]]. apply unique_iff; [apply (g_snk _ Ga)|auto].
    - intros c t p [<-|[]] Hp Ht. destruct Ht as [[_ Es]|[[_ ?]|[_ ?]]]; auto. exfalso. symmetry in Es. revert Es. apply (k_gp _ _ _ _ _ _ KR s' A p); auto. left. auto.
    - intros c t p [<-|[]] Hp Ht. destruct Ht as [[_ ?]|[[_ Es]|[_ ?]]]; auto. exfalso. symmetry in Es. revert Es. apply (k_gp _ _ _ _ _ _ KR e' A p); auto. right. auto. }
  assert (HG : forall q, G q -> q = s' \/ q = e') by (intros q; unfold G; auto).
  assert (Gs : G s') by (left; auto). assert (Ge : G e') by (right; auto).
  assert (HX : forall t, X t <-> t = t0 \/ t = t1 \/ t = t2) by (intros; unfold X; tauto).
  assert (Hpre : forall t q, pre t q <-> (t = t0 /\ q = s') \/ (t = t1 /\ q = c_p A (c_o A)) \/ (t = t2 /\ q = c_p A (c_o A))) by (intros; unfold pre; cbn; tauto).
  assert (Hpost : forall t q, post t q <-> (t = t0 /\ q = c_p A (c_i A)) \/ (t = t1 /\ q = e') \/ (t = t2 /\ q = c_p A (c_i A))) by (intros; unfold post; cbn; tauto).
  pose proof (re_source _ _ _ _ _ _ s' e' t0 t1 t2 L Gs se HG Hpre Hpost) as So. pose proof (re_sink _ _ _ _ _ _ s' e' t0 t1 t2 L Ge se HG Hpre Hpost) as Si.
  assert (Sa : spelled (amap a) A a) by (intros u tr _ _; auto).
  destruct (k_new _ _ _ _ _ _ KR ord st1 (amap a) _ _ So Si) as (En & W & Gp).
  { intros c [<-|[]]. exists a. auto. }
  exists (Pattern R8 (amap a)), st1. split; [exact En|]. split; [split; auto|]. cbn [pnet]. split; [|split; [|split]].
  - apply (re_connected _ _ _ _ _ _ s' e' t0 t1 t2 L HX Hpre Hpost).
  - intros st0 Ca. apply (rep_clean _ _ _ _ _ _ s' e' t0 t1 t2 L Gs Ge se HG n01 n02 n12 HX Hpre Hpost (amap a) a eq_refl Ca).
  - intros st0 w. apply (re_words_in _ _ _ _ _ _ s' e' t0 t1 t2 L Gs Ge se HG n01 n02 n12 HX Hpre Hpost (amap a) a eq_refl Sa).
  - intros st0 w Ca. apply (re_words_out _ _ _ _ _ _ s' e' t0 t1 t2 L Gs Ge se HG n01 n02 n12 HX Hpre Hpost (amap a) a eq_refl Sa Ca).
Qed.

Lemma nodup7 (s e px s1 s2 e1 e2 : string) : s <> px -> e <> s -> e <> px -> s1 <> s -> s1 <> px -> s1 <> e -> s2 <> s -> s2 <> px -> s2 <> e -> s2 <> s1 ->
  e1 <> s -> e1 <> px -> e1 <> e -> e1 <> s1 -> e1 <> s2 -> e2 <> s -> e2 <> px -> e2 <> e -> e2 <> s1 -> e2 <> s2 -> e2 <> e1 -> NoDup [s; e; px; s1; s2; e1; e2].
Proof. intros. repeat (constructor; [cbn [In]; intros HH; decompose [or] HH; congruence|]). constructor. Qed.

Lemma bind_ok {X Y} (x : X) (f : X -> result Y) : bind (Ok x) f = f x.
Proof. auto. Qed.
Lemma bind_err {X Y} e (f : X -> result Y) : bind (Err e) f = Err e.
Proof. auto. Qed.
Lemma interleaving_case ord st a b s1 e1 s2 e2 : any_order ord -> good a -> good b ->
  source (pnet a) s1 -> sink (pnet a) e1 -> source (pnet b) s2 -> sink (pnet b) e2 ->
  (interleaving ord st a b = Err ValueError /\ exists k j, NoDup [s1; e1; quoted s2 k; quoted e2 j] /\
    let s := (s1 ++ "," ++ quoted s2 k)%string in let e := (e1 ++ "," ++ quoted e2 j)%string in
    let ids := [s; e; (s ++ ",px")%string; (s1 ++ "_")%string; (quoted s2 k ++ "_")%string; (e1 ++ "_")%string; (quoted e2 j ++ "_")%string] in
    ~ NoDup ids \/ exists x, In x ids /\ (old_p a b x \/ old_t a b x)) \/
  exists p st', interleaving ord st a b = Ok (p, st') /\ works p /\ (connected (pnet a) -> connected (pnet b) -> connected (pnet p)) /\
    (forall st w, ~ speaks st p w) /\ (forall st w, arrives st p w <-> exists u v, shuffle u v w /\ arrives st a u /\ arrives st b v).
Proof.
  intros HO Ga Gb S1 E1 S2 E2. destruct (prepared ord st a b s1 e1 s2 e2 HO Ga Gb S1 E1 S2 E2) as (fp & ft & names & N & st' & A & B & E & D).
  unfold interleaving. rewrite E. cbn [bind]. clear E.
  destruct (s_Aeq _ _ _ _ _ _ _ _ _ _ _ _ D) as (A1 & A2 & A3 & A4 & A5). destruct (s_Beq _ _ _ _ _ _ _ _ _ _ _ _ D) as (B1 & B2 & B3 & B4 & B5).
  pose proof (s_AB _ _ _ _ _ _ _ _ _ _ _ _ D) as AB.
  destruct (s_q2 _ _ _ _ _ _ _ _ _ _ _ _ D) as [k Ek]. destruct (s_q3 _ _ _ _ _ _ _ _ _ _ _ _ D) as [j Ej].
  match goal with |- (_ /\ ?Q) \/ _ => assert (Bad : forall ids, ids = [(s1 ++ "," ++ fp s2)%string; (e1 ++ "," ++ fp e2)%string; ((s1 ++ "," ++ fp s2) ++ ",px")%string;
    (s1 ++ "_")%string; (fp s2 ++ "_")%string; (e1 ++ "_")%string; (fp e2 ++ "_")%string] -> ~ NoDup ids \/ (exists x, In x ids /\ (old_p a b x \/ old_t a b x)) -> Q);
    [|revert Bad; generalize Q; intros BadQ Bad] end.
  { intros ids -> H. exists k, j. cbv zeta. rewrite <- Ek, <- Ej. split; [apply (s_four _ _ _ _ _ _ _ _ _ _ _ _ D)|exact H]. }
  cbv zeta. set (s := (s1 ++ "," ++ fp s2)%string). set (e := (e1 ++ "," ++ fp e2)%string). set (px := (s ++ ",px")%string).
  set (a1 := (s1 ++ "_")%string). set (a2 := (fp s2 ++ "_")%string). set (b1 := (e1 ++ "_")%string). set (b2 := (fp e2 ++ "_")%string).
  assert (Fp : forall R X G pre post x, composed R [A; B] X G pre post -> has_place R x -> G x \/ old_p a b x).
  { intros R X G pre post x KR Hx. apply (k_p _ _ _ _ _ _ KR) in Hx. destruct Hx as [Hx|Hx]; [auto|right].
    apply (s_p _ _ _ _ _ _ _ _ _ _ _ _ D). apply (k_p _ _ _ _ _ _ (d_k _ _ _ _ _ _ _ _ _ _ _ _ D)). auto. }
  assert (Ft : forall R X G pre post x, composed R [A; B] X G pre post -> has_transition R x -> X x \/ old_t a b x).
  { intros R X G pre post x KR Hx. apply (k_t _ _ _ _ _ _ KR) in Hx. destruct Hx as [Hx|Hx]; [auto|right].
    apply (s_t _ _ _ _ _ _ _ _ _ _ _ _ D). apply (k_t _ _ _ _ _ _ (d_k _ _ _ _ _ _ _ _ _ _ _ _ D)). auto. }
  Ltac pick := first [reflexivity|split; [pick|pick]|left; pick|right; pick].
  Ltac pickall := split; let H := fresh "H" in intros H; decompose [or and False] H; clear H; repeat match goal with E : _ = _ |- _ => rewrite E; clear E end; pick.
  specialize (Bad [s; e; px; a1; a2; b1; b2] eq_refl).
  set (ids := [s; e; px; a1; a2; b1; b2]) in *.
  clearbody px a1 a2 b1 b2. clearbody s e.
  pose proof (d_k _ _ _ _ _ _ _ _ _ _ _ _ D) as K0.
  Ltac same H := repeat match type of H with _ \/ _ => destruct H as [H|H] end;
    [match type of H with
     | ?x = ?y => exfalso; match goal with N : x <> y |- _ => exact (N H) | N : y <> x |- _ => exact (N (eq_sym H)) end
     | nothing _ => destruct H end..].
  Ltac fails Bad F K Hc x := left; split; [reflexivity|]; apply Bad; 
    destruct (F _ _ _ _ _ _ K Hc) as [Hd|Hd];
    [left; let ND := fresh in intros ND; apply distinct7 in ND; repeat match goal with H : _ <> _ /\ _ |- _ => let H1 := fresh in destruct H as [H1 H] end; same Hd
    |right; exists x; split; [match goal with |- In _ ?i => unfold i end; cbn [In]; tauto|tauto]].
  Ltac place K Bad F x K' Hn := let Hc := fresh in let R := fresh "R" in
    destruct (composed_place _ _ _ _ _ _ x K) as [[Hc ->]|(Hn & R & -> & K')]; [rewrite ?bind_err; fails Bad F K Hc x|rewrite bind_ok; cbv beta].
  Ltac trans K Bad F x K' := let Hc := fresh in let Hn := fresh in let R := fresh "R" in
    destruct (composed_transition _ _ _ _ _ _ x K) as [[Hc ->]|(Hn & R & -> & K')]; [rewrite ?bind_err; fails Bad F K Hc x|rewrite bind_ok; cbv beta; clear Hn].
  place K0 Bad Fp s K1 H1. trans K1 Bad Ft s K2. place K2 Bad Fp px K3 H2. place K3 Bad Fp e K4 H3. trans K4 Bad Ft e K5.
  place K5 Bad Fp a1 K6 H4. trans K6 Bad Ft a1 K7. place K7 Bad Fp a2 K8 H5. trans K8 Bad Ft a2 K9.
  place K9 Bad Fp b1 K10 H6. trans K10 Bad Ft b1 K11. place K11 Bad Fp b2 K12 H7. trans K12 Bad Ft b2 K13.
  assert (ND : NoDup ids).
  { pose proof (k_p _ _ _ _ _ _ K2) as Q2. pose proof (k_p _ _ _ _ _ _ K3) as Q3. pose proof (k_p _ _ _ _ _ _ K5) as Q5.
    pose proof (k_p _ _ _ _ _ _ K7) as Q7. pose proof (k_p _ _ _ _ _ _ K9) as Q9. pose proof (k_p _ _ _ _ _ _ K11) as Q11.
    unfold ids. apply nodup7; intros Es.
    all: first [apply H2; rewrite <- Es; apply Q2; tauto|apply H2; rewrite Es; apply Q2; tauto|apply H3; rewrite Es; apply Q3; tauto|apply H4; rewrite Es; apply Q5; tauto
      |apply H5; rewrite Es; apply Q7; tauto|apply H6; rewrite Es; apply Q9; tauto|apply H7; rewrite Es; apply Q11; tauto]. }
  clear H1 H2 H3 H4 H5 H6 H7 Bad Fp Ft.
  clear K0 K1 K2 K3 K4 K5 K6 K7 K8 K9 K10 K11 K12.
  assert (Con : forall R X G pre post x t y, composed R [A; B] X G pre post -> X t -> (G x \/ In x [s1; e1; fp s2; fp e2]) -> (G y \/ In y [s1; e1; fp s2; fp e2]) ->
    exists R', add_connection x t y R = Ok R' /\ composed R' [A; B] X G (fun u q => pre u q \/ (u = t /\ q = x)) (fun u q => post u q \/ (u = t /\ q = y))).
  { intros Z X G pre post x t y KR Hx H1 H2. destruct (s_has _ _ _ _ _ _ _ _ _ _ _ _ D _ _ _ _ _ KR) as (P1 & P2 & P3 & P4).
    apply composed_connection; auto.
    - destruct H1 as [H1|[<-|[<-|[<-|[<-|[]]]]]]; auto. apply (k_p _ _ _ _ _ _ KR); auto.
    - destruct H2 as [H2|[<-|[<-|[<-|[<-|[]]]]]]; auto. apply (k_p _ _ _ _ _ _ KR); auto. }
  Ltac con Con K x t y K' := let R := fresh "R" in
    destruct (Con _ _ _ _ _ x t y K) as (R & -> & K'); [tauto|cbn [In]; tauto|cbn [In]; tauto|rewrite bind_ok; cbv beta; clear K].
  con Con K13 s s a1 J1. con Con J1 s s a2 J2. con Con J2 s s px J3. con Con J3 a1 a1 s1 J4. con Con J4 a1 a1 px J5. con Con J5 a2 a2 (fp s2) J6. con Con J6 a2 a2 px J7.
  con Con J7 e1 b1 b1 J8. con Con J8 e1 b1 px J9. con Con J9 (fp e2) b2 b2 J10. con Con J10 (fp e2) b2 px J11. con Con J11 b1 e e J12. con Con J12 b2 e e J13.
  con Con J13 px e e J14. con Con J14 px a1 s1 J15. con Con J15 px a2 (fp s2) J16.
  match type of J16 with composed ?Z _ _ _ _ _ => set (R' := Z) in * end.
  set (X := fun t => In t [s; e; a1; a2; b1; b2]). set (G := fun q => In q ids).
  set (pre := fun t q => (t = s /\ q = s) \/ (t = a1 /\ (q = a1 \/ q = px)) \/ (t = a2 /\ (q = a2 \/ q = px)) \/
    (t = b1 /\ q = e1) \/ (t = b2 /\ q = fp e2) \/ (t = e /\ (q = b1 \/ q = b2 \/ q = px))).
  set (post := fun t q => (t = s /\ (q = a1 \/ q = a2 \/ q = px)) \/ (t = a1 /\ (q = s1 \/ q = px)) \/
    (t = a2 /\ (q = fp s2 \/ q = px)) \/ (t = b1 /\ (q = b1 \/ q = px)) \/ (t = b2 /\ (q = b2 \/ q = px)) \/ (t = e /\ q = e)).
  assert (KR : composed R' [A; B] X G pre post).
  { eapply composed_iff; [exact J16|..]; unfold X, G, ids, pre, post, nothing, nothing2; cbn [In]; cbv beta; clear; intros; pickall. }
  assert (L : linked R' [A; B] X G pre post).
  { apply (s_link _ _ _ _ _ _ _ _ _ _ _ _ D); [auto|..]; unfold pre, post, G, ids; cbn [In]; clear; intros t q Ht; decompose [or and] Ht; subst q; tauto. }
  assert (HG : forall q, G q <-> In q [s; e; px; a1; a2; b1; b2]) by (intros; unfold G, ids; tauto).
  assert (HX : forall t, X t <-> In t [s; e; a1; a2; b1; b2]) by (intros; unfold X; tauto).
  assert (Hpre : forall t q, pre t q <-> (t = s /\ q = s) \/ (t = a1 /\ (q = a1 \/ q = px)) \/ (t = a2 /\ (q = a2 \/ q = px)) \/
    (t = b1 /\ q = c_p A (c_o A)) \/ (t = b2 /\ q = c_p B (c_o B)) \/ (t = e /\ (q = b1 \/ q = b2 \/ q = px))).
  { intros. unfold pre. rewrite A3, A4, B3, B4. reflexivity. }
  assert (Hpost : forall t q, post t q <-> (t = s /\ (q = a1 \/ q = a2 \/ q = px)) \/ (t = a1 /\ (q = c_p A (c_i A) \/ q = px)) \/
    (t = a2 /\ (q = c_p B (c_i B) \/ q = px)) \/ (t = b1 /\ (q = b1 \/ q = px)) \/ (t = b2 /\ (q = b2 \/ q = px)) \/ (t = e /\ q = e)).
  { intros. unfold post. rewrite A2, A4, B2, B4. reflexivity. }
  pose proof (it_source _ _ _ _ _ _ _ s e px a1 a2 b1 b2 L ND HG Hpre Hpost) as So. pose proof (it_sink _ _ _ _ _ _ _ s e px a1 a2 b1 b2 L ND HG Hpre Hpost) as Si.
  right. destruct (k_new _ _ _ _ _ _ KR ord st' names _ _ So Si (s_parts _ _ _ _ _ _ _ _ _ _ _ _ D)) as (En & W & Gp).
  exists (Pattern R' names), st'. split; [exact En|]. split; [split; auto|]. cbn [pnet]. split; [|split].
  - rewrite A1, B1. apply (it_connected _ _ _ _ _ _ _ s e px a1 a2 b1 b2 L ND HG HX Hpre Hpost).
  - intros st0 w. apply (it_silent _ _ _ _ _ _ _ s e px a1 a2 b1 b2 L AB ND HG HX Hpre Hpost names a b); auto; apply D.
  - intros st0 w. split.
    + apply (it_only _ _ _ _ _ _ _ s e px a1 a2 b1 b2 L AB ND HG HX Hpre Hpost names a b); auto; apply D.
    + intros (u & v & S & Hu & Hv). apply (it_any _ _ _ _ _ _ _ s e px a1 a2 b1 b2 L AB ND HG HX Hpre Hpost names a b) with (u := u) (v := v); auto; apply D.
Qed.
