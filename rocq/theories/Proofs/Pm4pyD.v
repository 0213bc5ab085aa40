(** Nets handed to pm4py: what the conversion builds *)
From Coq Require Import String Permutation ZArith.
From Verif.Model Require Import Base PetriNet Pm4py.
From Verif.Spec Require Import PetriSpec Pm4pySpec.
From Verif.Lib Require Import ListLib DictLib.
From Verif.Proofs Require Import DfgA PetriA PetriC Pm4pyA Pm4pyB.
Open Scope string_scope.
Open Scope list_scope.
Open Scope nat_scope.

Lemma pname_inj p q : pname p = pname q -> p = q.
Proof. unfold pname. cbn. congruence. Qed.
Lemma tname_inj p q : tname p = tname q -> p = q.
Proof. unfold tname. cbn. congruence. Qed.
Lemma nth_snoc {X} (l : list X) x i y : nth_error (l ++ [x]) i = Some y <-> nth_error l i = Some y \/ (i = length l /\ y = x).
Proof.
  destruct (Nat.lt_ge_cases i (length l)) as [Hl|Hl].
  - rewrite nth_error_app1 by auto. split; [auto|]. intros [|[? _]]; [auto|lia].
  - rewrite nth_error_app2 by auto. rewrite (proj2 (nth_error_None l i)) by auto.
    destruct (i - length l) as [|j] eqn:Ej; cbn.
    + assert (i = length l) by lia. split; [intros E; injection E as ->; auto|]. intros [|[_ ->]]; [discriminate|auto].
    + assert (i <> length l) by lia. split; [destruct j; discriminate|]. intros [|[? _]]; [discriminate|contradiction].
Qed.

(** the places and the dictionary of their objects *)
Definition objects (l : list string) (d : dict string nat) : Prop := forall p o, dict_get p d = Some o <-> nth_error l o = Some p.
Lemma add_places_ok n : NoDup (keys (places n)) -> exists ps d, add_places_to_pm4py_net n = (ps, d) /\
  objects (keys (places n)) d /\ map fst ps = seq 0 (length (keys (places n))) /\ map snd ps = map pname (keys (places n)) /\
  forall o x, In (o, x) ps <-> exists p, x = pname p /\ nth_error (keys (places n)) o = Some p.
Proof.
  unfold add_places_to_pm4py_net. match goal with |- context [fold_left ?f _ _] => set (F := f) end. generalize (keys (places n)) as l.
  induction l as [|p l IH] using rev_ind; intros N.
  - exists [], []. split; [auto|]. split; [intros p [|o]; cbn; split; discriminate|]. split; [auto|]. split; [auto|].
    intros o x. split; [intros []|]. intros (p & _ & E). destruct o; discriminate.
  - destruct IH as (ps & d & E & O & P1 & P2 & P3); [eapply NoDup_app_l; eauto|]. rewrite fold_left_app, E. cbn [fold_left].
    assert (L : length ps = length l) by (rewrite <- (map_length snd), P2, map_length; auto).
    unfold F. eexists _, _. split; [reflexivity|]. rewrite L, app_length. cbn [length]. rewrite Nat.add_1_r, seq_S. cbn [plus].
    split; [|split; [|split]].
    + intros q o. rewrite dict_get_set, nth_snoc. destruct (eqb_ok q p) as [->|Hne].
      * split; [intros Eo; injection Eo as <-; auto|]. intros [Eo|[-> _]]; [|auto]. apply nth_error_In in Eo.
        exfalso. apply NoDup_mid_l in N. contradiction.
      * rewrite (O q o). split; [auto|]. intros [|[_ ?]]; [auto|contradiction].
    + rewrite map_app, P1. auto.
    + rewrite !map_app, P2. auto.
    + intros o x. rewrite in_app_iff, P3. cbn [In]. split.
      * intros [(q & -> & Eq)|[Ex|[]]].
        -- exists q. rewrite nth_snoc. auto.
        -- injection Ex as <- <-. exists p. rewrite nth_snoc. auto.
      * intros (q & -> & Eq). rewrite nth_snoc in Eq. destruct Eq as [Eq|[-> ->]]; [left; eauto|]. right. left. auto.
Qed.

Lemma foldM_app {A B} (f : B -> A -> result B) l m b : foldM f (l ++ m) b = do b' <- foldM f l b ; foldM f m b'.
Proof. revert b. induction l as [|a l IH]; intros b; cbn [app foldM bind]; [auto|]. destruct (f b a); cbn [bind]; auto. Qed.
Lemma foldM_map {A B C} (f : B -> C -> result B) (g : A -> C) l b : foldM f (map g l) b = foldM (fun b a => f b (g a)) l b.
Proof. revert b. induction l as [|a l IH]; intros b; cbn [map foldM]; [auto|]. destruct (f b (g a)); cbn [bind]; auto. Qed.
Lemma foldM_ext {A B} (f g : B -> A -> result B) l : (forall b a, In a l -> f b a = g b a) -> forall b, foldM f l b = foldM g l b.
Proof.
  induction l as [|a l IH]; intros E b; cbn [foldM]; [auto|]. rewrite E by (cbn; auto). destruct (g b a); cbn [bind]; auto.
  apply IH. intros; apply E; cbn; auto.
Qed.
Lemma foldM_prod {A A' B} (f : A -> A' -> B -> result B) S E b :
  foldM (fun b s => foldM (fun b e => f s e b) E b) S b = foldM (fun b x => f (fst x) (snd x) b) (list_prod S E) b.
Proof.
  revert b. induction S as [|s S IH]; intros b; cbn [foldM list_prod]; [auto|]. rewrite foldM_app, foldM_map. cbn [fst snd].
  destruct (foldM (fun b e => f s e b) E b); cbn [bind]; auto.
Qed.

Section Group.
  Variables (d : dict string nat) (k : nat) (id : string) (S E : list string).
  Hypothesis DI : forall p q o, dict_get p d = Some o -> dict_get q d = Some o -> p = q.
  Hypothesis DS : forall p, In p S -> exists o, dict_get p d = Some o.
  Hypothesis DE : forall p, In p E -> exists o, dict_get p d = Some o.

  (** the arc that stands for an entry of the set of added arcs *)
  Definition key_arc (key : string * string) (a : pm_arc) : Prop :=
    (exists s o, key = (s, id) /\ a = ArcIn o k 1 /\ dict_get s d = Some o /\ In s S /\ E <> []) \/
    (exists e o, key = (id, e) /\ a = ArcOut k o 1 /\ dict_get e d = Some o /\ In e E /\ S <> []).
  Definition loop_inv (L : list (string * string)) (added : list (string * string)) (new : list pm_arc) : Prop :=
    NoDup added /\ (forall key, In key added <-> exists s e, In (s, e) L /\ (key = (s, id) \/ key = (id, e))) /\ Forall2 key_arc added new.
  Lemma connect_ok s e added arcs0 new L : In s S -> In e E -> loop_inv L added new -> exists added' new',
    connect d k id s e (added, arcs0 ++ new) = Ok (added', arcs0 ++ new') /\ loop_inv (L ++ [(s, e)]) added' new'.
  Proof.
    intros Hs He (N & K & F). destruct (DS s Hs) as [os Os]. destruct (DE e He) as [oe Oe].
    assert (Hne : E <> []) by (intros ->; destruct He). assert (Hns : S <> []) by (intros ->; destruct Hs).
    assert (Fs : key_arc (s, id) (ArcIn os k 1)) by (left; exists s, os; auto).
    assert (Fe : key_arc (id, e) (ArcOut k oe 1)) by (right; exists e, oe; auto).
    unfold connect. rewrite Os, Oe. cbn [of_option bind].
    assert (S1 : exists added1 new1, (if mem (s, id) added then Ok (added, arcs0 ++ new)
        else Ok (set_add (s, id) added, (arcs0 ++ new) ++ [ArcIn os k 1])) = Ok (added1, arcs0 ++ new1) /\
      NoDup added1 /\ (forall key, In key added1 <-> In key added \/ key = (s, id)) /\ Forall2 key_arc added1 new1).
    { destruct (mem (s, id) added) eqn:M.
      - exists added, new. apply mem_In in M. split; [auto|]. split; [auto|]. split; [|auto]. intros key. split; [auto|]. intros [| ->]; auto.
      - apply mem_not_In in M. exists (added ++ [(s, id)]), (new ++ [ArcIn os k 1]). rewrite set_add_fresh, app_assoc by auto. split; [auto|].
        split; [apply NoDup_snoc; auto|]. split; [|apply Forall2_app; auto]. intros key. rewrite in_app_iff. cbn [In]. intuition. }
    destruct S1 as (added1 & new1 & -> & N1 & K1 & F1). cbn [bind].
    assert (Kl : forall added2, (forall key, In key added2 <-> In key added1 \/ key = (id, e)) ->
      forall key, In key added2 <-> exists s0 e0, In (s0, e0) (L ++ [(s, e)]) /\ (key = (s0, id) \/ key = (id, e0))).
    { intros added2 K2 key. rewrite K2, K1, K. split.
      - intros [[(s0 & e0 & Hin & D)| ->]| ->].
        + exists s0, e0. rewrite in_app_iff. auto.
        + exists s, e. rewrite in_app_iff. cbn. auto.
        + exists s, e. rewrite in_app_iff. cbn. auto.
      - intros (s0 & e0 & Hin & D). apply in_app_or in Hin. destruct Hin as [Hin|[Hin|[]]]; [left; left; eauto|].
        injection Hin as <- <-. destruct D as [->| ->]; auto. }
    destruct (mem (id, e) added1) eqn:M.
    - exists added1, new1. apply mem_In in M. split; [auto|]. split; [auto|]. split; [|auto]. apply Kl. intros key. split; [auto|]. intros [| ->]; auto.
    - apply mem_not_In in M. exists (added1 ++ [(id, e)]), (new1 ++ [ArcOut k oe 1]). rewrite set_add_fresh, app_assoc by auto. split; [auto|].
      split; [apply NoDup_snoc; auto|]. split; [|apply Forall2_app; auto]. apply Kl. intros key. rewrite in_app_iff. cbn [In]. intuition.
  Qed.
  Lemma connects_ok arcs0 L : (forall s e, In (s, e) L -> In s S /\ In e E) -> exists added new,
    foldM (fun st x => connect d k id (fst x) (snd x) st) L ([], arcs0) = Ok (added, arcs0 ++ new) /\ loop_inv L added new.
  Proof.
    induction L as [|[s e] L IH] using rev_ind; intros HL.
    - exists [], []. rewrite app_nil_r. split; [auto|]. split; [constructor|]. split; [|constructor]. intros key. split; [intros []|].
      intros (? & ? & [] & _).
    - destruct IH as (added & new & E1 & I1); [intros; apply HL; apply in_or_app; auto|]. rewrite foldM_app, E1. cbn [bind foldM fst snd].
      destruct (HL s e) as [Hs He]; [apply in_or_app; cbn; auto|]. destruct (connect_ok s e added arcs0 new L Hs He I1) as (added' & new' & -> & I').
      cbn [bind]. eauto.
  Qed.

  (** the arcs of one transition *)
  Record group (g : list pm_arc) : Prop := {
    g_nodup : NoDup g;
    g_sound : forall a, In a g ->
      (exists s o, a = ArcIn o k 1 /\ dict_get s d = Some o /\ In s S /\ E <> []) \/
      (exists e o, a = ArcOut k o 1 /\ dict_get e d = Some o /\ In e E /\ S <> []);
    g_in : forall s o, In s S -> E <> [] -> dict_get s d = Some o -> ~ (s = id /\ In id E) -> In (ArcIn o k 1) g;
    g_out : forall e o, In e E -> S <> [] -> dict_get e d = Some o -> ~ (e = id /\ In id S) -> In (ArcOut k o 1) g;
    g_loop : forall o, In id S -> In id E -> dict_get id d = Some o ->
      (In (ArcIn o k 1) g <-> ~ In (ArcOut k o 1) g) }.
  Lemma Forall2_In_l {X Y} (R : X -> Y -> Prop) l m x : Forall2 R l m -> In x l -> exists y, In y m /\ R x y.
  Proof. induction 1 as [|a b l m]; cbn; [tauto|]. intros [->|Hin]; [eauto|]. destruct IHForall2 as (y & ? & ?); eauto. Qed.
  Lemma Forall2_In_r {X Y} (R : X -> Y -> Prop) l m y : Forall2 R l m -> In y m -> exists x, In x l /\ R x y.
  Proof. induction 1 as [|a b l m]; cbn; [tauto|]. intros [->|Hin]; [eauto|]. destruct IHForall2 as (x & ? & ?); eauto. Qed.
  Lemma key_unique key key' a : key_arc key a -> key_arc key' a -> key = key'.
  Proof.
    intros [(s & o & -> & -> & G & _)|(s & o & -> & -> & G & _)] [(s' & o' & -> & Ea & G' & _)|(s' & o' & -> & Ea & G' & _)]; try discriminate;
    injection Ea as <-; rewrite (DI _ _ _ G G'); auto.
  Qed.
  Lemma NoDup_new added new : NoDup added -> Forall2 key_arc added new -> NoDup new.
  Proof.
    intros N F. induction F as [|x a added new R F IH]; [constructor|]. inversion N; subst. constructor; auto. intros Hin.
    destruct (Forall2_In_r _ _ _ _ F Hin) as (y & Hy & R'). rewrite (key_unique _ _ _ R R') in *. contradiction.
  Qed.
  Lemma one_arc added new key a b : NoDup added -> Forall2 key_arc added new -> In a new -> In b new -> key_arc key a -> key_arc key b ->
    a = b.
  Proof.
    intros N F. induction F as [|x c added new R F IH]; [intros []|]. inversion N as [|? ? N1 N2]; subst. intros [->|Ha] [->|Hb] Ka Kb; auto.
    - destruct (Forall2_In_r _ _ _ _ F Hb) as (y & Hy & R'). exfalso. apply N1.
      rewrite (key_unique _ _ _ R Ka), <- (key_unique _ _ _ R' Kb). auto.
    - destruct (Forall2_In_r _ _ _ _ F Ha) as (y & Hy & R'). exfalso. apply N1.
      rewrite (key_unique _ _ _ R Kb), <- (key_unique _ _ _ R' Ka). auto.
  Qed.
  Lemma group_ok arcs0 : exists added new,
    foldM (fun st s => foldM (fun st e => connect d k id s e st) E st) S ([], arcs0) = Ok (added, arcs0 ++ new) /\ group new.
  Proof.
    rewrite (foldM_prod (fun s e st => connect d k id s e st)).
    destruct (connects_ok arcs0 (list_prod S E)) as (added & new & E1 & N & K & F); [intros s e; apply in_prod_iff|].
    exists added, new. split; [exact E1|].
    assert (Ks : forall s, In s S -> E <> [] -> In (s, id) added).
    { intros s Hs He. destruct E as [|e E']; [contradiction|]. apply K. exists s, e. split; [apply in_prod; cbn; auto|auto]. }
    assert (Ke : forall e, In e E -> S <> [] -> In (id, e) added).
    { intros e He Hs. destruct S as [|s S']; [contradiction|]. apply K. exists s, e. split; [apply in_prod; cbn; auto|auto]. }
    constructor.
    - eapply NoDup_new; eauto.
    - intros a Ha. destruct (Forall2_In_r _ _ _ _ F Ha) as (key & _ & [(s & o & -> & R)|(e & o & -> & R)]); [left|right]; eauto.
    - intros s o Hs He G Hn. destruct (Forall2_In_l _ _ _ _ F (Ks s Hs He)) as (a & Ha & [(s' & o' & Ek & -> & G' & _)|(e & o' & Ek & -> & G' & Hin & _)]).
      + injection Ek as <-. rewrite G in G'. injection G' as <-. auto.
      + injection Ek as -> <-. exfalso. apply Hn. auto.
    - intros e o He Hs G Hn. destruct (Forall2_In_l _ _ _ _ F (Ke e He Hs)) as (a & Ha & [(s' & o' & Ek & -> & G' & Hin & _)|(e' & o' & Ek & -> & G' & _)]).
      + injection Ek as <- ->. exfalso. apply Hn. auto.
      + injection Ek as <-. rewrite G in G'. injection G' as <-. auto.
    - intros o Hs He G. assert (Hne : E <> []) by (intros X; rewrite X in He; destruct He). assert (Hns : S <> []) by (intros X; rewrite X in Hs; destruct Hs).
      assert (R1 : key_arc (id, id) (ArcIn o k 1)) by (left; exists id, o; auto).
      assert (R2 : key_arc (id, id) (ArcOut k o 1)) by (right; exists id, o; auto).
      split.
      + intros H1 H2. discriminate (one_arc _ _ _ _ _ N F H1 H2 R1 R2).
      + intros Hno. destruct (Forall2_In_l _ _ _ _ F (Ks id Hs Hne)) as (a & Ha & [(s' & o' & Ek & -> & G' & _)|(e & o' & Ek & -> & G' & Hin & _)]).
        * injection Ek as <-. rewrite G in G'. injection G' as <-. auto.
        * injection Ek as <-. rewrite G in G'. injection G' as <-. contradiction.
  Qed.
End Group.
Lemma group_perm d k id S E S' E' g : Permutation S S' -> Permutation E E' -> group d k id S E g -> group d k id S' E' g.
Proof.
  intros PS PE [G1 G2 G3 G4 G5].
  assert (IS : forall x, In x S <-> In x S') by (intros x; split; apply Permutation_in; auto; apply Permutation_sym; auto).
  assert (IE : forall x, In x E <-> In x E') by (intros x; split; apply Permutation_in; auto; apply Permutation_sym; auto).
  assert (ES : S <> [] <-> S' <> []).
  { split; intros Hn ->; apply Hn; [apply Permutation_nil, Permutation_sym|apply Permutation_nil]; auto. }
  assert (EE : E <> [] <-> E' <> []).
  { split; intros Hn ->; apply Hn; [apply Permutation_nil, Permutation_sym|apply Permutation_nil]; auto. }
  constructor.
  - auto.
  - intros a Ha. destruct (G2 a Ha) as [(s & o & -> & G & Hs & He)|(e & o & -> & G & He & Hs)].
    + left. exists s, o. rewrite <- IS, <- EE. auto.
    + right. exists e, o. rewrite <- IE, <- ES. auto.
  - intros s o. rewrite <- IS, <- EE, <- IE. apply G3.
  - intros s o. rewrite <- IS, <- ES, <- IE. apply G4.
  - intros o. rewrite <- IS, <- IE. apply G5.
Qed.

(** the arcs of all transitions *)
Definition arc_transition (a : pm_arc) : nat := match a with ArcIn _ k _ | ArcOut k _ _ => k end.
Fixpoint groups (d : dict string nat) (k : nat) (ts : dict string transition) (gs : list (list pm_arc)) : Prop :=
  match ts, gs with
  | [], [] => True
  | (id, t) :: ts', g :: gs' => group d k id (t_start t) (t_end t) g /\ groups d (S k) ts' gs'
  | _, _ => False
  end.
Lemma group_number d k id S E g a : group d k id S E g -> In a g -> arc_transition a = k.
Proof. intros G Ha. destruct (g_sound _ _ _ _ _ _ G a Ha) as [(s & o & -> & _)|(e & o & -> & _)]; auto. Qed.
Lemma groups_number d ts : forall k gs a, groups d k ts gs -> In a (concat gs) -> exists j id t,
  nth_error ts j = Some (id, t) /\ arc_transition a = k + j.
Proof.
  induction ts as [|[id t] ts IH]; intros k [|g gs] a; cbn [groups concat]; try (cbn; tauto).
  intros [G Gs] Ha. apply in_app_or in Ha. destruct Ha as [Ha|Ha].
  - exists 0, id, t. rewrite (group_number _ _ _ _ _ _ _ G Ha). split; [auto|lia].
  - destruct (IH _ _ _ Gs Ha) as (j & id' & t' & Ej & ->). exists (S j), id', t'. split; [auto|lia].
Qed.
Lemma groups_at d ts : forall k gs j id t, groups d k ts gs -> nth_error ts j = Some (id, t) -> exists g,
  group d (k + j) id (t_start t) (t_end t) g /\ forall a, arc_transition a = k + j -> In a (concat gs) <-> In a g.
Proof.
  induction ts as [|[id t] ts IH]; intros k [|g gs] j id' t'; cbn [groups concat]; try (cbn; tauto).
  - destruct j; discriminate.
  - intros [G Gs] Ej. destruct j as [|j]; cbn [nth_error] in Ej.
    + injection Ej as <- <-. exists g. rewrite Nat.add_0_r. split; [auto|]. intros a Ea. rewrite in_app_iff. split; [|auto].
      intros [|Ha]; [auto|]. destruct (groups_number _ _ _ _ _ Gs Ha) as (j & _ & _ & _ & Ej). lia.
    + destruct (IH _ _ _ _ _ Gs Ej) as (g' & G' & I). exists g'. rewrite <- Nat.add_succ_comm. split; [auto|]. intros a Ea. rewrite in_app_iff, <- (I a Ea).
      split; [|auto]. intros [Ha|]; [|auto]. rewrite (group_number _ _ _ _ _ _ _ G Ha) in Ea. lia.
Qed.
Lemma NoDup_app_intro {X} (l m : list X) : NoDup l -> NoDup m -> (forall x, In x l -> ~ In x m) -> NoDup (l ++ m).
Proof.
  intros N M D. induction l as [|x l IH]; cbn; [auto|]. inversion N; subst. constructor.
  - rewrite in_app_iff. intros [|]; [auto|]. eapply D; cbn; eauto.
  - apply IH; auto. intros y Hy. apply D. cbn. auto.
Qed.
Lemma groups_NoDup d ts : forall k gs, groups d k ts gs -> NoDup (concat gs).
Proof.
  induction ts as [|[id t] ts IH]; intros k [|g gs]; cbn [groups concat]; try (cbn; tauto); [constructor|].
  intros [G Gs]. apply NoDup_app_intro; [apply (g_nodup _ _ _ _ _ _ G)|eauto|]. intros a Ha Hb.
  destruct (groups_number _ _ _ _ _ Gs Hb) as (j & _ & _ & _ & Ej). rewrite (group_number _ _ _ _ _ _ _ G Ha) in Ej. lia.
Qed.
Definition pm_label (t : transition) : option string := if t_visible t then Some (t_label t) else None.
Lemma add_transitions_ok ord d ts : any_order ord -> (forall p q o, dict_get p d = Some o -> dict_get q d = Some o -> p = q) ->
  (forall id t p, In (id, t) ts -> In p (t_start t) \/ In p (t_end t) -> exists o, dict_get p d = Some o) ->
  forall m, exists m' gs, foldM (fun m '(id, t) => add_transition_to_pm4py_net ord d id t m) ts m = Ok m' /\
    pm_places m' = pm_places m /\
    pm_transitions m' = pm_transitions m ++ combine (seq (length (pm_transitions m)) (length ts)) (map (fun '(id, t) => (tname id, pm_label t)) ts) /\
    pm_arcs m' = pm_arcs m ++ concat gs /\ groups d (length (pm_transitions m)) ts gs.
Proof.
  intros HO DI. induction ts as [|[id t] ts IH]; intros DP m.
  - exists m, []. cbn. rewrite !app_nil_r. auto.
  - cbn [foldM]. set (k := length (pm_transitions m)).
    assert (IO : forall l p, In p (ord l) -> In p l) by (intros l p; apply Permutation_in, HO).
    destruct (group_ok d k id (ord (t_start t)) (ord (t_end t)) DI) with (arcs0 := pm_arcs m) as (added & g & Eg & Gg).
    { intros p Hp. apply (DP id t p); cbn; auto. }
    { intros p Hp. apply (DP id t p); cbn; auto. }
    unfold add_transition_to_pm4py_net at 1. fold k. rewrite Eg. cbn [bind].
    match goal with |- context [foldM _ ts ?x] => set (m1 := x) end.
    assert (L1 : length (pm_transitions m1) = S k) by (unfold m1; cbn [pm_transitions]; rewrite app_length; cbn; lia).
    destruct (IH (fun i t' p Hin => DP i t' p (or_intror Hin)) m1) as (m' & gs & E' & P1 & P2 & P3 & P4).
    exists m', (g :: gs). split; [exact E'|]. split; [exact P1|]. split; [|split].
    + rewrite P2, L1. unfold m1. cbn [pm_transitions length]. rewrite <- app_assoc. cbn [seq map combine app]. reflexivity.
    + rewrite P3. unfold m1. cbn [pm_arcs concat]. rewrite <- app_assoc. auto.
    + rewrite L1 in P4. cbn [groups]. split; [|exact P4]. eapply group_perm; [apply HO|apply HO|exact Gg].
Qed.
