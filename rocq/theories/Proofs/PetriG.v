(** Pruning of data petri nets, part 2: what the program does to a net *)
From Coq Require Import String Permutation ZArith.
From Verif.Model Require Import Base PetriNet.
From Verif.Spec Require Import PetriSpec.
From Verif.Lib Require Import ListLib DictLib.
From Verif.Proofs Require Import PetriA PetriC PetriF.
Open Scope string_scope.
Open Scope list_scope.
Open Scope nat_scope.

Lemma get_map {V} (f : string -> V -> V) (d : dict string V) u :
  dict_get u (map (fun '(k, v) => (k, f k v)) d) = option_map (f u) (dict_get u d).
Proof.
  induction d as [|[k v] d IH]; [auto|]. cbn [map dict_get]. destruct (eqb_ok u k) as [->|]; auto.
Qed.
Lemma keys_map {V} (f : string -> V -> V) (d : dict string V) : keys (map (fun '(k, v) => (k, f k v)) d) = keys d.
Proof. unfold keys. rewrite map_map. apply map_ext. intros [k v]. auto. Qed.
Lemma get_filter_key {V} (f : string -> bool) (d : dict string V) u :
  dict_get u (filter (fun '(k, _) => f k) d) = if f u then dict_get u d else None.
Proof.
  induction d as [|[k v] d IH]; cbn [filter dict_get].
  - destruct (f u); auto.
  - destruct (f k) eqn:Ef; cbn [dict_get]; destruct (eqb_ok u k) as [->|]; rewrite ?Ef; auto. rewrite Ef in IH. auto.
Qed.
Lemma keys_filter_key {V} (f : string -> bool) (d : dict string V) : keys (filter (fun '(k, _) => f k) d) = filter f (keys d).
Proof. unfold keys. induction d as [|[k v] d IH]; cbn [filter map fst]; auto. destruct (f k); cbn [map fst]; rewrite IH; auto. Qed.

(** the end places of a predecessor after the bypass of [s] by [e] *)
Definition newends (s e : string) (l : list string) : list string :=
  if mem s l then filter (fun y => negb (eqb y s)) (set_add e l) else l.
Lemma newends_In s e l p : s <> e -> In p (newends s e l) <-> p <> s /\ (In p l \/ (In s l /\ p = e)).
Proof.
  intros Hse. unfold newends. destruct (mem s l) eqn:Em.
  - apply mem_In in Em. rewrite filter_In, set_add_In, negb_true_iff, eqb_neq. tauto.
  - apply mem_not_In in Em. split.
    + intros Hp. split; [|auto]. intros ->. contradiction.
    + tauto.
Qed.
Lemma newends_NoDup s e l : NoDup l -> NoDup (newends s e l).
Proof. intros N. unfold newends. destruct (mem s l); auto. apply NoDup_filter, set_add_NoDup. auto. Qed.
Lemma filter_out (s : string) l : NoDup l -> In s l -> S (length (filter (fun y => negb (eqb y s)) l)) = length l.
Proof.
  induction l as [|x l IH]; [intros _ []|]. intros N [->|Hin]; inversion N as [|? ? N1 N2]; subst; cbn [filter].
  - rewrite eqb_refl. cbn [negb length]. f_equal. clear - N1. induction l as [|y l IH]; [auto|]. cbn [filter].
    destruct (eqb_ok y s) as [->|]; [exfalso; apply N1; cbn; auto|]. cbn [negb length]. rewrite IH; auto. intros Hin. apply N1. cbn; auto.
  - destruct (eqb_ok x s) as [->|]; [contradiction|]. cbn [negb length]. rewrite IH; auto.
Qed.
Lemma newends_length s e l : NoDup l -> s <> e ->
  length (newends s e l) <= length l /\ (length (newends s e l) = length l -> ~ (In s l /\ In e l)).
Proof.
  intros N Hse. unfold newends. destruct (mem s l) eqn:Em.
  - apply mem_In in Em. assert (F := filter_out s (set_add e l) (set_add_NoDup e l N)). rewrite set_add_In in F. specialize (F (or_intror Em)).
    unfold set_add in *. destruct (mem e l) eqn:Ee.
    + split; lia.
    + rewrite app_length in F. cbn [length] in F. apply mem_not_In in Ee. split; [lia|]. tauto.
  - apply mem_not_In in Em. split; [lia|]. tauto.
Qed.
Lemma newends_ind s e l p : s <> e -> ~ (In s l /\ In e l) ->
  ind (newends s e l) p = if eqb p s then 0%Z else if eqb p e then (ind l e + ind l s)%Z else ind l p.
Proof.
  intros Hse Hno. unfold ind at 1. destruct (mem p (newends s e l)) eqn:Em.
  - apply mem_In, (newends_In s e l p Hse) in Em. destruct Em as [Hp Em]. destruct (eqb_ok p s); [contradiction|].
    unfold ind. destruct (eqb_ok p e) as [->|Hpe].
    + destruct Em as [Em|[Em _]].
      * rewrite (proj2 (mem_In e l) Em). destruct (mem s l) eqn:Es; [apply mem_In in Es; tauto|lia].
      * rewrite (proj2 (mem_In s l) Em). destruct (mem e l) eqn:Ee; [apply mem_In in Ee; tauto|lia].
    + destruct Em as [Em|[_ Em]]; [|contradiction]. rewrite (proj2 (mem_In p l) Em). auto.
  - apply mem_not_In in Em. destruct (eqb_ok p s) as [->|Hps]; [auto|]. unfold ind. destruct (eqb_ok p e) as [->|Hpe].
    + destruct (mem e l) eqn:Ee.
      * exfalso. apply Em. apply newends_In; auto. split; auto. left. apply mem_In. auto.
      * destruct (mem s l) eqn:Es; [|auto]. exfalso. apply Em. apply newends_In; auto. split; auto. right. split; [apply mem_In|]; auto.
    + destruct (mem p l) eqn:Ep; [|auto]. exfalso. apply Em. apply newends_In; auto. split; auto. left. apply mem_In. auto.
Qed.

(** [n1] is [n] after transition [t] from [s] to [e] has been pruned *)
Record step (n : net) (t s e : string) (n1 : net) : Prop := {
  s_wf : wf n; s_wf1 : wf n1;
  s_start : starts n t = [s]; s_end : ends n t = [e]; s_ne : s <> e; s_only : forall u, In s (starts n u) -> u = t;
  s_keys : keys (transitions n1) = keys (transitions n);
  s_attr : forall u tr, dict_get u (transitions n) = Some tr -> exists tr1, dict_get u (transitions n1) = Some tr1 /\
    t_label tr1 = t_label tr /\ t_visible tr1 = t_visible tr /\ t_guard tr1 = t_guard tr;
  s_starts : forall u, starts n1 u = if eqb u t then [] else starts n u;
  s_ends : forall u, ends n1 u = if eqb u t then [] else newends s e (ends n u);
  s_t : forall tr, dict_get t (transitions n) = Some tr -> t_visible tr = false /\ t_guard tr = AcceptAlways;
  s_places : forall p, match dict_get p (places n) with
                       | Some pl => exists pl1, dict_get p (places n1) = Some pl1 /\ p_label pl1 = p_label pl /\ p_tokens pl1 = p_tokens pl
                       | None => dict_get p (places n1) = None end;
  s_vars : variables n1 = variables n }.

Lemma can_be_pruned_ok so si t tr n : wf n -> dict_get t (transitions n) = Some tr ->
  exists b, can_be_pruned so si tr n = Ok b /\
    (b = true -> t_visible tr = false /\ t_guard tr = AcceptAlways /\ exists s e pl, t_start tr = [s] /\ t_end tr = [e] /\ s <> e /\
       dict_get s (places n) = Some pl /\ p_transitions pl = [t] /\ ~ In s so).
Proof.
  intros W Et. unfold can_be_pruned. destruct (t_visible tr) eqn:Ev; [exists false; split; [auto|discriminate]|].
  destruct (t_start tr) as [|s [|s2 ss]] eqn:Es; [exists false; split; [auto|discriminate]| |exists false; split; [auto|discriminate]].
  destruct (t_end tr) as [|e [|e2 es]] eqn:Ee; [exists false; split; [auto|discriminate]| |exists false; split; [auto|discriminate]].
  assert (Hst : starts n t = [s]) by (unfold starts; rewrite Et; auto).
  assert (Hp : has_place n s) by (apply (w_sp n W t); rewrite Hst; cbn; auto).
  apply dict_get_key in Hp. destruct Hp as [pl Ep]. rewrite Ep. cbn [of_option bind].
  destruct (w_pt n W s pl Ep) as (N & _ & Hpt).
  assert (Hloops : exists loops, mapM (fun u => do tu <- of_option KeyError (dict_get u (transitions n)) ; Ok (mem s (t_end tu))) (p_transitions pl) = Ok loops /\
     (In t (p_transitions pl) -> existsb (fun b => b) loops = false -> s <> e)).
  { assert (G : forall l, (forall u, In u l -> In u (p_transitions pl)) ->
      exists loops, mapM (fun u => do tu <- of_option KeyError (dict_get u (transitions n)) ; Ok (mem s (t_end tu))) l = Ok loops /\
        (In t l -> existsb (fun b => b) loops = false -> s <> e)).
    { induction l as [|u l IH]; intros Hl.
      - exists []. split; [auto|]. intros [].
      - destruct IH as (loops & El & Hlp); [intros; apply Hl; cbn; auto|]. cbn [mapM].
        assert (Hu : has_transition n u) by (eapply starts_has; apply Hpt; apply Hl; cbn; auto).
        apply dict_get_key in Hu. destruct Hu as [tu Eu]. rewrite Eu. cbn [of_option bind]. rewrite El. cbn [bind].
        eexists. split; [reflexivity|]. cbn [existsb]. intros Hin Hf. apply orb_false_iff in Hf. destruct Hf as [F1 F2].
        destruct Hin as [->|Hin]; [|auto]. assert (tu = tr) by congruence. subst tu. rewrite Ee in F1.
        intros ->. apply mem_not_In in F1. apply F1. cbn; auto. }
    destruct (G (p_transitions pl)) as (loops & El & Hlp); eauto. }
  destruct Hloops as (loops & El & Hlp). rewrite El. cbn [bind]. eexists. split; [reflexivity|].
  intros Hb. apply andb_true_iff in Hb. destruct Hb as [Hb Hg]. apply andb_true_iff in Hb. destruct Hb as [Hb _].
  apply andb_true_iff in Hb. destruct Hb as [Hb Hl]. apply andb_true_iff in Hb. destruct Hb as [Hb Hso]. apply negb_true_iff, mem_not_In in Hso.
  apply negb_true_iff in Hb. apply Nat.eqb_eq in Hl.
  assert (Hin : In t (p_transitions pl)) by (apply Hpt; rewrite Hst; cbn; auto).
  split; [auto|]. split; [destruct (t_guard tr); auto; discriminate|].
  exists s, e, pl. split; [auto|]. split; [auto|]. split; [auto|]. split; [auto|].
  destruct (p_transitions pl) as [|u [|? ?]]; try discriminate. destruct Hin as [->|[]]. split; [auto|exact Hso].
Qed.

Lemma set_remove_single x : set_remove x [x] = Ok [].
Proof. unfold set_remove. change (mem x [x]) with (eqb x x || false). cbn [filter]. rewrite eqb_refl. auto. Qed.

Lemma prune_transition_ok ord n t tr s e pl : any_order ord -> wf n -> dict_get t (transitions n) = Some tr ->
  t_visible tr = false -> t_guard tr = AcceptAlways -> t_start tr = [s] -> t_end tr = [e] -> s <> e ->
  dict_get s (places n) = Some pl -> p_transitions pl = [t] ->
  exists n1, prune_transition ord t n = Ok n1 /\ step n t s e n1.
Proof.
  intros HO W Et Ev Eg Es Ee Hse Ep Ept. unfold prune_transition. rewrite Et. cbn [of_option bind]. rewrite Es.
  assert (O1 : forall x : string, ord [x] = [x]) by (intros x; apply Permutation_length_1_inv; symmetry; apply HO).
  rewrite O1. cbn [foldM]. rewrite Et. cbn [of_option bind]. rewrite Es, set_remove_single. cbn [bind]. rewrite Ep. cbn [of_option bind].
  rewrite Ept, set_remove_single. cbn [bind]. rewrite Ee, O1. cbn [foldM transitions].
  rewrite dict_get_set, eqb_refl. cbn [of_option bind with_starts t_end]. rewrite Ee, set_remove_single. cbn [bind].
  set (tr1 := with_ends (with_starts tr []) []).
  eexists. split; [reflexivity|].
  match goal with |- step _ _ _ _ ?m => set (n1 := m) end.
  assert (T1 : forall u, dict_get u (transitions n1) =
     if eqb u t then Some tr1 else option_map (fun tu => with_ends tu (newends s e (t_end tu))) (dict_get u (transitions n))).
  { intros u. unfold n1. cbn [transitions set_transition places].
    rewrite (get_map (fun k tu => if mem s (t_end tu) then with_ends tu (filter (fun y => negb (eqb y s)) (set_add e (t_end tu))) else tu)).
    rewrite !dict_get_set. destruct (eqb_ok u t) as [->|Hu].
    - reflexivity.
    - destruct (dict_get u (transitions n)) as [tu|]; [|auto]. cbn [option_map]. f_equal. unfold newends.
      destruct (mem s (t_end tu)); auto. destruct tu; auto. }
  assert (K1 : keys (transitions n1) = keys (transitions n)).
  { unfold n1. cbn [transitions set_transition places].
    rewrite (keys_map (fun k tu => if mem s (t_end tu) then with_ends tu (filter (fun y => negb (eqb y s)) (set_add e (t_end tu))) else tu)).
    assert (Ht : mem t (keys (transitions n)) = true) by (apply mem_In; eapply dict_get_Some_key; eauto).
    rewrite !keys_dict_set, Ht, Ht. auto. }
  assert (P1 : forall p, dict_get p (places n1) = if eqb p s then Some (Place (p_label pl) (p_tokens pl) []) else dict_get p (places n)).
  { intros p. unfold n1. cbn [places set_transition]. rewrite dict_get_set. auto. }
  assert (S1 : forall u, starts n1 u = if eqb u t then [] else starts n u).
  { intros u. unfold starts. rewrite T1. destruct (eqb_ok u t) as [->|]; [auto|]. destruct (dict_get u (transitions n)); auto. }
  assert (E1 : forall u, ends n1 u = if eqb u t then [] else newends s e (ends n u)).
  { intros u. unfold ends. rewrite T1. destruct (eqb_ok u t) as [->|]; [auto|]. destruct (dict_get u (transitions n)); auto. }
  assert (PK : keys (places n1) = keys (places n)).
  { unfold n1. cbn [places set_transition]. rewrite keys_dict_set, (proj2 (mem_In s (keys (places n)))); [auto|]. eapply dict_get_Some_key; eauto. }
  assert (Hst : starts n t = [s]) by (unfold starts; rewrite Et; auto).
  assert (Hen : ends n t = [e]) by (unfold ends; rewrite Et; auto).
  assert (Honly : forall u, In s (starts n u) -> u = t).
  { intros u Hu. apply (w_pt n W s pl Ep) in Hu. rewrite Ept in Hu. destruct Hu as [|[]]. auto. }
  assert (W1 : wf n1).
  { constructor.
    - rewrite PK. apply W.
    - rewrite K1. apply W.
    - intros u. rewrite S1. destruct (eqb u t); [constructor|apply W].
    - intros u. rewrite E1. destruct (eqb u t); [constructor|apply newends_NoDup, W].
    - intros u p. rewrite S1. unfold has_place. rewrite PK. destruct (eqb u t); [intros []|apply (w_sp n W)].
    - intros u p. rewrite E1. unfold has_place. rewrite PK. destruct (eqb u t); [intros []|]. intros Hp.
      apply newends_In in Hp; auto. destruct Hp as [_ [Hp|[_ ->]]]; [eapply (w_ep n W); eauto|].
      apply (w_ep n W t). rewrite Hen. cbn; auto.
    - intros p pl0. rewrite P1. destruct (eqb_ok p s) as [->|Hps].
      + intros E. injection E as <-. cbn [p_transitions p_tokens]. split; [constructor|]. split; [apply (w_pt n W s pl Ep)|].
        intros u. rewrite S1. split; [intros []|]. destruct (eqb_ok u t) as [->|Hu]; [intros []|]. intros Hin. apply Honly in Hin. congruence.
      + intros E. destruct (w_pt n W p pl0 E) as (A & B & C). split; [auto|]. split; [auto|]. intros u. rewrite C, S1.
        destruct (eqb_ok u t) as [->|]; [|tauto]. rewrite Hst. cbn. intuition. }
  constructor; auto.
  - intros u tu Eu. rewrite T1. destruct (eqb_ok u t) as [->|Hu].
    + exists tr1. assert (tu = tr) by congruence. subst tu. auto.
    + rewrite Eu. cbn [option_map]. eexists. split; [reflexivity|]. auto.
  - intros tu Eu. assert (tu = tr) by congruence. subst tu. auto.
  - intros p. rewrite P1. destruct (eqb_ok p s) as [->|Hps].
    + rewrite Ep. eexists. split; [reflexivity|]. auto.
    + destruct (dict_get p (places n)); eauto.
Qed.

(** the nets during pruning; [P] lists the pruned transitions and their start places *)
Inductive chain (n : net) : list (string * string) -> net -> Prop :=
| ch_nil : chain n [] n
| ch_step P nk t s e n1 : chain n P nk -> ~ In t (map fst P) -> step nk t s e n1 -> chain n ((t, s) :: P) n1.

Record along (n : net) (P : list (string * string)) (nk : net) : Prop := {
  a_wf : wf nk;
  a_keys : keys (transitions nk) = keys (transitions n);
  a_attr : forall u tr, dict_get u (transitions n) = Some tr -> exists tr1, dict_get u (transitions nk) = Some tr1 /\
    t_label tr1 = t_label tr /\ t_visible tr1 = t_visible tr /\ t_guard tr1 = t_guard tr;
  a_starts : forall u, ~ In u (map fst P) -> starts nk u = starts n u;
  a_length : forall u, length (ends nk u) <= length (ends n u);
  a_gone : forall t, In t (map fst P) -> starts nk t = [] /\ ends nk t = [];
  a_only : forall t s u, In (t, s) P -> In s (starts n u) -> u = t;
  a_pruned : forall t s, In (t, s) P -> starts n t = [s] /\
    exists tr, dict_get t (transitions n) = Some tr /\ t_visible tr = false /\ t_guard tr = AcceptAlways;
  a_places : forall p, match dict_get p (places n) with
                       | Some pl => exists pl1, dict_get p (places nk) = Some pl1 /\ p_label pl1 = p_label pl /\ p_tokens pl1 = p_tokens pl
                       | None => dict_get p (places nk) = None end;
  a_vars : variables nk = variables n }.
Lemma chain_along n P nk : wf n -> chain n P nk -> along n P nk.
Proof.
  intros W. induction 1 as [|P nk t s e n1 C IH Hn S].
  - constructor; auto.
    + intros u tr E. eauto.
    + intros t [].
    + intros t s u [].
    + intros t s [].
    + intros p. destruct (dict_get p (places n)); eauto.
  - destruct IH as [I1 I2 I3 I4 I5 I0 IO I6 I7 I8]. constructor.
    + apply S.
    + rewrite (s_keys _ _ _ _ _ S). auto.
    + intros u tr E. destruct (I3 u tr E) as (tr1 & E1 & A1 & A2 & A3). destruct (s_attr _ _ _ _ _ S u tr1 E1) as (tr2 & E2 & B1 & B2 & B3).
      exists tr2. split; [auto|]. split; [congruence|]. split; congruence.
    + intros u Hu. rewrite (s_starts _ _ _ _ _ S). destruct (eqb_ok u t) as [->|Hne]; [exfalso; apply Hu; cbn; auto|].
      apply I4. intros Hin. apply Hu. cbn; auto.
    + intros u. rewrite (s_ends _ _ _ _ _ S). destruct (eqb u t); [cbn; lia|].
      pose proof (newends_length s e (ends nk u) (w_end nk (s_wf _ _ _ _ _ S) u) (s_ne _ _ _ _ _ S)). specialize (I5 u). lia.
    + intros u Hu. rewrite (s_starts _ _ _ _ _ S), (s_ends _ _ _ _ _ S). destruct (eqb_ok u t) as [->|Hne]; [auto|].
      destruct Hu as [E|Hu]; [cbn in E; congruence|]. destruct (I0 u Hu) as [-> ->]. auto.
    + intros t' s' u [E|Hin] Hu; [|eauto]. injection E as <- <-. destruct (in_dec string_dec u (map fst P)) as [Hp|Hp].
      * apply in_map_iff in Hp. destruct Hp as ([u' su] & <- & Hp). cbn [fst] in *. destruct (I6 u' su Hp) as [Eu _]. rewrite Eu in Hu.
        destruct Hu as [->|[]]. symmetry. apply (IO u' s t Hp). rewrite <- (I4 t Hn), (s_start _ _ _ _ _ S). cbn; auto.
      * apply (s_only _ _ _ _ _ S). rewrite (I4 u Hp). auto.
    + intros t' s' [E|Hin]; [|auto]. injection E as <- <-. rewrite <- (I4 t Hn), (s_start _ _ _ _ _ S). split; [auto|].
      assert (Ht : has_transition n t).
      { eapply starts_has. rewrite <- (I4 t Hn), (s_start _ _ _ _ _ S). cbn; auto. }
      apply dict_get_key in Ht. destruct Ht as [tr Et]. destruct (I3 t tr Et) as (tr1 & E1 & A1 & A2 & A3).
      destruct (s_t _ _ _ _ _ S tr1 E1). exists tr. split; [auto|]. split; congruence.
    + intros p. specialize (I7 p). pose proof (s_places _ _ _ _ _ S p) as Q. destruct (dict_get p (places n)) as [pl|].
      * destruct I7 as (pl1 & E1 & A1 & A2). rewrite E1 in Q. destruct Q as (pl2 & E2 & B1 & B2). exists pl2. split; [auto|]. split; congruence.
      * rewrite I7 in Q. auto.
    + rewrite (s_vars _ _ _ _ _ S). auto.
Qed.

(** the runs of the pruned net are those of the net itself *)
Definition able (n : net) (st : store) (P : list string) (u : string) : Prop :=
  has_transition n u /\ accept st (guard_of n u) = Ok true /\ ~ In u P.
Definition keep (P : list string) (l : list string) : list string := filter (fun u => negb (mem u P)) l.
Lemma keep_cons t P l : keep (t :: P) l = others t (keep P l).
Proof.
  unfold keep, others. induction l as [|u l IH]; [auto|]. cbn [filter]. change (mem u (t :: P)) with (eqb u t || mem u P).
  destruct (mem u P) eqn:Em; cbn [negb].
  - rewrite orb_true_r. cbn [negb]. auto.
  - rewrite orb_false_r. cbn [filter]. destruct (eqb u t); cbn [negb]; rewrite IH; auto.
Qed.
Lemma keep_nil l : keep [] l = l.
Proof. unfold keep. induction l; cbn; [auto|]. f_equal. auto. Qed.
Section Runs.
  Variables (n : net) (st : store).
  Hypothesis W : wf n.
  Definition clean (P : list (string * string)) (nk : net) : Prop :=
    (forall u, has_transition n u -> ~ In u (map fst P) -> length (ends nk u) = length (ends n u)) /\
    (forall t, In t (map fst P) -> length (ends n t) = 1).
  Definition zero (P : list (string * string)) (M : mark) : Prop := forall s, In s (map snd P) -> M s = 0%Z.
  Lemma chain_runs P nk : chain n P nk -> clean P nk ->
    (forall M l M1, zero P M -> (forall p, (0 <= M p)%Z) -> arun (able n st []) (starts n) (ends n) M l M1 ->
       exists K, arun (able n st (map fst P)) (starts nk) (ends nk) M (keep (map fst P) l) K /\ (zero P M1 -> same M1 K) /\ (forall p, (0 <= K p)%Z)) /\
    (forall M l K, zero P M -> (forall p, (0 <= M p)%Z) -> arun (able n st (map fst P)) (starts nk) (ends nk) M l K ->
       exists m, arun (able n st []) (starts n) (ends n) M m K /\ keep (map fst P) m = l /\ zero P K).
  Proof.
    assert (NN : forall (A : string -> Prop) pre post M l M1, (forall u, NoDup (pre u)) -> (forall p, (0 <= M p)%Z) -> arun A pre post M l M1 -> forall p, (0 <= M1 p)%Z).
    { clear. intros A pre post M l M1 Np N R. induction R as [M M1 E|M t M2 l M1 (Ft & F1 & F2) R IH].
      - intros p. rewrite E. auto.
      - apply IH. intros p. rewrite F2. pose proof (ind_nonneg (post t) p). unfold ind at 2. destruct (mem p (pre t)) eqn:Em.
        + apply mem_In, F1 in Em. lia.
        + specialize (N p). lia. }
    induction 1 as [|P nk t s e n1 C IH Hn S]; intros [C1 C2].
    - cbn [map]. split.
      + intros M l M1 _ N R. exists M1. rewrite keep_nil. split; [auto|]. split; [intros _ p; auto|]. apply (NN _ _ _ _ _ _ (w_start n W) N R).
      + intros M l K Z N R. exists l. split; [auto|]. split; [apply keep_nil|]. intros s [].
    - pose proof (chain_along n P nk W C) as Al.
      assert (Len : forall u, has_transition n u -> u <> t -> ~ In u (map fst P) -> length (ends nk u) = length (ends n u) /\ length (newends s e (ends nk u)) = length (ends nk u)).
      { intros u Hu Hne Hin. specialize (C1 u Hu). rewrite (s_ends _ _ _ _ _ S) in C1. destruct (eqb_ok u t); [contradiction|].
        specialize (C1 ltac:(intros [E|Hin']; cbn in *; [congruence|contradiction])).
        destruct (newends_length s e (ends nk u) (w_end nk (s_wf _ _ _ _ _ S) u) (s_ne _ _ _ _ _ S)) as [L _].
        pose proof (a_length _ _ _ Al u). lia. }
      assert (Ck : clean P nk).
      { split.
        - intros u Hu Hin. destruct (eq_dec_of u t) as [->|Hne]; [|apply Len; auto].
          rewrite (s_end _ _ _ _ _ S), (C2 t); [auto|cbn; auto].
        - intros u Hu. apply C2. cbn; auto. }
      destruct (IH Ck) as [F B].
      set (A := able n st (map fst P)).
      assert (Gt : accept st (guard_of n t) = Ok true /\ has_transition n t).
      { assert (Ht : has_transition n t).
        { eapply starts_has. rewrite <- (a_starts _ _ _ Al t Hn), (s_start _ _ _ _ _ S). cbn; auto. }
        split; [|auto]. apply dict_get_key in Ht. destruct Ht as [tr Et]. unfold guard_of. rewrite Et.
        destruct (a_attr _ _ _ Al t tr Et) as (tr1 & E1 & _ & _ & A3). destruct (s_t _ _ _ _ _ S tr1 E1) as [_ G]. rewrite <- A3, G. auto. }
      assert (At : A t) by (split; [apply Gt|split; [apply Gt|auto]]).
      assert (Hs : forall u, A u -> u <> t -> ~ In s (starts nk u)).
      { intros u _ Hu Hin. apply (s_only _ _ _ _ _ S) in Hin. congruence. }
      assert (Hpre : forall u, A u -> u <> t -> starts n1 u = starts nk u).
      { intros u _ Hu. rewrite (s_starts _ _ _ _ _ S). destruct (eqb_ok u t); congruence. }
      assert (Hpost : forall u, A u -> u <> t -> forall p, ind (ends n1 u) p =
         if eqb p s then 0%Z else if eqb p e then (ind (ends nk u) e + ind (ends nk u) s)%Z else ind (ends nk u) p).
      { intros u (Hu & _ & Hin) Hne p. rewrite (s_ends _ _ _ _ _ S). destruct (eqb_ok u t); [contradiction|].
        apply newends_ind; [apply S|]. apply newends_length; [apply (s_wf _ _ _ _ _ S)|apply S|]. apply Len; auto. }
      assert (HA : forall u, able n st (map fst ((t, s) :: P)) u <-> A' A t u).
      { intros u. unfold A', A, able. cbn [map fst In]. intuition. }
      pose proof (s_ne _ _ _ _ _ S) as Hse.
      assert (Imp : forall M l K, arun (A' A t) (starts n1) (ends n1) M l K <-> arun (able n st (map fst ((t, s) :: P))) (starts n1) (ends n1) M l K).
      { intros M l K. split; intros R; (eapply arun_impl; [exact R|]); intros u Hu; (split; [apply HA; auto|auto]). }
      split.
      + intros M l M1 Z N R. destruct (F M l M1) as (K & RK & ZK & NK); auto.
        { intros x Hx. apply Z. cbn; auto. }
        assert (Ms : M s = 0%Z) by (apply Z; cbn; auto).
        destruct (bypass_forward A (starts nk) (ends nk) (starts n1) (ends n1) t s e (s_start _ _ _ _ _ S) (s_end _ _ _ _ _ S) Hse Hs Hpre Hpost M _ K RK) with (K := M)
          as (K1 & R1 & E1); [apply N|apply moved_id; auto|].
        exists K1. cbn [map fst]. rewrite keep_cons. split; [apply Imp; exact R1|].
        split; [|exact (NN _ _ _ _ _ _ (w_start n1 (s_wf1 _ _ _ _ _ S)) N R1)].
        intros ZM1 p. rewrite E1. assert (EK : same M1 K) by (apply ZK; intros x Hx; apply ZM1; cbn; auto).
        rewrite <- (moved_id s e K); [apply EK|]. rewrite EK. apply ZM1. cbn; auto.
      + intros M l K Z N R. apply Imp in R. assert (Ms : M s = 0%Z) by (apply Z; cbn; auto).
        destruct (bypass_backward A (starts nk) (ends nk) (starts n1) (ends n1) t s e At (s_start _ _ _ _ _ S) (s_end _ _ _ _ _ S) Hse Hs Hpre Hpost M l K R M)
          as (m & M1 & R1 & E1 & Z1 & S1); [apply N|apply moved_id; auto|].
        assert (E2 : same M1 K). { intros p. rewrite S1. symmetry. apply (moved_id s e M1 Z1). }
        destruct (B M m K) as (m' & R' & E' & Z').
        { intros x Hx. apply Z. cbn; auto. }
        { auto. }
        { eapply arun_ext; [exact R1| |exact E2]. intros p; auto. }
        exists m'. split; [auto|]. split; [cbn [map fst]; rewrite keep_cons, E'; auto|].
        intros x [<-|Hx]; [|auto]. cbn [snd]. rewrite E2. auto.
  Qed.
End Runs.

(** transition [x] stays while others are pruned *)
Inductive later (x : string) : net -> net -> Prop :=
| lt_nil n : later x n n
| lt_cons n t s e n1 n2 : t <> x -> step n t s e n1 -> later x n1 n2 -> later x n n2.
Lemma step_behind n t s e n1 p : step n t s e n1 -> behind_some n1 p -> behind_some n p.
Proof.
  intros S [u Hu]. rewrite (s_ends _ _ _ _ _ S) in Hu. destruct (eqb u t); [destruct Hu|].
  apply newends_In in Hu; [|apply S]. destruct Hu as [_ [Hu|[_ ->]]]; [exists u; auto|]. exists t. rewrite (s_end _ _ _ _ _ S). cbn; auto.
Qed.
Lemma later_behind x n n1 p : later x n n1 -> behind_some n1 p -> behind_some n p.
Proof. induction 1 as [|n t s e n1 n2 Hne S L IH]; auto. intros Hb. eapply step_behind; eauto. Qed.
Lemma later_starts x n n1 : later x n n1 -> starts n1 x = starts n x.
Proof.
  induction 1 as [|n t s e n1 n2 Hne S L IH]; auto. rewrite IH, (s_starts _ _ _ _ _ S). destruct (eqb_ok x t); congruence.
Qed.
Lemma later_length x n n1 : later x n n1 -> length (ends n1 x) <= length (ends n x).
Proof.
  induction 1 as [|n t s e n1 n2 Hne S L IH]; auto. etransitivity; [exact IH|]. rewrite (s_ends _ _ _ _ _ S). destruct (eqb_ok x t); [congruence|].
  apply newends_length; [apply (s_wf _ _ _ _ _ S)|apply S].
Qed.
(** other transitions behind a place stay *)
Lemma later_other x n n1 s u : later x n n1 -> In s (starts n x) -> In s (starts n u) -> In s (starts n1 u).
Proof.
  induction 1 as [|n t s0 e n1 n2 Hne S L IH]; auto. intros Hx Hu. apply IH.
  - rewrite (s_starts _ _ _ _ _ S). destruct (eqb_ok x t); [congruence|auto].
  - rewrite (s_starts _ _ _ _ _ S). destruct (eqb_ok u t) as [->|]; [|auto]. exfalso.
    rewrite (s_start _ _ _ _ _ S) in Hu. destruct Hu as [->|[]]. apply (s_only _ _ _ _ _ S) in Hx. congruence.
Qed.
Lemma later_loop x n n1 s : later x n n1 -> In s (starts n x) -> ends n x = [s] -> ends n1 x = [s].
Proof.
  induction 1 as [|n t s0 e n1 n2 Hne S L IH]; auto. intros Hx He. apply IH.
  - rewrite (s_starts _ _ _ _ _ S). destruct (eqb_ok x t); [congruence|auto].
  - rewrite (s_ends _ _ _ _ _ S). destruct (eqb_ok x t); [congruence|]. rewrite He. unfold newends.
    change (mem s0 [s]) with (eqb s0 s || false). destruct (eqb_ok s0 s) as [->|]; [|auto]. exfalso.
    apply (s_only _ _ _ _ _ S) in Hx. congruence.
Qed.
Lemma can_be_pruned_false so si t tr n s e : wf n -> dict_get t (transitions n) = Some tr -> can_be_pruned so si tr n = Ok false ->
  t_visible tr = false -> t_guard tr = AcceptAlways -> t_start tr = [s] -> t_end tr = [e] -> (forall u, In s (starts n u) -> u = t) -> s = e \/ In s so.
Proof.
  intros W Et E Ev Eg Es Ee Ho. unfold can_be_pruned in E. rewrite Ev, Es, Ee in E.
  assert (Hst : starts n t = [s]) by (unfold starts; rewrite Et; auto).
  assert (Hp : has_place n s) by (apply (w_sp n W t); rewrite Hst; cbn; auto).
  apply dict_get_key in Hp. destruct Hp as [pl Ep]. rewrite Ep in E. cbn [of_option bind] in E.
  destruct (w_pt n W s pl Ep) as (N & _ & Hpt).
  assert (Ept : p_transitions pl = [t]).
  { assert (Hin : In t (p_transitions pl)) by (apply Hpt; rewrite Hst; cbn; auto).
    assert (Hall : forall u, In u (p_transitions pl) -> u = t) by (intros u Hu; apply Ho, Hpt, Hu).
    destruct (p_transitions pl) as [|u [|v l]]; [destruct Hin| |].
    - rewrite (Hall u) by (cbn; auto). auto.
    - exfalso. inversion N as [|? ? N1 N2]; subst. apply N1. rewrite (Hall u), (Hall v) by (cbn; auto). cbn; auto. }
  rewrite Ept in E. cbn [mapM] in E. rewrite Et in E. cbn [of_option bind existsb length] in E. rewrite Ee, Eg in E.
  change (1 =? 1) with true in E. rewrite orb_true_r, !andb_true_r, orb_false_r in E.
  change (mem s [e]) with (eqb s e || false) in E. rewrite orb_false_r in E.
  destruct (eqb_ok s e) as [->|Hne]; [auto|]. cbn [negb andb] in E. right. apply mem_In. destruct (mem s so); [auto|discriminate].
Qed.

(** the whole pruning *)
Lemma prune_loop ord so si n : any_order ord -> wf n -> forall todo done P nk, keys (transitions n) = done ++ todo -> chain n P nk -> incl (map fst P) done -> (forall t s, In (t, s) P -> ~ In s so) ->
  exists P' n1, foldM (fun '(n, remaining) id =>
      do t <- of_option KeyError (dict_get id (transitions n)) ;
      do b <- can_be_pruned so si t n ;
      if b then do n' <- prune_transition ord id n ; Ok (n', remaining) else Ok (n, remaining ++ [id])) todo (nk, keep (map fst P) done) =
    Ok (n1, keep (map fst P') (keys (transitions n))) /\ chain n P' n1 /\ (forall t s, In (t, s) P' -> ~ In s so) /\ (forall x, ~ In x todo -> later x nk n1) /\
    forall x, In x todo -> ~ In x (map fst P') ->
      exists Pm nm tr, chain n Pm nm /\ dict_get x (transitions nm) = Some tr /\ can_be_pruned so si tr nm = Ok false /\ later x nm n1.
Proof.
  intros HO W. induction todo as [|id todo IH]; intros done P nk K C Hi Hso; cbn [foldM].
  - rewrite app_nil_r in K. rewrite K. exists P, nk. split; [auto|]. split; [auto|]. split; [auto|]. split; [intros; constructor|intros x []].
  - pose proof (chain_along n P nk W C) as Al.
    pose proof (w_trans n W) as N. rewrite K in N.
    assert (Hid : ~ In id done) by (eapply NoDup_mid_l; eauto).
    assert (Hit : ~ In id todo) by (apply NoDup_remove_2 in N; intros Hin; apply N; apply in_or_app; auto).
    assert (Hk : In id (keys (transitions nk))) by (rewrite (a_keys _ _ _ Al), K; apply in_or_app; cbn; auto).
    apply dict_get_key in Hk. destruct Hk as [tr Et]. rewrite Et. cbn [of_option bind].
    destruct (can_be_pruned_ok so si id tr nk (a_wf _ _ _ Al) Et) as (b & Eb & Hb). rewrite Eb. cbn [bind].
    assert (K1 : keys (transitions n) = (done ++ [id]) ++ todo) by (rewrite <- app_assoc; exact K).
    destruct b.
    + destruct (Hb eq_refl) as (Ev & Eg & s & e & pl & Es & Ee & Hse & Ep & Ept & Hs0).
      destruct (prune_transition_ok ord nk id tr s e pl HO (a_wf _ _ _ Al) Et Ev Eg Es Ee Hse Ep Ept) as (n1 & E1 & S1).
      rewrite E1. cbn [bind].
      destruct (IH (done ++ [id]) ((id, s) :: P) n1 K1) as (P' & n2 & F & C' & So & L & R).
      * eapply ch_step; eauto.
      * intros x [<-|Hx]; apply in_or_app; cbn; auto.
      * intros t s1 [E|Hin]; [injection E as <- <-; auto|eauto].
      * exists P', n2. split; [|split; [auto|split; [auto|split]]].
        -- rewrite <- F. f_equal. f_equal. unfold keep. rewrite filter_app. cbn [filter map fst].
           change (mem id (id :: map fst P)) with (eqb id id || mem id (map fst P)). rewrite eqb_refl. cbn [orb negb]. rewrite app_nil_r.
           apply filter_ext_in. intros x Hx. change (mem x (id :: map fst P)) with (eqb x id || mem x (map fst P)).
           destruct (eqb_ok x id) as [->|]; [contradiction|auto].
        -- intros x Hx. eapply lt_cons; [|exact S1|].
           ++ intros ->. apply Hx. cbn; auto.
           ++ apply L. intros Hin. apply Hx. cbn; auto.
        -- intros x [<-|Hx] Hn; [|auto]. exfalso. apply Hn. clear - L S1 C' Hit F W Al Hid Hi.
           assert (Al' := chain_along n P' n2 W C'). destruct (in_dec string_dec id (map fst P')) as [|Hno]; [auto|exfalso].
           specialize (L id Hit). apply later_starts in L. rewrite (s_starts _ _ _ _ _ S1), eqb_refl in L.
           rewrite (a_starts _ _ _ Al' id Hno) in L. rewrite <- (a_starts _ _ _ Al id), (s_start _ _ _ _ _ S1) in L; [discriminate|]. intros Hin. apply Hid, Hi, Hin.
    + cbn [bind]. destruct (IH (done ++ [id]) P nk K1 C) as (P' & n2 & F & C' & So & L & R).
      * intros x Hx. apply in_or_app; auto.
      * auto.
      * exists P', n2. split; [|split; [auto|split; [auto|split]]].
        -- rewrite <- F. f_equal. f_equal. unfold keep. rewrite filter_app. cbn [filter].
           rewrite (proj2 (mem_not_In id (map fst P))) by auto. auto.
        -- intros x Hx. apply L. intros Hin. apply Hx. cbn; auto.
        -- intros x [<-|Hx] Hn; [|auto]. exists P, nk, tr. auto.
Qed.
Lemma collect_places (Pl : dict string place) l : forall ps, (forall p, In p l -> In p (keys Pl)) -> NoDup (keys ps) ->
  exists ps', foldM (fun ps p => do pl <- of_option KeyError (dict_get p Pl) ; Ok (dict_set p pl ps)) l ps = Ok ps' /\ NoDup (keys ps') /\
    forall p, dict_get p ps' = if mem p l then dict_get p Pl else dict_get p ps.
Proof.
  induction l as [|q l IH]; intros ps Hl N; cbn [foldM].
  - exists ps. split; [auto|]. split; [auto|]. intros p. auto.
  - destruct (dict_get_key Pl q) as [pl Eq]; [apply Hl; cbn; auto|]. rewrite Eq. cbn [of_option bind].
    destruct (IH (dict_set q pl ps)) as (ps' & E & N' & G).
    { intros; apply Hl; cbn; auto. } { apply keys_dict_set_NoDup. auto. }
    exists ps'. split; [auto|]. split; [auto|]. intros p. rewrite G, dict_get_set. change (mem p (q :: l)) with (eqb p q || mem p l).
    destruct (mem p l); [rewrite orb_true_r; auto|]. rewrite orb_false_r. destruct (eqb_ok p q) as [->|]; auto.
Qed.
Lemma collect_all ord (Pl : dict string place) (ts : dict string transition) : any_order ord -> forall ps,
  (forall id t p, In (id, t) ts -> In p (t_start t ++ t_end t) -> In p (keys Pl)) -> NoDup (keys ps) ->
  exists ps', foldM (fun ps '(_, t) => foldM (fun ps p => do pl <- of_option KeyError (dict_get p Pl) ; Ok (dict_set p pl ps))
        (ord (t_start t) ++ ord (t_end t)) ps) ts ps = Ok ps' /\ NoDup (keys ps') /\
    forall p, ((exists id t, In (id, t) ts /\ In p (t_start t ++ t_end t)) -> dict_get p ps' = dict_get p Pl) /\
              (~ (exists id t, In (id, t) ts /\ In p (t_start t ++ t_end t)) -> dict_get p ps' = dict_get p ps).
Proof.
  intros HO. induction ts as [|[id t] ts IH]; intros ps Hl N; cbn [foldM].
  - exists ps. split; [auto|]. split; [auto|]. intros p. split; [intros (? & ? & [] & _)|auto].
  - assert (HI : forall p, In p (ord (t_start t) ++ ord (t_end t)) <-> In p (t_start t ++ t_end t)).
    { intros p. rewrite !in_app_iff. rewrite (Permutation_in' (eq_refl p) (HO (t_start t))), (Permutation_in' (eq_refl p) (HO (t_end t))). tauto. }
    destruct (collect_places Pl (ord (t_start t) ++ ord (t_end t)) ps) as (ps1 & E1 & N1 & G1); auto.
    { intros p Hp. apply HI in Hp. apply (Hl id t); cbn; auto. }
    rewrite E1. cbn [bind]. destruct (IH ps1) as (ps2 & E2 & N2 & G2); auto.
    { intros; eapply Hl; eauto; right; eauto. }
    exists ps2. split; [auto|]. split; [auto|]. intros p. destruct (G2 p) as [Ga Gb]. specialize (G1 p).
    assert (D : (exists id t, In (id, t) ts /\ In p (t_start t ++ t_end t)) \/ ~ (exists id t, In (id, t) ts /\ In p (t_start t ++ t_end t))).
    { clear. induction ts as [|[i u] ts [IH|IH]].
      - right. intros (? & ? & [] & _).
      - left. destruct IH as (i' & u' & A & B). exists i', u'. cbn; auto.
      - destruct (in_dec string_dec p (t_start u ++ t_end u)) as [Hp|Hp].
        + left. exists i, u. cbn; auto.
        + right. intros (i' & u' & [E|A] & B); [injection E as <- <-; auto|]. apply IH. eauto. }
    split.
    + intros (i & u & [E|Hin] & Hp).
      * injection E as <- <-. destruct D as [D|D]; [auto|]. rewrite (Gb D), G1. apply HI in Hp. apply mem_In in Hp. rewrite Hp. auto.
      * apply Ga. eauto.
    + intros Hno. rewrite Gb, G1.
      * destruct (mem p _) eqn:Em; [|auto]. exfalso. apply mem_In in Em. apply HI in Em. apply Hno. exists id, t. cbn; auto.
      * intros (i & u & Hin & Hp). apply Hno. exists i, u. cbn; auto.
Qed.

Record pruned (n : net) (P : list (string * string)) (n1 n' : net) : Prop := {
  pr_chain : chain n P n1;
  pr_wf : wf n';
  pr_has : forall t, has_transition n' t <-> has_transition n t /\ ~ In t (map fst P);
  pr_trans : forall t, ~ In t (map fst P) -> dict_get t (transitions n') = dict_get t (transitions n1);
  pr_starts : forall t, starts n' t = starts n1 t;
  pr_ends : forall t, ends n' t = ends n1 t;
  pr_place : forall p, has_place n' p <-> before_some n' p \/ behind_some n' p;
  pr_places : forall p, has_place n' p -> dict_get p (places n') = dict_get p (places n1);
  pr_vars : variables n' = variables n;
  pr_kept : forall x, has_transition n' x -> exists so si Pm nm tr, get_source_sink_places n = (so, si) /\ chain n Pm nm /\
    dict_get x (transitions nm) = Some tr /\ can_be_pruned so si tr nm = Ok false /\ later x nm n1;
  pr_source : forall t s, In (t, s) P -> ~ source n s }.
Lemma prune_ok ord n : any_order ord -> wf n -> exists P n1 n', prune ord n = Ok n' /\ pruned n P n1 n'.
Proof.
  intros HO W. unfold prune. destruct (get_source_sink_places n) as [so si] eqn:Ess.
  destruct (prune_loop ord so si n HO W (keys (transitions n)) [] [] n eq_refl (ch_nil n)) as (P & n1 & E & C & Hso & _ & KL); [intros x []|intros t s []|].
  change (keep (map fst []) []) with (@nil string) in E. rewrite E. cbn [bind]. clear E.
  pose proof (chain_along n P n1 W C) as Al.
  set (ts := filter (fun '(id, _) => mem id (keep (map fst P) (keys (transitions n)))) (transitions n1)).
  assert (Hf : forall t, mem t (keep (map fst P) (keys (transitions n))) = true <-> has_transition n t /\ ~ In t (map fst P)).
  { intros t. unfold keep. rewrite mem_In, filter_In, negb_true_iff, mem_not_In. tauto. }
  assert (Gt : forall t, ~ In t (map fst P) -> dict_get t ts = dict_get t (transitions n1)).
  { intros t Ht. unfold ts. rewrite get_filter_key. destruct (mem t _) eqn:Em; [auto|].
    destruct (dict_get t (transitions n1)) as [tr|] eqn:Et; [|auto]. exfalso.
    rewrite (proj2 (Hf t)) in Em; [discriminate|]. split; [|auto]. unfold has_transition. rewrite <- (a_keys _ _ _ Al). eapply dict_get_Some_key; eauto. }
  assert (Gp : forall t, In t (map fst P) -> dict_get t ts = None).
  { intros t Ht. unfold ts. rewrite get_filter_key. destruct (mem t _) eqn:Em; [|auto]. apply Hf in Em. tauto. }
  assert (Kt : keys ts = keep (map fst P) (keys (transitions n))).
  { unfold ts. rewrite keys_filter_key. rewrite (a_keys _ _ _ Al). unfold keep.
    apply filter_ext_in. intros x Hx. destruct (mem x (map fst P)) eqn:Em; cbn [negb].
    - apply mem_not_In. rewrite filter_In, Em. intros [_ Hf']. discriminate.
    - apply mem_In. rewrite filter_In, Em. auto. }
  assert (Nt : NoDup (keys ts)) by (rewrite Kt; apply NoDup_filter, W).
  assert (In_ts : forall id t, In (id, t) ts -> dict_get id ts = Some t) by (intros; apply dict_In_get; auto).
  assert (Stn : forall vs ps t, starts (Net ps ts vs) t = starts n1 t /\ ends (Net ps ts vs) t = ends n1 t).
  { intros vs ps t. unfold starts at 1, ends at 1. cbn [transitions]. destruct (in_dec string_dec t (map fst P)) as [Hp|Hp].
    - rewrite (Gp t Hp). destruct (a_gone _ _ _ Al t Hp) as [-> ->]. auto.
    - rewrite (Gt t Hp). auto. }
  destruct (collect_all ord (places n1) ts HO []) as (ps & E & Np & Gps).
  { intros id t p Hin Hp. apply In_ts in Hin.
    assert (Hnp : ~ In id (map fst P)) by (intros Hp'; rewrite (Gp id Hp') in Hin; discriminate).
    rewrite (Gt id Hnp) in Hin. apply in_app_or in Hp. destruct Hp as [Hp|Hp].
    - apply (w_sp n1 (a_wf _ _ _ Al) id). unfold starts. rewrite Hin. auto.
    - apply (w_ep n1 (a_wf _ _ _ Al) id). unfold ends. rewrite Hin. auto. }
  { constructor. }
  rewrite E. cbn [bind]. exists P, n1, (Net ps ts (variables n1)). split; [reflexivity|].
  assert (At : forall p, (before_some n1 p \/ behind_some n1 p) <-> exists id t, In (id, t) ts /\ In p (t_start t ++ t_end t)).
  { intros p. split.
    - intros Hp. assert (X : exists id, In p (starts n1 id) \/ In p (ends n1 id)) by (destruct Hp as [[id Hp]|[id Hp]]; eauto).
      destruct X as [id X]. destruct (in_dec string_dec id (map fst P)) as [Hi|Hi].
      { destruct (a_gone _ _ _ Al id Hi) as [E1 E2]. rewrite E1, E2 in X. destruct X as [[]|[]]. }
      unfold starts, ends in X. destruct (dict_get id (transitions n1)) as [t|] eqn:Et; [|destruct X as [[]|[]]].
      rewrite <- (Gt id Hi) in Et. exists id, t. split; [apply dict_get_In; auto|]. apply in_or_app; auto.
    - intros (id & t & Hin & Hp). apply In_ts in Hin.
      assert (Hnp : ~ In id (map fst P)) by (intros Hp'; rewrite (Gp id Hp') in Hin; discriminate).
      rewrite (Gt id Hnp) in Hin. apply in_app_or in Hp. destruct Hp as [Hp|Hp]; [left|right]; exists id; unfold starts, ends; rewrite Hin; auto. }
  set (n' := Net ps ts (variables n1)).
  assert (St : forall t, starts n' t = starts n1 t) by (intros t; apply (Stn (variables n1) ps t)).
  assert (En : forall t, ends n' t = ends n1 t) by (intros t; apply (Stn (variables n1) ps t)).
  assert (Bs : forall p, before_some n' p <-> before_some n1 p).
  { intros p. split; intros [t Ht]; exists t; rewrite St in *; auto. }
  assert (Hs : forall p, behind_some n' p <-> behind_some n1 p).
  { intros p. split; intros [t Ht]; exists t; rewrite En in *; auto. }
  assert (HP : forall p, has_place n' p <-> before_some n' p \/ behind_some n' p).
  { intros p. rewrite Bs, Hs. unfold has_place, n'. cbn [places]. split.
    - intros Hp. apply At. apply dict_get_key in Hp. destruct Hp as [pl Ep].
      destruct (Gps p) as [_ G]. 
      assert (D : (before_some n1 p \/ behind_some n1 p) \/ ~ (before_some n1 p \/ behind_some n1 p)).
      { assert (D0 : forall (l : dict string transition), (exists id t, In (id, t) l /\ In p (t_start t ++ t_end t)) \/ ~ (exists id t, In (id, t) l /\ In p (t_start t ++ t_end t))).
        { clear. induction l as [|[i u] ts [IH|IH]].
          - right. intros (? & ? & [] & _).
          - left. destruct IH as (i' & u' & A & B). exists i', u'. cbn; auto.
          - destruct (in_dec string_dec p (t_start u ++ t_end u)) as [Hp|Hp].
            + left. exists i, u. cbn; auto.
            + right. intros (i' & u' & [E|A] & B); [injection E as <- <-; auto|]. apply IH. eauto. }
        rewrite (At p). apply D0. }
      destruct D as [D|D]; [apply At; auto|]. rewrite G in Ep; [discriminate|]. rewrite <- At. auto.
    - intros Hp. assert (Hk : In p (keys (places n1))) by (destruct Hp as [[t Hp]|[t Hp]]; [eapply (w_sp n1 (a_wf _ _ _ Al))|eapply (w_ep n1 (a_wf _ _ _ Al))]; eauto).
      apply dict_get_key in Hk. destruct Hk as [pl Ek]. apply At in Hp. destruct (Gps p) as [G _]. rewrite <- (G Hp) in Ek. eapply dict_get_Some_key; eauto. }
  assert (PP : forall p, has_place n' p -> dict_get p (places n') = dict_get p (places n1)).
  { intros p Hp. apply HP in Hp. rewrite Bs, Hs in Hp. apply (Gps p). apply At. auto. }
  constructor; auto.
  - constructor.
    + exact Np.
    + exact Nt.
    + intros t. rewrite St. apply (a_wf _ _ _ Al).
    + intros t. rewrite En. apply (a_wf _ _ _ Al).
    + intros t p Hp. apply HP. left. exists t. auto.
    + intros t p Hp. apply HP. right. exists t. auto.
    + intros p pl Ep. assert (Hk : has_place n' p) by (eapply dict_get_Some_key; eauto). rewrite (PP p Hk) in Ep.
      destruct (w_pt n1 (a_wf _ _ _ Al) p pl Ep) as (A & B & D). split; [auto|]. split; [auto|]. intros t. rewrite D.
      rewrite St. tauto.
  - intros t. unfold has_transition, n'. cbn [transitions]. rewrite Kt. unfold keep. rewrite filter_In, negb_true_iff, mem_not_In. tauto.
  - unfold n'. cbn [variables]. apply (a_vars _ _ _ Al).
  - intros x. unfold has_transition, n'. cbn [transitions]. rewrite Kt. unfold keep. rewrite filter_In, negb_true_iff, mem_not_In. intros [Hx Hn].
    destruct (KL x Hx Hn) as (Pm & nm & tr & A1 & A2 & A3 & A4). exists so, si, Pm, nm, tr. auto.
  - intros t s Hin Hs'. apply (Hso t s Hin). apply (source_sink_ok n so si (w_trans n W) Ess). exact Hs'.
Qed.
