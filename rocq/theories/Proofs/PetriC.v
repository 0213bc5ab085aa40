From Coq Require Import String Permutation ZArith.
From Verif.Model Require Import Base PetriNet.
From Verif.Spec Require Import PetriSpec.
From Verif.Lib Require Import ListLib DictLib.
From Verif.Proofs Require Import PetriA PetriB.
Open Scope list_scope.
Open Scope nat_scope.

Section Mid.
  Context {K V : Type} `{Eq K}.
  Lemma get_mid (l m : dict K V) k v : ~ In k (keys l) -> dict_get k (l ++ (k, v) :: m) = Some v.
  Proof.
    induction l as [|[k' v'] l IH]; cbn [app dict_get keys map fst In]; intros Hn; [rewrite eqb_refl; auto|].
    destruct (eqb_ok k k') as [->|]; [tauto|]. apply IH. tauto.
  Qed.
  Lemma set_mid (l m : dict K V) k v v' : ~ In k (keys l) -> dict_set k v' (l ++ (k, v) :: m) = l ++ (k, v') :: m.
  Proof.
    induction l as [|[k1 v1] l IH]; cbn [app dict_set keys map fst In]; intros Hn; [rewrite eqb_refl; auto|].
    destruct (eqb_ok k k1) as [->|]; [tauto|]. f_equal. apply IH. tauto.
  Qed.
  Lemma set_fresh (l : dict K V) k v : ~ In k (keys l) -> dict_set k v l = l ++ [(k, v)].
  Proof.
    induction l as [|[k1 v1] l IH]; cbn [app dict_set keys map fst In]; intros Hn; [auto|].
    destruct (eqb_ok k k1) as [->|]; [tauto|]. f_equal. apply IH. tauto.
  Qed.
End Mid.
Lemma keys_app {K V} (l m : dict K V) : keys (l ++ m) = keys l ++ keys m.
Proof. apply map_app. Qed.
Lemma set_add_fresh {X} `{Eq X} (x : X) l : ~ In x l -> set_add x l = l ++ [x].
Proof. intros Hn. unfold set_add. rewrite (proj2 (mem_not_In x l)); auto. Qed.
Lemma NoDup_mid_l {X} (l m : list X) x : NoDup (l ++ x :: m) -> ~ In x l.
Proof. intros N Hin. apply NoDup_remove_2 in N. apply N. apply in_or_app; auto. Qed.

Definition strip_p (e : string * place) := (fst e, Place (p_label (snd e)) (p_tokens (snd e)) []).
Definition strip_t (e : string * transition) :=
  (fst e, Transition (t_label (snd e)) (t_visible (snd e)) [] [] (t_guard (snd e))).
Lemma keys_strip_p d : keys (map strip_p d) = keys d.
Proof. unfold keys. rewrite map_map. auto. Qed.
Lemma keys_strip_t d : keys (map strip_t d) = keys d.
Proof. unfold keys. rewrite map_map. auto. Qed.

Lemma copy1 rest : forall done, NoDup (keys (done ++ rest)) -> (forall e, In e rest -> (0 <= p_tokens (snd e))%Z) ->
  foldM (fun c '(id, p) => add_place id (p_label p) (p_tokens p) c) rest (Net (map strip_p done) [] []) = Ok (Net (map strip_p (done ++ rest)) [] []).
Proof.
  induction rest as [|[id p] rest IH]; intros done N T; cbn [foldM].
  - rewrite app_nil_r. auto.
  - assert (Hn : ~ In id (keys done)) by (rewrite keys_app in N; cbn in N; eapply NoDup_mid_l; eauto).
    unfold add_place at 1. specialize (T (id, p) (or_introl eq_refl)) as Tp. cbn in Tp. destruct (Z.ltb_spec (p_tokens p) 0); [lia|].
    cbn [places transitions variables]. destruct (dict_has id (map strip_p done)) eqn:Eh.
    { apply dict_has_In in Eh. rewrite keys_strip_p in Eh. contradiction. }
    cbn [bind]. rewrite set_fresh by (rewrite keys_strip_p; auto).
    specialize (IH (done ++ [(id, p)])). rewrite <- app_assoc in IH. rewrite map_app in IH. cbn [map strip_p fst snd app] in IH.
    unfold strip_p at 2 in IH. cbn [fst snd] in IH. apply IH; auto. intros; apply T; cbn; auto.
Qed.
Lemma copy2 P rest : forall done, NoDup (keys (done ++ rest)) ->
  foldM (fun c '(id, t) =>
      do c' <- add_transition id (Some (t_label t)) (t_visible t) c ;
      set_guard_function id (Some (t_guard t)) c') rest (Net P (map strip_t done) []) = Ok (Net P (map strip_t (done ++ rest)) []).
Proof.
  induction rest as [|[id t] rest IH]; intros done N; cbn [foldM].
  - rewrite app_nil_r. auto.
  - assert (Hn : ~ In id (keys done)) by (rewrite keys_app in N; cbn in N; eapply NoDup_mid_l; eauto).
    unfold add_transition at 1. cbn [places transitions variables]. destruct (dict_has id (map strip_t done)) eqn:Eh.
    { apply dict_has_In in Eh. rewrite keys_strip_t in Eh. contradiction. }
    cbn [bind]. rewrite set_fresh by (rewrite keys_strip_t; auto). unfold set_guard_function at 1. cbn [places transitions variables].
    rewrite get_mid by (rewrite keys_strip_t; auto). cbn [of_option bind t_label t_visible t_start t_end].
    rewrite set_mid by (rewrite keys_strip_t; auto).
    specialize (IH (done ++ [(id, t)])). rewrite <- app_assoc in IH. rewrite map_app in IH. cbn [map app] in IH.
    unfold strip_t at 2 in IH. cbn [fst snd] in IH. apply IH; auto.
Qed.
Lemma copy3_inner id l k D M T todo : ~ In id (keys D) -> forall acc, NoDup (acc ++ todo) -> (forall t, In t todo -> In t (keys T)) ->
  foldM (fun c t =>
        do pl <- of_option KeyError (dict_get id (places c)) ;
        do _ <- of_option KeyError (dict_get t (transitions c)) ;
        Ok (Net (dict_set id (Place (p_label pl) (p_tokens pl) (set_add t (p_transitions pl))) (places c)) (transitions c) (variables c)))
      todo (Net (D ++ (id, Place l k acc) :: M) T []) = Ok (Net (D ++ (id, Place l k (acc ++ todo)) :: M) T []).
Proof.
  intros Hn. induction todo as [|t todo IH]; intros acc N Ht; cbn [foldM].
  - rewrite app_nil_r. auto.
  - cbn [places transitions variables]. rewrite get_mid by auto. cbn [of_option bind].
    destruct (dict_get_key T t) as [tr Et]; [apply Ht; cbn; auto|]. rewrite Et. cbn [of_option bind p_label p_tokens p_transitions].
    rewrite set_mid by auto. rewrite set_add_fresh by (eapply NoDup_mid_l; eauto).
    specialize (IH (acc ++ [t])). rewrite <- app_assoc in IH. apply IH; auto. intros; apply Ht; cbn; auto.
Qed.
Lemma copy3 T rest : forall done, NoDup (keys (done ++ rest)) ->
  (forall e, In e rest -> NoDup (p_transitions (snd e)) /\ forall t, In t (p_transitions (snd e)) -> In t (keys T)) ->
  foldM (fun c '(id, p) =>
      foldM (fun c t =>
        do pl <- of_option KeyError (dict_get id (places c)) ;
        do _ <- of_option KeyError (dict_get t (transitions c)) ;
        Ok (Net (dict_set id (Place (p_label pl) (p_tokens pl) (set_add t (p_transitions pl))) (places c)) (transitions c) (variables c)))
      (p_transitions p) c) rest (Net (done ++ map strip_p rest) T []) = Ok (Net (done ++ rest) T []).
Proof.
  induction rest as [|[id p] rest IH]; intros done N Hr; cbn [foldM map]; auto.
  assert (Hn : ~ In id (keys done)) by (rewrite keys_app in N; cbn in N; eapply NoDup_mid_l; eauto).
  destruct (Hr (id, p) (or_introl eq_refl)) as [Np Tp]. cbn [snd] in Np, Tp. unfold strip_p at 1. cbn [fst snd].
  rewrite copy3_inner by auto. cbn [app bind]. specialize (IH (done ++ [(id, p)])). rewrite <- !app_assoc in IH. cbn [app] in IH.
  replace (Place (p_label p) (p_tokens p) (p_transitions p)) with p by (destruct p; auto). apply IH; auto. intros; apply Hr; cbn; auto.
Qed.
Lemma copy4_start id l v e g P D M todo : ~ In id (keys D) -> forall acc, NoDup (acc ++ todo) -> (forall p, In p todo -> In p (keys P)) ->
  foldM (fun c p =>
        do tr <- of_option KeyError (dict_get id (transitions c)) ;
        do _ <- of_option KeyError (dict_get p (places c)) ;
        Ok (Net (places c) (dict_set id (Transition (t_label tr) (t_visible tr) (set_add p (t_start tr)) (t_end tr) (t_guard tr)) (transitions c)) (variables c)))
      todo (Net P (D ++ (id, Transition l v acc e g) :: M) []) = Ok (Net P (D ++ (id, Transition l v (acc ++ todo) e g) :: M) []).
Proof.
  intros Hn. induction todo as [|t todo IH]; intros acc N Ht; cbn [foldM].
  - rewrite app_nil_r. auto.
  - cbn [places transitions variables]. rewrite get_mid by auto. cbn [of_option bind].
    destruct (dict_get_key P t) as [tr Et]; [apply Ht; cbn; auto|]. rewrite Et. cbn [of_option bind t_label t_visible t_start t_end t_guard].
    rewrite set_mid by auto. rewrite set_add_fresh by (eapply NoDup_mid_l; eauto).
    specialize (IH (acc ++ [t])). rewrite <- app_assoc in IH. apply IH; auto. intros; apply Ht; cbn; auto.
Qed.
Lemma copy4_end id l v s g P D M todo : ~ In id (keys D) -> forall acc, NoDup (acc ++ todo) -> (forall p, In p todo -> In p (keys P)) ->
  foldM (fun c p =>
        do tr <- of_option KeyError (dict_get id (transitions c)) ;
        do _ <- of_option KeyError (dict_get p (places c)) ;
        Ok (Net (places c) (dict_set id (Transition (t_label tr) (t_visible tr) (t_start tr) (set_add p (t_end tr)) (t_guard tr)) (transitions c)) (variables c)))
      todo (Net P (D ++ (id, Transition l v s acc g) :: M) []) = Ok (Net P (D ++ (id, Transition l v s (acc ++ todo) g) :: M) []).
Proof.
  intros Hn. induction todo as [|t todo IH]; intros acc N Ht; cbn [foldM].
  - rewrite app_nil_r. auto.
  - cbn [places transitions variables]. rewrite get_mid by auto. cbn [of_option bind].
    destruct (dict_get_key P t) as [tr Et]; [apply Ht; cbn; auto|]. rewrite Et. cbn [of_option bind t_label t_visible t_start t_end t_guard].
    rewrite set_mid by auto. rewrite set_add_fresh by (eapply NoDup_mid_l; eauto).
    specialize (IH (acc ++ [t])). rewrite <- app_assoc in IH. apply IH; auto. intros; apply Ht; cbn; auto.
Qed.
Lemma copy4 P rest : forall done, NoDup (keys (done ++ rest)) ->
  (forall e, In e rest -> NoDup (t_start (snd e)) /\ NoDup (t_end (snd e)) /\
     (forall p, In p (t_start (snd e)) -> In p (keys P)) /\ forall p, In p (t_end (snd e)) -> In p (keys P)) ->
  foldM (fun c '(id, t) =>
      do c1 <- foldM (fun c p =>
        do tr <- of_option KeyError (dict_get id (transitions c)) ;
        do _ <- of_option KeyError (dict_get p (places c)) ;
        Ok (Net (places c) (dict_set id (Transition (t_label tr) (t_visible tr) (set_add p (t_start tr)) (t_end tr) (t_guard tr)) (transitions c)) (variables c)))
      (t_start t) c ;
      foldM (fun c p =>
        do tr <- of_option KeyError (dict_get id (transitions c)) ;
        do _ <- of_option KeyError (dict_get p (places c)) ;
        Ok (Net (places c) (dict_set id (Transition (t_label tr) (t_visible tr) (t_start tr) (set_add p (t_end tr)) (t_guard tr)) (transitions c)) (variables c)))
      (t_end t) c1) rest (Net P (done ++ map strip_t rest) []) = Ok (Net P (done ++ rest) []).
Proof.
  induction rest as [|[id t] rest IH]; intros done N Hr; cbn [foldM map]; auto.
  assert (Hn : ~ In id (keys done)) by (rewrite keys_app in N; cbn in N; eapply NoDup_mid_l; eauto).
  destruct (Hr (id, t) (or_introl eq_refl)) as (N1 & N2 & P1 & P2). cbn [snd] in *. unfold strip_t at 1. cbn [fst snd].
  rewrite copy4_start by auto. cbn [app bind]. rewrite copy4_end by auto. cbn [app bind].
  specialize (IH (done ++ [(id, t)])). rewrite <- !app_assoc in IH. cbn [app] in IH.
  replace (Transition (t_label t) (t_visible t) (t_start t) (t_end t) (t_guard t)) with t by (destruct t; auto).
  apply IH; auto. intros; apply Hr; cbn; auto.
Qed.
Lemma copy_ok st n : wf n -> copy st n = Ok (Net (places n) (transitions n)
    (map (fun '(i, (name, _)) => (name, length st + i)) (combine (seq 0 (length (variables n))) (variables n))),
    st ++ map (fun '(_, r) => value st r) (variables n)).
Proof.
  intros W. unfold copy, new_net.
  assert (Gp : forall e, In e (places n) -> dict_get (fst e) (places n) = Some (snd e)).
  { intros [id p] He. apply dict_In_get; auto. apply (w_places n W). }
  assert (Gt : forall e, In e (transitions n) -> starts n (fst e) = t_start (snd e) /\ ends n (fst e) = t_end (snd e)).
  { intros [id t] He. unfold starts, ends. cbn [fst snd]. rewrite (dict_In_get _ _ _ (w_trans n W) He). auto. }
  pose proof (copy1 (places n) []) as C1. cbn [map app] in C1. rewrite C1; clear C1; [|apply (w_places n W)|intros e He; apply (w_pt n W _ _ (Gp e He))]. cbn [bind app].
  pose proof (copy2 (map strip_p (places n)) (transitions n) []) as C1. cbn [map app] in C1. rewrite C1; clear C1; [|apply (w_trans n W)]. cbn [bind app].
  pose proof (copy3 (map strip_t (transitions n)) (places n) []) as C1. cbn [map app] in C1. rewrite C1; clear C1; [|apply (w_places n W)|].
  2:{ intros e He. destruct (w_pt n W _ _ (Gp e He)) as (Q1 & _ & Q3). split; [auto|]. intros t Ht. apply Q3 in Ht.
      rewrite keys_strip_t. eapply starts_has; eauto. }
  cbn [bind app]. pose proof (copy4 (places n) (transitions n) []) as C1. cbn [map app] in C1. rewrite C1; clear C1; [|apply (w_trans n W)|].
  2:{ intros e He. destruct (Gt e He) as [E1 E2]. rewrite <- E1, <- E2. split; [apply w_start; auto|]. split; [apply w_end; auto|].
      split; [apply (w_sp n W)|apply (w_ep n W)]. }
  reflexivity.
Qed.
Lemma wf_vars P T v v' : wf (Net P T v) -> wf (Net P T v').
Proof. intros [W1 W2 W3 W4 W5 W6 W7]. constructor; auto. Qed.
Lemma wf_copy st n n' st' : wf n -> copy st n = Ok (n', st') -> wf n' /\ places n' = places n /\ transitions n' = transitions n.
Proof.
  intros W E. rewrite copy_ok in E by auto. injection E as <- <-. cbn. split; [|auto]. destruct n as [P T v]. apply (wf_vars P T v). auto.
Qed.

(** sources and sinks *)
Lemma flat_starts n p : NoDup (keys (transitions n)) -> In p (flat_map t_start (values (transitions n))) <-> before_some n p.
Proof.
  intros N. rewrite in_flat_map. unfold before_some, starts, values. split.
  - intros (t & Ht & Hp). apply in_map_iff in Ht. destruct Ht as ([id t'] & <- & Hin). exists id. rewrite (dict_In_get _ _ _ N Hin). auto.
  - intros (id & Hp). destruct (dict_get id (transitions n)) as [t|] eqn:E; [|contradiction]. exists t. split; [|auto].
    apply dict_get_In in E. apply (in_map snd) in E. auto.
Qed.
Lemma flat_ends n p : NoDup (keys (transitions n)) -> In p (flat_map t_end (values (transitions n))) <-> behind_some n p.
Proof.
  intros N. rewrite in_flat_map. unfold behind_some, ends, values. split.
  - intros (t & Ht & Hp). apply in_map_iff in Ht. destruct Ht as ([id t'] & <- & Hin). exists id. rewrite (dict_In_get _ _ _ N Hin). auto.
  - intros (id & Hp). destruct (dict_get id (transitions n)) as [t|] eqn:E; [|contradiction]. exists t. split; [|auto].
    apply dict_get_In in E. apply (in_map snd) in E. auto.
Qed.
Lemma source_sink_ok n so si : NoDup (keys (transitions n)) -> get_source_sink_places n = (so, si) ->
  NoDup so /\ NoDup si /\ (forall p, In p so <-> before_some n p /\ ~ behind_some n p) /\
  (forall p, In p si <-> behind_some n p /\ ~ before_some n p).
Proof.
  intros N E. unfold get_source_sink_places in E. injection E as <- <-.
  split; [apply NoDup_filter, set_of_NoDup|]. split; [apply NoDup_filter, set_of_NoDup|].
  split; intros p; rewrite filter_In, set_of_In, negb_true_iff, mem_not_In, set_of_In, flat_starts, flat_ends by auto; tauto.
Qed.
Lemma size1 {X} (l : list X) x : NoDup l -> (forall y, In y l <-> y = x) -> length l = 1.
Proof.
  intros N E. assert (P : Permutation l [x]).
  { apply NoDup_Permutation; auto; [constructor; [tauto|constructor]|]. intros y. rewrite E. cbn. split; [intros ->; auto|intros [->|[]]; auto]. }
  rewrite (Permutation_length P). auto.
Qed.

(** fresh ids *)
Lemma str_app_nil_r s : (s ++ "")%string = s.
Proof. induction s; cbn; congruence. Qed.
Lemma str_app_length s t : String.length (s ++ t)%string = String.length s + String.length t.
Proof. induction s; cbn; auto. Qed.
Lemma quoted_length id k : String.length (quoted id k) = String.length id + k.
Proof. induction k as [|k IH]; cbn; [lia|]. rewrite str_app_length, IH. cbn. lia. Qed.
Lemma unique_from_ok fuel : forall k0 id ex, (forall j, j < k0 -> In (quoted id j) ex) -> length ex <= k0 + fuel ->
  exists k, unique_from fuel (quoted id k0) ex = Ok (quoted id k) /\ ~ In (quoted id k) ex /\ forall j, j < k -> In (quoted id j) ex.
Proof.
  induction fuel as [|fuel IH]; intros k0 id ex Hin Hl; cbn [unique_from]; destruct (mem (quoted id k0) ex) eqn:Em.
  - exfalso. apply mem_In in Em.
    assert (N : NoDup (map (quoted id) (seq 0 (Datatypes.S k0)))).
    { apply FinFun.Injective_map_NoDup; [|apply seq_NoDup]. intros a b E. apply (f_equal String.length) in E. rewrite !quoted_length in E. lia. }
    assert (I : incl (map (quoted id) (seq 0 (Datatypes.S k0))) ex).
    { intros x Hx. apply in_map_iff in Hx. destruct Hx as (j & <- & Hj). apply in_seq in Hj.
      destruct (Nat.eq_dec j k0) as [->|]; [auto|]. apply Hin. lia. }
    pose proof (NoDup_incl_length N I) as L. rewrite map_length, seq_length in L. lia.
  - apply mem_not_In in Em. exists k0. auto.
  - apply mem_In in Em. change (quoted id k0 ++ "'")%string with (quoted id (Datatypes.S k0)). apply IH; [|lia].
    intros j Hj. destruct (Nat.eq_dec j k0) as [->|]; [auto|]. apply Hin. lia.
  - apply mem_not_In in Em. exists k0. auto.
Qed.
Lemma make_id_unique_ok id ex : exists k, make_id_unique id ex = Ok (quoted id k) /\ ~ In (quoted id k) ex /\
  forall j, j < k -> In (quoted id j) ex.
Proof. apply (unique_from_ok (length ex) 0 id ex); [lia|auto]. Qed.

(** the transformation *)
Lemma extends_refl n : extends n n [].
Proof.
  split; [auto|]. split; [|split; [auto|intros; cbn; tauto]]. intros t tr E Hn. exfalso. apply Hn. eapply dict_get_Some_key; eauto.
Qed.
Lemma extends_trans n m k l1 l2 : extends n m l1 -> extends m k l2 -> extends n k (l1 ++ l2).
Proof.
  intros (A1 & A2 & A3 & A4) (B1 & B2 & B3 & B4). split; [auto|]. split; [|split].
  - intros t tr E Hn. destruct (dict_get t (transitions m)) as [tr'|] eqn:Em.
    + rewrite (B1 _ _ Em) in E. injection E as <-. eauto.
    + apply (B2 t); auto. apply dict_get_None. auto.
  - intros p. rewrite B3. auto.
  - intros p. rewrite B4, A4, in_app_iff. tauto.
Qed.
Lemma one_place new n : wf n -> ~ has_place n new -> exists n', add_place new "" 0 n = Ok n' /\ wf n' /\ extends n n' [new] /\
  (forall t, starts n' t = starts n t) /\ (forall t, ends n' t = ends n t) /\ keys (transitions n') = keys (transitions n).
Proof.
  intros W Hn. destruct (add_place new "" 0 n) as [n'|e] eqn:E.
  - exists n'. split; [auto|]. destruct (wf_place _ _ _ _ _ W E) as (W' & _ & Et & Ev & Hp & T & T'). split; [auto|]. split.
    + unfold extends. rewrite Et. split; [auto|]. split; [|split].
      * intros t tr Eg Hno. exfalso. apply Hno. eapply dict_get_Some_key; eauto.
      * intros p. destruct (eq_dec_of p new) as [->|]; [|auto]. rewrite T'. unfold tokens.
        rewrite (proj2 (dict_get_None (places n) new) Hn). auto.
      * intros p. rewrite Hp. cbn. split; [intros [->|]; auto|intros [?|[->|[]]]; auto].
    + unfold starts, ends. rewrite Et. auto.
  - exfalso. unfold add_place in E. cbn in E. destruct (dict_has new (places n)) eqn:Eh; [|discriminate].
    apply dict_has_In in Eh. contradiction.
Qed.
Lemma one_connection t s e n : wf n -> ~ has_transition n t -> has_place n s -> has_place n e ->
  exists n1 n', add_transition t None false n = Ok n1 /\ add_connection s t e n1 = Ok n' /\ wf n' /\ extends n n' [] /\
   (forall u p, In p (starts n' u) <-> In p (starts n u) \/ (u = t /\ p = s)) /\
   (forall u p, In p (ends n' u) <-> In p (ends n u) \/ (u = t /\ p = e)) /\
   (forall u, has_transition n' u <-> u = t \/ has_transition n u).
Proof.
  intros W Ht Hs He. destruct (add_transition t None false n) as [n1|err] eqn:E1.
  2:{ unfold add_transition in E1. destruct (dict_has t (transitions n)) eqn:Eh; [|discriminate]. apply dict_has_In in Eh. contradiction. }
  destruct (wf_transition _ _ _ _ _ W E1) as (W1 & _ & Ep & Ev & Gt & Es & Ee). exists n1.
  assert (Ht1 : forall u, has_transition n1 u <-> u = t \/ has_transition n u).
  { intros u. unfold has_transition. rewrite !dict_get_Some_iff, Gt. destruct (eqb_ok u t) as [->|]; [split; eauto|]. intuition congruence. }
  destruct (add_connection s t e n1) as [n'|err] eqn:E2.
  2:{ exfalso. unfold add_connection in E2. rewrite Ep in E2.
      destruct (dict_get_key (places n) s Hs) as [x Ex]. destruct (dict_get_key (places n) e He) as [y Ey].
      rewrite Ex, Ey, Gt, eqb_refl in E2. discriminate. }
  exists n'. split; [auto|]. split; [auto|]. pose proof (wf_connection _ _ _ _ _ W1 E2) as (W2 & _ & _ & _ & Hp2 & Ht2 & T2 & S2 & N2).
  apply connection_ok in E2. destruct E2 as (_ & _ & _ & _ & _ & _ & tr & Etr & Gt2). split; [auto|]. split; [|split; [|split]].
  - split; [|split; [|split]].
    + intros u x Eu. rewrite Gt2, Gt. destruct (eqb_ok u t) as [->|]; [|auto]. exfalso. apply Ht. eapply dict_get_Some_key; eauto.
    + intros u x Eu Hn. rewrite Gt2 in Eu. rewrite Gt, eqb_refl in Etr. injection Etr as <-.
      destruct (eqb_ok u t) as [->|]; [injection Eu as <-; auto|]. rewrite Gt in Eu. destruct (eqb_ok u t); [contradiction|].
      exfalso. apply Hn. eapply dict_get_Some_key; eauto.
    + intros p. rewrite T2. unfold tokens. rewrite Ep. auto.
    + intros p. rewrite Hp2. unfold has_place. rewrite Ep. cbn. tauto.
  - intros u p. rewrite S2, Es. tauto.
  - intros u p. rewrite N2, Ee. tauto.
  - intros u. rewrite Ht2. auto.
Qed.
Lemma new_source_ok l n : wf n -> NoDup l -> l <> [] -> (forall p, In p l -> has_place n p) ->
  let new := String.concat "," l in
  match introduce_new_source_place l n with
  | Ok n' => ~ has_place n new /\ (forall p, In p l -> ~ has_transition n p) /\ wf n' /\ extends n n' [new] /\
      (forall p, before_some n' p <-> before_some n p \/ p = new) /\ (forall p, behind_some n' p <-> behind_some n p \/ In p l)
  | Err e => e = ValueError /\ (has_place n new \/ exists p, In p l /\ has_transition n p)
  end.
Proof.
  intros W N Hne Hl new. unfold introduce_new_source_place. fold new.
  destruct (in_dec string_dec new (keys (places n))) as [Hnew|Hnew].
  { unfold add_place. cbn [Z.ltb]. change (0 ?= 0)%Z with Datatypes.Eq. cbn. rewrite (proj2 (dict_has_In (places n) new) Hnew). cbn. auto. }
  destruct (one_place new n W Hnew) as (n1 & E1 & W1 & X1 & S1 & N1 & K1). rewrite E1. cbn [bind].
  assert (Hb1 : forall p, before_some n1 p <-> before_some n p) by (intros p; unfold before_some; split; intros [t Ht]; exists t; rewrite S1 in *; auto).
  assert (Hn1 : forall p, behind_some n1 p <-> behind_some n p) by (intros p; unfold behind_some; split; intros [t Ht]; exists t; rewrite N1 in *; auto).
  assert (G : forall rest done m, l = done ++ rest -> wf m -> extends n1 m [] -> 
     (forall p, In p done -> ~ has_transition n1 p) -> (forall u, has_transition m u <-> In u done \/ has_transition n1 u) ->
     (forall p, before_some m p <-> before_some n1 p \/ (done <> [] /\ p = new)) -> (forall p, behind_some m p <-> behind_some n1 p \/ In p done) ->
     match foldM (fun n p => do n' <- add_transition p None false n ; add_connection new p p n') rest m with
     | Ok n' => (forall p, In p l -> ~ has_transition n1 p) /\ wf n' /\ extends n1 n' [] /\ (forall p, before_some n' p <-> before_some n1 p \/ (l <> [] /\ p = new)) /\
         (forall p, behind_some n' p <-> behind_some n1 p \/ In p l)
     | Err e => e = ValueError /\ exists p, In p l /\ has_transition n1 p
     end).
  { induction rest as [|p rest IH]; intros done m E Wm Xm Hd Hm Bm Nm; cbn [foldM].
    - rewrite app_nil_r in E. subst done. auto.
    - assert (Hp : ~ In p done) by (rewrite E in N; eapply NoDup_mid_l; eauto).
      destruct (in_dec string_dec p (keys (transitions n1))) as [Ht|Ht].
      + unfold add_transition at 1. rewrite (proj2 (dict_has_In (transitions m) p)); [|apply Hm; right; exact Ht]. cbn [bind].
        split; [auto|]. exists p. rewrite E. split; [apply in_or_app; cbn; auto|exact Ht].
      + destruct (one_connection p new p m Wm) as (m1 & m2 & Ea & Eb & W2 & X2 & S2 & N2 & H2).
        * rewrite Hm. tauto.
        * apply Xm. left. apply X1. cbn; auto.
        * apply Xm. left. apply X1. left. apply Hl. rewrite E. apply in_or_app; cbn; auto.
        * rewrite Ea. cbn [bind]. rewrite Eb. cbn [bind]. apply (IH (done ++ [p])); auto.
          -- rewrite <- app_assoc. auto.
          -- apply (extends_trans _ _ _ _ _ Xm X2).
          -- intros q Hq. apply in_app_or in Hq. destruct Hq as [Hq|[<-|[]]]; auto.
          -- intros u. rewrite H2, Hm, in_app_iff. cbn. intuition congruence.
          -- intros q. unfold before_some in *. split.
             ++ intros [u Hu]. apply S2 in Hu. destruct Hu as [Hu|[_ ->]].
                ** destruct (proj1 (Bm q) (ex_intro _ u Hu)) as [B|[_ ->]]; [auto|]. right. split; [destruct done; discriminate|auto].
                ** right. split; [destruct done; discriminate|auto].
             ++ intros [B|[_ ->]].
                ** destruct (proj2 (Bm q) (or_introl B)) as [u Hu]. exists u. apply S2. auto.
                ** exists p. apply S2. auto.
          -- intros q. unfold behind_some in *. rewrite in_app_iff. split.
             ++ intros [u Hu]. apply N2 in Hu. destruct Hu as [Hu|[_ ->]]; [|cbn; auto].
                destruct (proj1 (Nm q) (ex_intro _ u Hu)); auto.
             ++ intros [B|[B|[<-|[]]]].
                ** destruct (proj2 (Nm q) (or_introl B)) as [u Hu]. exists u. apply N2. auto.
                ** destruct (proj2 (Nm q) (or_intror B)) as [u Hu]. exists u. apply N2. auto.
                ** exists p. apply N2. auto. }
  assert (Ht1 : forall u, has_transition n1 u <-> has_transition n u) by (intros u; unfold has_transition; rewrite K1; tauto).
  specialize (G l [] n1 eq_refl W1 (extends_refl n1)).
  specialize (G ltac:(intros ? []) ltac:(intros; cbn; tauto) ltac:(intros; intuition congruence) ltac:(intros; cbn; tauto)).
  match type of G with match ?x with _ => _ end => destruct x as [n'|e] end.
  - destruct G as (G1 & G2 & G3 & G4 & G5). split; [auto|]. split; [intros p Hp; rewrite <- Ht1; auto|]. split; [auto|].
    split; [apply (extends_trans _ _ _ _ _ X1 G3)|]. split.
    + intros p. rewrite G4, Hb1. tauto.
    + intros p. rewrite G5, Hn1. tauto.
  - destruct G as (-> & p & Hp & Ht). split; [auto|]. right. exists p. rewrite <- Ht1. auto.
Qed.
Lemma new_sink_ok l n : wf n -> NoDup l -> l <> [] -> (forall p, In p l -> has_place n p) ->
  let new := String.concat "," l in
  match introduce_new_sink_place l n with
  | Ok n' => ~ has_place n new /\ wf n' /\ extends n n' [new] /\
      (forall p, before_some n' p <-> before_some n p \/ In p l) /\ (forall p, behind_some n' p <-> behind_some n p \/ p = new)
  | Err e => e = ValueError /\ has_place n new
  end.
Proof.
  intros W N Hne Hl new. unfold introduce_new_sink_place. fold new.
  destruct (in_dec string_dec new (keys (places n))) as [Hnew|Hnew].
  { unfold add_place. cbn [Z.ltb]. change (0 ?= 0)%Z with Datatypes.Eq. cbn. rewrite (proj2 (dict_has_In (places n) new) Hnew). cbn. auto. }
  destruct (one_place new n W Hnew) as (n1 & E1 & W1 & X1 & S1 & N1 & K1). rewrite E1. cbn [bind].
  assert (Hb1 : forall p, before_some n1 p <-> before_some n p) by (intros p; unfold before_some; split; intros [t Ht]; exists t; rewrite S1 in *; auto).
  assert (Hn1 : forall p, behind_some n1 p <-> behind_some n p) by (intros p; unfold behind_some; split; intros [t Ht]; exists t; rewrite N1 in *; auto).
  assert (G : forall rest done m, l = done ++ rest -> wf m -> extends n1 m [] -> 
     (forall p, behind_some m p <-> behind_some n1 p \/ (done <> [] /\ p = new)) -> (forall p, before_some m p <-> before_some n1 p \/ In p done) ->
     exists n', foldM (fun n p => do t <- make_id_unique p (keys (transitions n)) ; do n' <- add_transition t None false n ; add_connection p t new n') rest m = Ok n' /\
         wf n' /\ extends n1 n' [] /\ (forall p, behind_some n' p <-> behind_some n1 p \/ (l <> [] /\ p = new)) /\
         (forall p, before_some n' p <-> before_some n1 p \/ In p l)).
  { induction rest as [|p rest IH]; intros done m E Wm Xm Bm Nm; cbn [foldM].
    - rewrite app_nil_r in E. subst done. eauto 6.
    - destruct (make_id_unique_ok p (keys (transitions m))) as (k & Ek & Hk & _). rewrite Ek. cbn [bind].
      destruct (one_connection (quoted p k) p new m Wm) as (m1 & m2 & Ea & Eb & W2 & X2 & S2 & N2 & H2).
      * auto.
      * apply Xm. left. apply X1. left. apply Hl. rewrite E. apply in_or_app; cbn; auto.
      * apply Xm. left. apply X1. cbn; auto.
      * rewrite Ea. cbn [bind]. rewrite Eb. cbn [bind]. apply (IH (done ++ [p])); auto.
        -- rewrite <- app_assoc. auto.
        -- apply (extends_trans _ _ _ _ _ Xm X2).
        -- intros q. unfold behind_some in *. split.
           ++ intros [u Hu]. apply N2 in Hu. destruct Hu as [Hu|[_ ->]].
              ** destruct (proj1 (Bm q) (ex_intro _ u Hu)) as [B|[_ ->]]; [auto|]. right. split; [destruct done; discriminate|auto].
              ** right. split; [destruct done; discriminate|auto].
           ++ intros [B|[_ ->]].
              ** destruct (proj2 (Bm q) (or_introl B)) as [u Hu]. exists u. apply N2. auto.
              ** exists (quoted p k). apply N2. auto.
        -- intros q. unfold before_some in *. rewrite in_app_iff. split.
           ++ intros [u Hu]. apply S2 in Hu. destruct Hu as [Hu|[_ ->]]; [|cbn; auto].
              destruct (proj1 (Nm q) (ex_intro _ u Hu)); auto.
           ++ intros [B|[B|[<-|[]]]].
              ** destruct (proj2 (Nm q) (or_introl B)) as [u Hu]. exists u. apply S2. auto.
              ** destruct (proj2 (Nm q) (or_intror B)) as [u Hu]. exists u. apply S2. auto.
              ** exists (quoted p k). apply S2. auto. }
  specialize (G l [] n1 eq_refl W1 (extends_refl n1)).
  specialize (G ltac:(intros; intuition congruence) ltac:(intros; cbn; tauto)).
  destruct G as (n' & -> & G2 & G3 & G4 & G5). split; [auto|]. split; [auto|].
  split; [apply (extends_trans _ _ _ _ _ X1 G3)|]. split.
  - intros p. rewrite G5, Hb1. tauto.
  - intros p. rewrite G4, Hn1. tauto.
Qed.
