From Coq Require Import String Permutation ZArith.
From Verif.Model Require Import Base PetriNet.
From Verif.Spec Require Import PetriSpec.
From Verif.Lib Require Import ListLib DictLib.
From Verif.Proofs Require Import PetriA.
Open Scope list_scope.
Open Scope nat_scope.

(** selection *)
Lemma guard_get n t tr : dict_get t (transitions n) = Some tr -> guard_of n t = t_guard tr.
Proof. intros E. unfold guard_of. rewrite E. auto. Qed.
Lemma fireable_ok st n l : (forall t, In t l -> has_transition n t) -> NoDup l ->
  match fireable st n l with
  | Ok r => NoDup r /\ forall t, In t r <-> In t l /\ accept st (guard_of n t) = Ok true
  | Err e => exists t, In t l /\ accept st (guard_of n t) = Err e
  end.
Proof.
  induction l as [|t l IH]; intros Hl N; cbn [fireable].
  - split; [constructor|]. intros t. cbn. tauto.
  - inversion N as [|? ? N1 N2]; subst. destruct (dict_get_key (transitions n) t) as [tr Et]; [apply Hl; cbn; auto|].
    rewrite Et. cbn [of_option bind]. pose proof (guard_get n t tr Et) as Eg. rewrite <- Eg.
    destruct (accept st (guard_of n t)) as [b|e] eqn:Ea; cbn [bind]; [|exists t; cbn; auto].
    specialize (IH ltac:(intros; apply Hl; cbn; auto) N2). destruct (fireable st n l) as [r|e]; cbn [bind].
    + destruct IH as [I1 I2]. destruct b.
      * split; [constructor; auto; rewrite I2; tauto|]. intros u. cbn. rewrite I2. split.
        -- intros [<-|[? ?]]; auto.
        -- intros [[<-|?] ?]; auto.
      * split; [auto|]. intros u. cbn. rewrite I2. split; [tauto|]. intros [[<-|?] ?]; [congruence|auto].
    + destruct IH as (u & Hu & E). exists u. cbn; auto.
Qed.
Section Select.
Variables (st : store) (pick : string -> list string -> string) (n : net).
Hypothesis HP : any_pick pick.
Hypothesis W : wf n.
Definition opts (p : string) : list string :=
  match dict_get p (places n) with
  | Some pl => match fireable st n (p_transitions pl) with Ok l => l | Err _ => [] end
  | None => []
  end.
Definition vote (p : string) : option string :=
  if (tokens n p <=? 0)%Z then None else match opts p with [] => None | l => Some (pick p l) end.
Definition cnt (l : list string) (t : string) := length (filter (fun p => eqb (vote p) (Some t)) l).
Lemma fireable_place p pl : dict_get p (places n) = Some pl ->
  match fireable st n (p_transitions pl) with
  | Ok r => options st n p r
  | Err e => exists t, has_transition n t /\ accept st (guard_of n t) = Err e
  end.
Proof.
  intros E. destruct (w_pt n W p pl E) as (Q1 & _ & Q3).
  pose proof (fireable_ok st n (p_transitions pl)) as F.
  assert (Hl : forall t, In t (p_transitions pl) -> has_transition n t) by (intros t Ht; apply Q3 in Ht; eapply starts_has; eauto).
  specialize (F Hl Q1). destruct (fireable st n (p_transitions pl)).
  - destruct F as [F1 F2]. split; [auto|]. intros t. rewrite F2, Q3. tauto.
  - destruct F as (t & Ht & E'). eauto.
Qed.
Definition tallied (d : dict string nat) (l : list string) : Prop :=
  NoDup (keys d) /\ forall t, dict_get t d = if cnt l t =? 0 then None else Some (cnt l t).
Lemma cnt_snoc l p t : cnt (l ++ [p]) t = cnt l t + if eqb (vote p) (Some t) then 1 else 0.
Proof. unfold cnt. rewrite filter_app, app_length. cbn [filter]. destruct (eqb (vote p) (Some t)); reflexivity. Qed.
Lemma select_ok : match select st pick n with
  | Ok d => tallied d (keys (places n)) /\ forall p, (1 <= tokens n p)%Z -> options st n p (opts p)
  | Err e => exists t, has_transition n t /\ accept st (guard_of n t) = Err e
  end.
Proof.
  unfold select. 
  assert (G : forall rest done d, places n = done ++ rest -> tallied d (keys done) ->
    (forall p pl, In (p, pl) done -> (1 <= tokens n p)%Z -> options st n p (opts p)) ->
    match foldM (fun firings '(id, p) =>
      if (p_tokens p <=? 0)%Z then Ok firings
      else do l <- fireable st n (p_transitions p) ;
         match l with
         | [] => Ok firings
         | _ => let t := pick id l in
                match dict_get t firings with
                | None => Ok (dict_set t 1 firings)
                | Some k => Ok (dict_set t (k + 1) firings)
                end
         end) rest d with
    | Ok d => tallied d (keys (places n)) /\ (forall p pl, In (p, pl) (places n) -> (1 <= tokens n p)%Z -> options st n p (opts p))
    | Err e => exists t, has_transition n t /\ accept st (guard_of n t) = Err e
    end).
  { induction rest as [|[p pl] rest IH]; intros done d E T O; cbn [foldM].
    - rewrite app_nil_r in E. rewrite E. split; [auto|]. exact O.
    - assert (Ep : dict_get p (places n) = Some pl).
      { apply dict_In_get; [apply (w_places n W)|]. rewrite E. apply in_or_app; cbn; auto. }
      assert (Tp : tokens n p = p_tokens pl) by (unfold tokens; rewrite Ep; auto).
      assert (E' : places n = (done ++ [(p, pl)]) ++ rest) by (rewrite <- app_assoc; auto).
      assert (Kd : keys (done ++ [(p, pl)]) = keys done ++ [p]) by (unfold keys; rewrite map_app; auto).
      pose proof (fireable_place p pl Ep) as F.
      assert (Eo : opts p = match fireable st n (p_transitions pl) with Ok l => l | Err _ => [] end) by (unfold opts; rewrite Ep; auto).
      assert (Hstay : vote p = None -> tallied d (keys (done ++ [(p, pl)]))).
      { intros Ev. rewrite Kd. destruct T as [T1 T2]. split; [auto|]. intros t. rewrite cnt_snoc, Ev. cbn. rewrite Nat.add_0_r. auto. }
      destruct (Z.leb_spec (p_tokens pl) 0) as [Hle|Hgt].
      + cbn [bind]. apply (IH (done ++ [(p, pl)])); auto.
        * apply Hstay. unfold vote. rewrite Tp. destruct (Z.leb_spec (p_tokens pl) 0); [auto|lia].
        * intros q ql Hq Ht. apply in_app_or in Hq. destruct Hq as [Hq|[Eq|[]]]; [eapply O; eauto|]. injection Eq as <- <-. lia.
      + destruct (fireable st n (p_transitions pl)) as [l|e]; cbn [bind]; [|exact F].
        assert (O' : forall q ql, In (q, ql) (done ++ [(p, pl)]) -> (1 <= tokens n q)%Z -> options st n q (opts q)).
        { intros q ql Hq Ht. apply in_app_or in Hq. destruct Hq as [Hq|[Eq|[]]]; [eapply O; eauto|]. injection Eq as <- <-. rewrite Eo. auto. }
        assert (Ev : vote p = match l with [] => None | _ => Some (pick p l) end).
        { unfold vote. rewrite Tp, Eo. destruct (Z.leb_spec (p_tokens pl) 0); [lia|destruct l; reflexivity]. }
        destruct l as [|t0 l0].
        * cbn [bind]. apply (IH (done ++ [(p, pl)])); auto.
        * set (t := pick p (t0 :: l0)) in *. cbv zeta.
          assert (Hup : tallied (dict_set t (cnt (keys done) t + 1) d) (keys (done ++ [(p, pl)]))).
          { destruct T as [T1 T2]. split; [apply keys_dict_set_NoDup; auto|]. intros u. rewrite dict_get_set, Kd, cnt_snoc, Ev, T2.
            destruct (eqb_ok u t) as [->|Hne].
            - rewrite eqb_refl. replace (cnt (keys done) t + 1 =? 0) with false by (symmetry; apply Nat.eqb_neq; lia). auto.
            - destruct (eqb_ok (Some t) (Some u)) as [Eu|]; [congruence|]. rewrite Nat.add_0_r. auto. }
          destruct T as [T1 T2]. rewrite T2. destruct (Nat.eqb_spec (cnt (keys done) t) 0) as [E0|E0]; cbn [bind].
          -- apply (IH (done ++ [(p, pl)])); auto. rewrite E0 in Hup. auto.
          -- apply (IH (done ++ [(p, pl)])); auto. }
  specialize (G (places n) [] [] eq_refl). cbn [keys map] in G.
  specialize (G ltac:(split; [constructor|intros; reflexivity]) ltac:(intros ? ? [])).
  match type of G with match ?x with _ => _ end => destruct x as [d|e] end; [|exact G]. destruct G as [G1 G2]. split; [auto|].
  intros p Hp. destruct (dict_get p (places n)) as [pl|] eqn:Ep.
  - apply (G2 p pl); auto. apply dict_get_In; auto.
  - unfold tokens in Hp. rewrite Ep in Hp. lia.
Qed.
(** a vote is for a transition behind the place *)
Lemma vote_start p t : (forall p, (1 <= tokens n p)%Z -> options st n p (opts p)) -> vote p = Some t ->
  In p (starts n t) /\ (1 <= tokens n p)%Z /\ opts p <> [] /\ pick p (opts p) = t /\ accept st (guard_of n t) = Ok true.
Proof.
  intros O. unfold vote. destruct (Z.leb_spec (tokens n p) 0); [discriminate|]. specialize (O p ltac:(lia)).
  destruct (opts p) as [|t0 l] eqn:E; [discriminate|]. intros Ev; injection Ev as <-. destruct O as [_ O].
  pose proof (HP p (t0 :: l) ltac:(discriminate)) as Hin. apply O in Hin. destruct Hin as [H1 H2].
  split; [auto|]. split; [lia|]. split; [discriminate|]. auto.
Qed.
(** enough votes: all start places voted *)
Lemma all_voted t : (forall p, (1 <= tokens n p)%Z -> options st n p (opts p)) ->
  length (starts n t) <= cnt (keys (places n)) t -> forall p, In p (starts n t) -> vote p = Some t.
Proof.
  intros O Hle p Hp. unfold cnt in Hle. set (v := filter (fun p => eqb (vote p) (Some t)) (keys (places n))) in *.
  assert (Hv : incl v (starts n t)).
  { intros q Hq. apply filter_In in Hq. destruct Hq as [_ Hq]. apply (proj1 (eqb_eq _ _)) in Hq. apply (vote_start q t O) in Hq. tauto. }
  assert (Nv : NoDup v) by (apply NoDup_filter; apply (w_places n W)).
  pose proof (NoDup_length_incl Nv Hle Hv) as Hi. apply Hi in Hp. apply filter_In in Hp. destruct Hp as [_ Hp].
  apply (proj1 (eqb_eq _ _)) in Hp. auto.
Qed.
Lemma voted_count t : starts n t <> [] -> (forall p, In p (starts n t) -> vote p = Some t) ->
  length (starts n t) <= cnt (keys (places n)) t.
Proof.
  intros _ Hv. apply NoDup_incl_length; [apply (w_start n W)|]. intros p Hp. apply filter_In. split; [eapply (w_sp n W); eauto|].
  apply eqb_eq. auto.
Qed.
End Select.

Definition sum (l : list Z) : Z := fold_right Z.add 0%Z l.
Lemma sum_snoc l z : sum (l ++ [z]) = (sum l + z)%Z.
Proof. unfold sum. induction l as [|a l IH]; cbn; lia. Qed.
Lemma simulate_ok st ord pick n : any_order ord -> any_pick pick -> wf n ->
  match simulate_one_timestep st ord pick n with
  | Ok n' => wf n' /\ same_structure n n' /\ exists opts ts,
      (forall p, (1 <= tokens n p)%Z -> options st n p (opts p)) /\ NoDup ts /\
      (forall t, In t ts <-> starts n t <> [] /\ forall p, In p (starts n t) -> (1 <= tokens n p)%Z /\ opts p <> [] /\ pick p (opts p) = t) /\
      (forall p, tokens n' p = (tokens n p + sum (map (fun t => effect n t p) ts))%Z)
  | Err e => exists t, has_transition n t /\ accept st (guard_of n t) = Err e
  end.
Proof.
  intros HO HP W. unfold simulate_one_timestep. pose proof (select_ok st pick n W) as S.
  destruct (select st pick n) as [d|e]; cbn [bind]; [|auto]. destruct S as [[Td Tg] O].
  set (K := keys (places n)) in *.
  set (F := fun t => length (starts n t) <=? cnt st pick n K t).
  assert (Sub : forall t k, In (t, k) d -> k = cnt st pick n K t /\ 1 <= k /\ starts n t <> [] /\ has_transition n t).
  { intros t k Hin. apply dict_In_get in Hin; [|auto]. rewrite Tg in Hin. destruct (Nat.eqb_spec (cnt st pick n K t) 0); [discriminate|].
    injection Hin as <-. split; [auto|]. split; [lia|]. unfold cnt in *.
    destruct (filter (fun p => eqb (vote st pick n p) (Some t)) K) as [|p l] eqn:El; [cbn in *; congruence|].
    assert (Hp : In p (filter (fun p => eqb (vote st pick n p) (Some t)) K)) by (rewrite El; cbn; auto).
    apply filter_In in Hp. destruct Hp as [_ Hp]. apply (proj1 (eqb_eq _ _)) in Hp.
    apply (vote_start st pick n HP p t O) in Hp. destruct Hp as [Hp _]. split; [intros E; rewrite E in Hp; contradiction|].
    eapply starts_has; eauto. }
  assert (G : forall rest done n1, d = done ++ rest -> wf n1 -> same_structure n n1 ->
    (forall p, tokens n1 p = (tokens n p + sum (map (fun t => effect n t p) (filter F (map fst done))))%Z) ->
    exists n', foldM (fun n' '(id, k) =>
      do t <- of_option KeyError (dict_get id (transitions n')) ;
      if length (t_start t) <=? k then
        match fire_transition ord t n' with (n'', None) => Ok n'' | (_, Some e) => Err e end
      else Ok n') rest n1 = Ok n' /\ wf n' /\ same_structure n n' /\
      (forall p, tokens n' p = (tokens n p + sum (map (fun t => effect n t p) (filter F (map fst d))))%Z)).
  { induction rest as [|[t k] rest IH]; intros done n1 E W1 S1 T1; cbn [foldM].
    - rewrite app_nil_r in E. subst. eauto.
    - assert (E' : d = (done ++ [(t, k)]) ++ rest) by (rewrite <- app_assoc; auto).
      destruct (Sub t k) as (Ek & Hk & Hne & Ht); [rewrite E; apply in_or_app; cbn; auto|].
      destruct (dict_get_key (transitions n) t Ht) as [tr Et]. pose proof S1 as (St & _ & _). rewrite St, Et. cbn [of_option bind].
      assert (Es : t_start tr = starts n t) by (unfold starts; rewrite Et; auto). rewrite Es.
      assert (Ff : F t = (length (starts n t) <=? k)) by (unfold F; rewrite Ek; auto).
      destruct (length (starts n t) <=? k) eqn:El.
      + assert (Et1 : dict_get t (transitions n1) = Some tr) by (rewrite St; auto).
        destruct (fire_ok ord t tr n1 HO W1 Et1) as (n2 & r & Er & S2 & W2 & C). rewrite Er.
        assert (En : enabled n1 t).
        { intros p Hp. rewrite (same_starts _ _ t S1) in Hp.
          assert (Hv : vote st pick n p = Some t) by (apply (all_voted st pick n HP W t O); auto; unfold F in Ff; apply Nat.leb_le; auto).
          pose proof (vote_start st pick n HP p t O Hv) as (_ & Hpos & _). rewrite T1.
          assert (Hs : forall l, (forall u, In u l -> In u (map fst done) /\ F u = true) -> (0 <= sum (map (fun t => effect n t p) l))%Z).
          { induction l as [|u l IHl]; intros Hl; cbn; [lia|]. specialize (IHl ltac:(intros; apply Hl; cbn; auto)).
            enough (0 <= effect n u p)%Z by (unfold sum in IHl; lia). unfold effect. destruct (mem p (starts n u)) eqn:Em; [|destruct (mem p (ends n u)); lia].
            exfalso. apply mem_In in Em. destruct (Hl u (or_introl eq_refl)) as [Hu Fu]. unfold F in Fu. apply Nat.leb_le in Fu.
            pose proof (all_voted st pick n HP W u O Fu p Em) as Hvu. rewrite Hv in Hvu. injection Hvu as ->.
            assert (Nd : NoDup (map fst d)) by auto. rewrite E, map_app in Nd. cbn in Nd. apply NoDup_remove_2 in Nd. apply Nd. apply in_or_app; auto. }
          specialize (Hs (filter F (map fst done)) ltac:(intros u Hu; apply filter_In in Hu; auto)). lia. }
        destruct C as [(-> & _ & C)|(_ & (q & Hq & Tq) & _)]; [|apply En in Hq; lia]. cbn [bind].
        apply (IH (done ++ [(t, k)])); auto; [eapply same_trans; eauto|].
        intros p. rewrite C, T1, map_app, filter_app, map_app. cbn [map filter fst]. rewrite Ff. cbn [map]. rewrite sum_snoc.
        unfold effect. rewrite (same_starts _ _ t S1), (same_ends _ _ t S1). lia.
      + cbn [bind]. apply (IH (done ++ [(t, k)])); auto. intros p. rewrite T1, map_app, filter_app. cbn [map filter fst].
        rewrite Ff, app_nil_r. auto. }
  destruct (G d [] n eq_refl W (same_refl n)) as (n' & E & W' & S' & T'); [intros p; cbn; lia|]. rewrite E.
  split; [auto|]. split; [auto|]. exists (opts st n), (filter F (map fst d)). split; [auto|]. split; [apply NoDup_filter; auto|]. split; [|auto].
  intros t. rewrite filter_In. split.
  - intros [Hin Ft]. apply in_map_iff in Hin. destruct Hin as ([t' k] & <- & Hin). cbn [fst] in *. apply Sub in Hin.
    destruct Hin as (_ & _ & Hne & _). split; [auto|]. intros p Hp. unfold F in Ft. apply Nat.leb_le in Ft.
    pose proof (all_voted st pick n HP W t' O Ft p Hp) as Hv. apply (vote_start st pick n HP p t' O) in Hv. tauto.
  - intros [Hne Hall].
    assert (Hv : forall p, In p (starts n t) -> vote st pick n p = Some t).
    { intros p Hp. destruct (Hall p Hp) as (Q1 & Q2 & Q3). unfold vote. destruct (Z.leb_spec (tokens n p) 0); [lia|].
      destruct (opts st n p); [congruence|]. congruence. }
    pose proof (voted_count st pick n W t Hne Hv) as Hc. split; [|apply Nat.leb_le; auto].
    change (In t (keys d)). apply (proj2 (dict_get_Some_iff d t)). rewrite Tg. fold K in Hc.
    destruct (Nat.eqb_spec (cnt st pick n K t) 0); [|eauto]. destruct (starts n t); [congruence|cbn in Hc; lia].
Qed.
