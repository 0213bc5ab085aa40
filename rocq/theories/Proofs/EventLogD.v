(** Proofs about joining events and event durations *)
From Coq Require Import Permutation.
From Verif.Model Require Import Base EventLog.
From Verif.Spec Require Import Lists Logs EventLogSpec.
From Verif.Lib Require Import ListLib DictLib.
From Verif.Proofs Require Import Selection EventLogA EventLogB EventLogC.

Lemma is_last_snoc {X} (x y : X) l : is_last x (l ++ [y]) -> x = y.
Proof. intros (pre & E). apply app_inj_tail in E. destruct E; auto. Qed.
Lemma chained_snoc {X} (R : X -> X -> Prop) l x :
  chained R l -> (forall y, is_last y l -> R y x) -> chained R (l ++ [x]).
Proof.
  induction l as [|y l IH]; cbn; auto. destruct l as [|z l]; cbn.
  - intros _ Hl. split; [|auto]. apply Hl. exists []. auto.
  - intros [Hyz Hc] Hl. split; auto. apply IH; auto. intros w (pre & E). apply Hl. exists (y :: pre). rewrite E. auto.
Qed.
Lemma chained_snoc_inv {X} (R : X -> X -> Prop) l x y : chained R ((l ++ [x]) ++ [y]) -> R x y /\ chained R (l ++ [x]).
Proof.
  induction l as [|z l IH]; cbn; [tauto|]. destruct l as [|w l]; cbn in *.
  - intros (H1 & H2 & _). auto.
  - intros (H1 & H2). destruct (IH H2). auto.
Qed.

Section EL.
  Context {A V I : Type} `{Eq A} `{Eq V}.
  Notation event := (event A V).
  Notation trace := (trace A V I).
  Notation log := (log A V I).
  Variables (minus plus : V -> V -> result V) (negative : V -> result bool).

  Section Join.
    Variable ord : list string -> list string.
    Hypothesis ord_perm : forall s, Permutation (ord s) s.
    Variables (sa ea da : option string) (raise : bool) (bl : list A).

    Notation special := (special sa ea da).
    Notation joinable := (joinable (V:=V) bl).
    Notation merged := (merged (A:=A) minus plus sa ea da raise).
    Notation je := (join_events minus plus ord sa ea da raise).
    (** *** one merge *)
    Lemma check_ok (a b : attrs V) names :
      foldM (fun _ name =>
        if negb (eqb (Some name) sa) && negb (eqb (Some name) ea) && negb (eqb (Some name) da)
        then do va <- attr name a ; do vb <- attr name b ; if eqb va vb then Ok tt else Err ValueError
        else Ok tt) names tt = Ok tt <->
      forall k, In k names -> special k \/ exists v, dict_get k a = Some v /\ dict_get k b = Some v.
    Proof.
      induction names as [|k names IH]; cbn [foldM].
      - split; [intros _ k []|auto].
      - assert (Hsp : negb (eqb (Some k) sa) && negb (eqb (Some k) ea) && negb (eqb (Some k) da) = false <-> special k).
        { unfold EventLogSpec.special. destruct (eqb_ok (Some k) sa), (eqb_ok (Some k) ea), (eqb_ok (Some k) da); cbn; intuition congruence. }
        destruct (negb (eqb (Some k) sa) && negb (eqb (Some k) ea) && negb (eqb (Some k) da)) eqn:Es.
        + assert (Hns : ~ special k) by (intros Hx; apply Hsp in Hx; discriminate).
          unfold attr. destruct (dict_get k a) as [va|] eqn:Ea; cbn.
          2:{ split; [discriminate|]. intros Hk. destruct (Hk k) as [|(v & E1 & E2)]; auto; [contradiction|congruence]. }
          destruct (dict_get k b) as [vb|] eqn:Eb; cbn.
          2:{ split; [discriminate|]. intros Hk. destruct (Hk k) as [|(v & E1 & E2)]; auto; [contradiction|congruence]. }
          destruct (eqb_ok va vb) as [<-|Hne]; cbn.
          * unfold attr in IH. rewrite IH. split.
            -- intros Hk k' [<-|Hin]; auto. right. eauto.
            -- auto.
          * split; [discriminate|]. intros Hk. destruct (Hk k) as [|(v & E1 & E2)]; auto; [contradiction|congruence].
        + assert (Hk : special k) by tauto. cbn [bind]. rewrite IH. split.
          * intros Hk' k' [<-|Hin]; auto.
          * intros Hk' k' Hin. apply Hk'. cbn; auto.
    Qed.
    (** the shape of a successful merge *)
    Lemma join_events_inv a b r : je a b = Ok r ->
      (raise = true -> forall k, ~ special k -> dict_get k a = dict_get k b) /\
      (forall k, Some k <> ea -> Some k <> da -> dict_get k r = dict_get k a) /\
      (forall ek, ea = Some ek -> da <> Some ek -> exists v, dict_get ek b = Some v /\ dict_get ek r = Some v) /\
      (forall dk sk ek, da = Some dk -> sa = Some sk -> ea = Some ek -> sk <> ek ->
         exists vs ve v, dict_get sk a = Some vs /\ dict_get ek b = Some ve /\ minus ve vs = Ok v /\ dict_get dk r = Some v) /\
      (forall dk, da = Some dk -> (sa = None \/ ea = None) -> ea <> Some dk ->
         exists va vb v, dict_get dk a = Some va /\ dict_get dk b = Some vb /\ plus va vb = Ok v /\ dict_get dk r = Some v).
    Proof.
      unfold join_events. intros E.
      assert (Hchk : raise = true -> forall k, ~ special k -> dict_get k a = dict_get k b).
      { intros -> k Hk. match type of E with bind ?c _ = _ => destruct c as [[]|] eqn:Ec; [|discriminate] end.
        rewrite check_ok in Ec.
        destruct (in_dec eq_dec_of k (keys a ++ keys b)) as [Hin|Hni].
        - destruct (Ec k) as [|(v & E1 & E2)]; [|contradiction|congruence].
          apply (Permutation_in _ (Permutation_sym (ord_perm _))). apply set_of_In. auto.
        - rewrite in_app_iff in Hni. rewrite (proj2 (dict_get_None a k)), (proj2 (dict_get_None b k)); tauto. }
      match type of E with bind ?c _ = _ => destruct c as [_u|] eqn:Ec; [|discriminate] end. cbn [bind] in E.
      split; [exact Hchk|]. clear Hchk Ec _u.
      match type of E with bind ?c _ = _ => destruct c as [a1|] eqn:E1; [|discriminate] end. cbn [bind] in E.
      assert (Ha1 : (forall k, Some k <> ea -> dict_get k a1 = dict_get k a) /\
                    (forall ek, ea = Some ek -> exists v, dict_get ek b = Some v /\ dict_get ek a1 = Some v)).
      { destruct ea as [ek|].
        - unfold attr in E1. destruct (dict_get ek b) as [v|] eqn:Eb; [|discriminate]. cbn in E1. injection E1 as <-. split.
          + intros k Hk. rewrite dict_get_set, (proj2 (eqb_neq k ek)); congruence.
          + intros ek' E'. injection E' as <-. exists v. rewrite dict_get_set, eqb_refl. auto.
        - injection E1 as <-. split; auto. discriminate. }
      clear E1. destruct Ha1 as [Hother Hend].
      assert (Hset : forall dk v, da = Some dk -> r = dict_set dk v a1 ->
        (forall k, Some k <> ea -> Some k <> da -> dict_get k r = dict_get k a) /\
        (forall ek, ea = Some ek -> da <> Some ek -> exists v, dict_get ek b = Some v /\ dict_get ek r = Some v)).
      { intros dk v Ed ->. split.
        - intros k Hk1 Hk2. rewrite dict_get_set, (proj2 (eqb_neq k dk)) by congruence. auto.
        - intros ek Ee Hne. rewrite dict_get_set, (proj2 (eqb_neq ek dk)) by congruence. auto. }
      destruct da as [dk|].
      - destruct sa as [sk|], ea as [ek|].
        + unfold attr in E. destruct (dict_get ek a1) as [ve|] eqn:Ee; [|discriminate]. cbn in E.
          destruct (dict_get sk a1) as [vs|] eqn:Es; [|discriminate]. cbn in E.
          destruct (minus ve vs) as [v|] eqn:Em; [|discriminate]. cbn in E. injection E as E. symmetry in E.
          destruct (Hset dk v eq_refl E) as [Hs1 Hs2]. split; [auto|]. split; [auto|]. split.
          * intros dk' sk' ek' E1 E2 E3 Hne. injection E1 as <-. injection E2 as <-. injection E3 as <-.
            destruct (Hend ek eq_refl) as (v' & Eb & Ea). exists vs, ve, v.
            rewrite <- (Hother sk) by congruence. split; [auto|]. split; [congruence|]. split; [auto|].
            rewrite E, dict_get_set, eqb_refl. auto.
          * intros dk' _ [|]; discriminate.
        + unfold attr in E. destruct (dict_get dk a1) as [va|] eqn:Ea; [|discriminate]. cbn in E.
          destruct (dict_get dk b) as [vb|] eqn:Eb; [|discriminate]. cbn in E.
          destruct (plus va vb) as [v|] eqn:Em; [|discriminate]. cbn in E. injection E as E. symmetry in E.
          destruct (Hset dk v eq_refl E) as [Hs1 Hs2]. split; [auto|]. split; [auto|]. split; [discriminate|].
          intros dk' E1 _ _. injection E1 as <-. exists va, vb, v. rewrite <- (Hother dk) by congruence.
          split; [auto|]. split; [auto|]. split; [auto|]. rewrite E, dict_get_set, eqb_refl. auto.
        + unfold attr in E. destruct (dict_get dk a1) as [va|] eqn:Ea; [|discriminate]. cbn in E.
          destruct (dict_get dk b) as [vb|] eqn:Eb; [|discriminate]. cbn in E.
          destruct (plus va vb) as [v|] eqn:Em; [|discriminate]. cbn in E. injection E as E. symmetry in E.
          destruct (Hset dk v eq_refl E) as [Hs1 Hs2]. split; [auto|]. split; [auto|]. split; [discriminate|].
          intros dk' E1 _ Hne. injection E1 as <-. exists va, vb, v. rewrite <- (Hother dk) by congruence.
          split; [auto|]. split; [auto|]. split; [auto|]. rewrite E, dict_get_set, eqb_refl. auto.
        + unfold attr in E. destruct (dict_get dk a1) as [va|] eqn:Ea; [|discriminate]. cbn in E.
          destruct (dict_get dk b) as [vb|] eqn:Eb; [|discriminate]. cbn in E.
          destruct (plus va vb) as [v|] eqn:Em; [|discriminate]. cbn in E. injection E as E. symmetry in E.
          destruct (Hset dk v eq_refl E) as [Hs1 Hs2]. split; [auto|]. split; [auto|]. split; [discriminate|].
          intros dk' E1 _ _. injection E1 as <-. exists va, vb, v. rewrite <- (Hother dk) by congruence.
          split; [auto|]. split; [auto|]. split; [auto|]. rewrite E, dict_get_set, eqb_refl. auto.
      - injection E as <-. split; [auto|]. split; [|split; discriminate].
        intros ek Ee _. auto.
    Qed.

    (** *** a whole block *)
    Lemma merged_single e : merged [e] e.
    Proof.
      split.
      - exists e, []. split; [auto|]. split; [auto|]. split; [auto|]. split; [auto|]. split; [auto|]. split; [|split].
        + intros _ e' k [<-|[]] _. auto.
        + intros ? ? ? _ _ _ _ Hn. congruence.
        + intros ? _ _ _ Hn. congruence.
      - intros ek en _ _ (pre & E). destruct pre as [|x [|]]; try discriminate. injection E as <-. auto.
    Qed.
    Lemma foldM_snoc {X Y} (f : Y -> X -> result Y) l x y : foldM f (l ++ [x]) y = do y' <- foldM f l y ; f y' x.
    Proof. revert y; induction l as [|z l IH]; intros y; cbn; [destruct (f y x); reflexivity|]. destruct (f y z); cbn; auto. Qed.
    Lemma merged_snoc g e' e d : merged g e' -> je (ev_attrs e') (ev_attrs e) = Ok d ->
      merged (g ++ [e]) (Event (activity e') d (transition e')).
    Proof.
      intros [(e0 & rest & -> & Ea & Et & Hr & Ho & Hq & Hd1 & Hd2) Hl] Ej.
      destruct (join_events_inv _ _ _ Ej) as (J1 & J2 & J3 & J4 & J5). split; cbn [activity transition ev_attrs].
      - exists e0, (rest ++ [e]). split; [auto|]. split; [auto|]. split; [auto|].
        split; [destruct rest; discriminate|]. split; [|split; [|split]].
        + intros k H1 H2. rewrite J2; auto.
        + intros Hraise x k Hx Hk. change ((e0 :: rest) ++ [e]) with (e0 :: rest ++ [e]) in Hx.
          rewrite app_comm_cons, in_app_iff in Hx. destruct Hx as [Hx|[<-|[]]]; auto.
          rewrite <- J1 by auto. apply Ho; intros Ek; apply Hk; unfold EventLogSpec.special; rewrite <- Ek; auto.
        + intros dk sk ek Ed Es Ee Hnd _. assert (Hne : sk <> ek /\ sk <> dk /\ ek <> dk).
          { inversion Hnd as [|? ? Hn1 Hn2]; inversion Hn2 as [|? ? Hn3 Hn4]; subst. cbn in *. intuition congruence. }
          destruct (J4 dk sk ek Ed Es Ee) as (vs & ve & v & E1 & E2 & E3 & E4); [tauto|].
          exists e, vs, ve, v. split; [exists (e0 :: rest); auto|]. split; [|auto].
          rewrite <- E1. symmetry. apply Ho; rewrite ?Ee, ?Ed; intros Ek; injection Ek; tauto.
        + intros dk Ed Hs Hne _. destruct (J5 dk Ed Hs Hne) as (va & vb & v & E1 & E2 & E3 & E4).
          destruct rest as [|r1 rest].
          * rewrite (Hr eq_refl) in E1. exists va, [vb], v. split; [auto|]. cbn. rewrite E2. split; [auto|]. rewrite E3. auto.
          * destruct (Hd2 dk Ed Hs Hne) as (v0 & vs & v' & F1 & F2 & F3 & F4); [discriminate|].
            exists v0, (vs ++ [vb]), v. split; [auto|]. split; [rewrite !map_app, F2; cbn; congruence|].
            rewrite foldM_snoc, F3. cbn. split; [congruence|auto].
      - intros ek en Ee Hne Hlast. change ((e0 :: rest) ++ [e]) with (e0 :: rest ++ [e]) in Hlast.
        rewrite app_comm_cons in Hlast. apply is_last_snoc in Hlast. subst en.
        destruct (J3 ek Ee Hne) as (v & E1 & E2). congruence.
    Qed.

    Notation jl := (join_loop minus plus ord sa ea da raise bl).
    Lemma join_loop_inv rest : forall done last out g,
      jl done last rest = Ok out -> merged g last -> g <> [] -> chained joinable g ->
      exists bs outs, out = done ++ outs /\ blocks joinable (g ++ rest) bs /\ Forall2 merged bs outs /\
        exists b bs', bs = b :: bs' /\ exists tl, b = g ++ tl.
    Proof.
      induction rest as [|e rest IH]; intros done last out g E Hg Hne Hc; cbn [join_loop] in E.
      - injection E as <-. exists [g], [last]. split; [auto|]. split; [|split].
        + split; [cbn; rewrite !app_nil_r; auto|]. split; [constructor; auto|]. cbn. auto.
        + constructor; auto.
        + exists g, []. split; [auto|]. exists []. rewrite app_nil_r; auto.
      - assert (Hact : forall x, is_last x g -> activity x = activity last).
        { intros x Hx. destruct Hg as [(e0 & r & -> & Ea & _) _]. rewrite Ea. clear - Hx Hc.
          revert x Hx. induction r as [|y r IH] using rev_ind; intros x (pre & E).
          - destruct pre as [|? [|]]; try discriminate. injection E as ->. auto.
          - rewrite app_comm_cons in E. apply app_inj_tail in E. destruct E as [_ ->].
            destruct r as [|z r _] using rev_ind.
            + cbn in Hc. destruct Hc as [[E _] _]. auto.
            + rewrite app_comm_cons, app_comm_cons in Hc. apply chained_snoc_inv in Hc. destruct Hc as [[E _] Hc].
              rewrite <- E. apply IH; auto. exists (e0 :: r). auto. }
        assert (Hlast : exists y, is_last y g).
        { destruct g as [|y g _] using rev_ind; [congruence|]. exists y, g. auto. }
        destruct (eqb (activity last) (activity e) && negb (mem (activity e) bl)) eqn:Ej.
        + apply andb_true_iff in Ej. destruct Ej as [E1 E2]. apply (proj1 (eqb_eq _ _)) in E1.
          apply negb_true_iff, mem_not_In in E2.
          destruct (je (ev_attrs last) (ev_attrs e)) as [d|] eqn:Ed; [|discriminate]. cbn [bind] in E.
          destruct (IH _ _ _ (g ++ [e]) E) as (bs & outs & Eo & Hb & HF & b & bs' & Ebs & tl & Etl).
          * apply merged_snoc; auto.
          * destruct g; discriminate.
          * apply chained_snoc; auto. intros y Hy. split; [rewrite (Hact y Hy); auto|auto].
          * exists bs, outs. split; [auto|]. rewrite <- app_assoc in Hb. split; [exact Hb|]. split; [auto|].
            exists b, bs'. split; [auto|]. exists (e :: tl). rewrite Etl, <- app_assoc. auto.
        + destruct (IH _ _ _ [e] E (merged_single e)) as (bs & outs & Eo & (Hb1 & Hb2 & Hb3) & HF & b & bs' & -> & tl & Etl);
            [discriminate|cbn; auto|].
          exists (g :: b :: bs'), (last :: outs). split; [rewrite Eo, <- app_assoc; auto|]. split; [|split].
          * split; [change ([e] ++ rest) with (e :: rest) in Hb1; cbn [concat] in *; rewrite Hb1; reflexivity|]. split; [constructor; auto|].
            cbn [chained]. split; [|auto]. intros x y Hx (post & Ey) [Hxy Hbl]. rewrite Etl in Ey. cbn in Ey.
            injection Ey as <- _. rewrite <- (Hact x Hx), Hxy, eqb_refl in Ej. cbn in Ej.
            apply negb_false_iff, mem_In in Ej. contradiction.
          * constructor; auto.
          * exists g, (b :: bs'). split; [auto|]. exists []. rewrite app_nil_r; auto.
    Qed.
    Lemma join_successive_ok (l l' : log) :
      join_successive minus plus ord sa ea da raise bl l = Ok l' ->
      Forall2 (fun t t' => tid t' = tid t /\ tr_attrs t' = tr_attrs t /\
        exists bs, blocks joinable (events t) bs /\ Forall2 merged bs (events t')) l l'.
    Proof.
      intros E. apply mapM_Forall2 in E. eapply Forall2_impl; [|exact E].
      intros t t' _ _ Et. cbv beta in Et. destruct (events t) as [|e es]; [discriminate|].
      destruct (jl [] e es) as [out|] eqn:Ej; [|discriminate]. cbn in Et. injection Et as <-. cbn.
      split; [auto|]. split; [auto|].
      destruct (join_loop_inv es [] e out [e] Ej (merged_single e)) as (bs & outs & -> & Hb & HF & _); [discriminate|cbn; auto|].
      exists bs. auto.
    Qed.

    (** without date attributes the call succeeds if neighbours that are joined
        agree on their attributes (or the check is switched off) *)
    Lemma join_loop_total rest : sa = None -> ea = None -> da = None -> forall done last prev,
      activity last = activity prev -> same_attrs (ev_attrs last) (ev_attrs prev) \/ raise = false ->
      (raise = true -> forall i x y, nth_error (prev :: rest) i = Some x -> nth_error (prev :: rest) (S i) = Some y ->
         joinable x y -> same_attrs (ev_attrs x) (ev_attrs y)) ->
      exists out, jl done last rest = Ok out.
    Proof.
      intros Hsa Hea Hda. induction rest as [|e rest IH]; intros done last prev Ea Hs Hj; cbn [join_loop]; [eauto|].
      assert (Hj' : raise = true -> forall i x y, nth_error (e :: rest) i = Some x -> nth_error (e :: rest) (S i) = Some y ->
         joinable x y -> same_attrs (ev_attrs x) (ev_attrs y)).
      { intros Hr i x y Hx Hy. apply (Hj Hr (S i)); auto. }
      destruct (eqb (activity last) (activity e) && negb (mem (activity e) bl)) eqn:Ej.
      - apply andb_true_iff in Ej. destruct Ej as [E1 E2]. apply (proj1 (eqb_eq _ _)) in E1.
        apply negb_true_iff, mem_not_In in E2.
        assert (Hse : raise = true -> same_attrs (ev_attrs last) (ev_attrs e)).
        { intros Hr k. destruct Hs as [Hs|]; [|congruence]. rewrite Hs. apply (Hj Hr 0); auto. split; [congruence|auto]. }
        assert (Ed : je (ev_attrs last) (ev_attrs e) = Ok (ev_attrs last)).
        { unfold join_events.
          match goal with |- bind ?c _ = _ => assert (Ec : c = Ok tt); [|rewrite Ec, Hea, Hda; reflexivity] end.
          destruct raise; [|reflexivity]. apply check_ok. intros k Hk. right.
          apply (Permutation_in _ (ord_perm _)) in Hk. apply (proj1 (set_of_In _ _)) in Hk. rewrite in_app_iff in Hk.
          rewrite <- (Hse eq_refl k). destruct Hk as [Hk|Hk]; apply dict_get_key in Hk; destruct Hk as [v Ev].
          - eauto.
          - rewrite <- (Hse eq_refl k) in Ev. eauto. }
        rewrite Ed. cbn [bind]. apply (IH _ _ e); auto. cbn.
        destruct raise; auto.
      - apply (IH _ _ e); auto. left. intros k; auto.
    Qed.
    Lemma join_successive_total (l : log) : sa = None -> ea = None -> da = None ->
      Forall (fun t => events t <> []) l ->
      (raise = true -> forall t i x y, In t l -> nth_error (events t) i = Some x -> nth_error (events t) (S i) = Some y ->
         joinable x y -> same_attrs (ev_attrs x) (ev_attrs y)) ->
      exists l', join_successive minus plus ord sa ea da raise bl l = Ok l'.
    Proof.
      intros Hsa Hea Hda Hne Hj. apply mapM_total. intros t Ht. rewrite Forall_forall in Hne. specialize (Hne t Ht).
      destruct (events t) as [|e es] eqn:Ee; [congruence|].
      destruct (join_loop_total es Hsa Hea Hda [] e e) as [out Eo]; auto.
      - left. intros k; auto.
      - intros Hr i x y Hx Hy. apply (Hj Hr t i); auto; rewrite Ee; auto.
      - rewrite Eo. cbn. eauto.
    Qed.
  End Join.

  (** ** derive_event_duration_by_end_date *)
  Section Derive.
    Variables (s e d : string).
    Hypothesis names : NoDup [s; e; d].
    Lemma names_ne : s <> e /\ s <> d /\ e <> d.
    Proof. inversion names as [|? ? Hn1 Hn2]; inversion Hn2 as [|? ? Hn3 Hn4]; subst. cbn in *. intuition congruence. Qed.

    Notation timing := (timing (A:=A) minus negative s e).
    Notation timed := (timed (A:=A) s e d).
    Notation d1 := (derive_one minus negative s e d).
    Lemma derive_one_inv default x r : d1 (of_option KeyError default) (ev_attrs x) = Ok r ->
      exists vs ve v, timing default x vs ve v /\ timed x (Event (activity x) r (transition x)) vs ve v.
    Proof.
      destruct names_ne as (Hse & Hsd & Hed). unfold derive_one, dict_has, attr.
      destruct (dict_get s (ev_attrs x)) as [vs|] eqn:Es.
      - cbn [bind]. destruct (dict_get e (ev_attrs x)) as [ve|] eqn:Ee; [|discriminate]. cbn. rewrite Es. cbn.
        destruct (minus ve vs) as [v|] eqn:Em; [|discriminate]. cbn. destruct (negative v) as [[]|] eqn:En; try discriminate.
        cbn. intros E; injection E as <-. exists vs, ve, v. split; [unfold EventLogSpec.timing; auto|].
        unfold EventLogSpec.timed; cbn. rewrite !dict_get_set, !eqb_refl, !(proj2 (eqb_neq _ _)) by auto.
        repeat (split; [solve [auto]|]). intros k H1 H2. rewrite dict_get_set, !(proj2 (eqb_neq _ _)) by auto. auto.
      - destruct default as [vs|]; [|discriminate]. cbn. rewrite !dict_get_set, !eqb_refl, (proj2 (eqb_neq e s)) by auto.
        destruct (dict_get e (ev_attrs x)) as [ve|] eqn:Ee; [|discriminate]. cbn.
        destruct (minus ve vs) as [v|] eqn:Em; [|discriminate]. cbn. destruct (negative v) as [[]|] eqn:En; try discriminate.
        cbn. intros E; injection E as <-. exists vs, ve, v. split; [unfold EventLogSpec.timing; auto|].
        unfold EventLogSpec.timed; cbn. rewrite !dict_get_set, !eqb_refl, !(proj2 (eqb_neq _ _)) by auto.
        repeat (split; [solve [auto]|]). intros k H1 H2. rewrite !dict_get_set, !(proj2 (eqb_neq _ _)) by auto. auto.
    Qed.
    Lemma derive_one_total default x vs ve v : timing default x vs ve v ->
      exists r, d1 (of_option KeyError default) (ev_attrs x) = Ok r.
    Proof.
      destruct names_ne as (Hse & Hsd & Hed). intros (Ee & Hs & Em & En). unfold derive_one, dict_has, attr.
      destruct Hs as [Es|[Es ->]].
      - rewrite Es. cbn. rewrite Ee. cbn. rewrite ?Es. cbn. rewrite Em. cbn. rewrite En. cbn. eauto.
      - rewrite Es. cbn. rewrite !dict_get_set, eqb_refl, (proj2 (eqb_neq e s)), Ee by auto. cbn. rewrite Em. cbn. rewrite En. cbn. eauto.
    Qed.

    Definition end_of (x : event) : option V := dict_get e (ev_attrs x).
    Inductive derived : option V -> list event -> list event -> Prop :=
    | derived_nil dft : derived dft [] []
    | derived_cons dft x x' es es' vs ve v :
        timing dft x vs ve v -> timed x x' vs ve v -> derived (Some ve) es es' ->
        derived dft (x :: es) (x' :: es').
    Lemma derive_loop_ok es : forall last out, derive_loop minus negative s e d last es = Ok out ->
      derived (end_of last) es out.
    Proof.
      induction es as [|x es IH]; intros last out; cbn [derive_loop].
      - intros E; injection E as <-. constructor.
      - unfold attr at 1. destruct (d1 _ (ev_attrs x)) as [r|] eqn:Ed; [|discriminate]. cbn [bind].
        destruct (derive_loop _ _ _ _ _ _ es) as [o|] eqn:El; [|discriminate]. cbn. intros E; injection E as <-.
        destruct (derive_one_inv _ _ _ Ed) as (vs & ve & v & Ht & Hd). econstructor; eauto.
        apply IH in El. unfold end_of in El. destruct Hd as (_ & _ & _ & Ee & _). rewrite Ee in El. auto.
    Qed.
    Lemma derive_ok (l l' : log) : derive_event_duration minus negative s e d l = Ok l' ->
      Forall2 (fun t t' => tid t' = tid t /\ tr_attrs t' = tr_attrs t /\
        exists x es, events t = x :: es /\ derived (end_of x) (events t) (events t')) l l'.
    Proof.
      intros E. apply mapM_Forall2 in E. eapply Forall2_impl; [|exact E].
      intros t t' _ _ Et. cbv beta in Et. destruct (events t) as [|x es] eqn:Ee; [discriminate|].
      unfold attr at 1 in Et. destruct (d1 _ (ev_attrs x)) as [r|] eqn:Ed; [|discriminate]. cbn [bind] in Et.
      destruct (derive_loop _ _ _ _ _ _ es) as [o|] eqn:El; [|discriminate]. cbn in Et. injection Et as <-. cbn.
      split; [auto|]. split; [auto|]. exists x, es. split; [auto|].
      destruct (derive_one_inv _ _ _ Ed) as (vs & ve & v & Ht & Hd). econstructor; eauto.
      apply derive_loop_ok in El. unfold end_of in El. destruct Hd as (_ & _ & _ & Ee' & _). rewrite Ee' in El. auto.
    Qed.
    Lemma derived_nth dft es es' : derived dft es es' -> length es' = length es /\
      forall i x x', nth_error es i = Some x -> nth_error es' i = Some x' ->
        exists vs ve v, timed x x' vs ve v /\
          timing (match i with 0 => dft | S j => match nth_error es j with Some p => end_of p | None => None end end) x vs ve v.
    Proof.
      induction 1 as [|dft x x' es es' vs ve v Ht Hd HD [El IH]]; cbn [length].
      - split; auto. intros [|i]; discriminate.
      - split; [auto|]. intros [|i] y y' Ey Ey'; cbn in Ey, Ey'.
        + injection Ey as <-. injection Ey' as <-. eauto.
        + destruct (IH i y y' Ey Ey') as (vs' & ve' & v' & Hd' & Ht'). exists vs', ve', v'. split; auto.
          destruct i as [|j]; cbn [nth_error]; auto. unfold end_of. destruct Ht as (-> & _). auto.
    Qed.
    Lemma derive_loop_total es : forall last,
      (forall i x, nth_error es i = Some x -> exists vs ve v,
         timing (match i with 0 => end_of last | S j => match nth_error es j with Some p => end_of p | None => None end end) x vs ve v) ->
      exists out, derive_loop minus negative s e d last es = Ok out.
    Proof.
      induction es as [|x es IH]; intros last Ht; cbn [derive_loop]; eauto.
      destruct (Ht 0 x eq_refl) as (vs & ve & v & Hx). destruct (derive_one_total _ _ _ _ _ Hx) as [r Er].
      unfold attr at 1. unfold end_of in Er. rewrite Er. cbn [bind].
      destruct (IH (Event (activity x) r (transition x))) as [out Eo].
      - intros i y Ey. destruct (Ht (S i) y Ey) as (vs' & ve' & v' & Hy). exists vs', ve', v'.
        destruct i; [|exact Hy]. cbn [nth_error] in Hy.
        destruct (derive_one_inv _ _ _ Er) as (? & ve2 & ? & (Ex & _) & (_ & _ & _ & Ee & _)).
        unfold end_of. rewrite Ee, <- Ex. exact Hy.
      - rewrite Eo. cbn. eauto.
    Qed.
    Lemma derive_total (l : log) : Forall (fun t => events t <> []) l ->
      (forall t i x, In t l -> nth_error (events t) i = Some x -> exists vs ve v,
         timing (match i with 0 => end_of x | S j => match nth_error (events t) j with Some p => end_of p | None => None end end) x vs ve v) ->
      exists l', derive_event_duration minus negative s e d l = Ok l'.
    Proof.
      intros Hne Ht. apply mapM_total. intros t Hin. rewrite Forall_forall in Hne. specialize (Hne t Hin).
      destruct (events t) as [|x es] eqn:Ee; [congruence|].
      destruct (Ht t 0 x Hin) as (vs & ve & v & Hx); [rewrite Ee; auto|].
      destruct (derive_one_total _ _ _ _ _ Hx) as [r Er]. unfold attr at 1. unfold end_of in Er. rewrite Er. cbn [bind].
      destruct (derive_loop_total es (Event (activity x) r (transition x))) as [out Eo].
      - intros i y Ey. destruct (Ht t (S i) y Hin) as (vs' & ve' & v' & Hy); [rewrite Ee; auto|]. exists vs', ve', v'. rewrite Ee in Hy.
        destruct i; [|exact Hy]. cbn [nth_error] in Hy.
        destruct (derive_one_inv _ _ _ Er) as (? & ve2 & ? & (Ex & _) & (_ & _ & _ & Ee' & _)).
        unfold end_of. rewrite Ee', <- Ex. exact Hy.
      - rewrite Eo. cbn. eauto.
    Qed.
    Lemma default_start_eq (es : list event) i x : nth_error es i = Some x ->
      match i with 0 => end_of x | S j => match nth_error es j with Some p => end_of p | None => None end end
      = default_start e es i.
    Proof. intros E. unfold default_start. destruct i; cbn [Nat.sub]; [rewrite E; auto|]. rewrite Nat.sub_0_r. auto. Qed.
    Lemma derive_spec (l l' : log) : derive_event_duration minus negative s e d l = Ok l' ->
      Forall2 (fun t t' => tid t' = tid t /\ tr_attrs t' = tr_attrs t /\ length (events t') = length (events t) /\
        forall i x x', nth_error (events t) i = Some x -> nth_error (events t') i = Some x' ->
          exists vs ve v, timing (default_start e (events t) i) x vs ve v /\ timed x x' vs ve v) l l'.
    Proof.
      intros E. eapply Forall2_impl; [|apply derive_ok; exact E]. cbv beta.
      intros t t' _ _ (E1 & E2 & x0 & es & E3 & HD). split; [auto|]. split; [auto|].
      apply derived_nth in HD. destruct HD as [El Hn]. split; [auto|].
      intros i x x' Ex Ex'. destruct (Hn i x x' Ex Ex') as (vs & ve & v & Hd & Ht). exists vs, ve, v. split; [|auto].
      rewrite <- (default_start_eq _ _ _ Ex). destruct i; [|exact Ht]. rewrite E3 in Ex. injection Ex as <-. exact Ht.
    Qed.
    Lemma derive_total_spec (l : log) : Forall (fun t => events t <> []) l ->
      (forall t i x, In t l -> nth_error (events t) i = Some x -> exists vs ve v,
         timing (default_start e (events t) i) x vs ve v) ->
      exists l', derive_event_duration minus negative s e d l = Ok l'.
    Proof.
      intros Hne Ht. apply derive_total; auto. intros t i x Hin Ex.
      rewrite (default_start_eq _ _ _ Ex). apply Ht; auto.
    Qed.
  End Derive.
End EL.
