(** Event logs as objects: attributes of events (C136, C137, C139) *)
From Coq Require Import String ZArith QArith Permutation.
From Verif.Model Require Import Base EventLog LogNoise LogObjects.
From Verif.Spec Require Import LogObjectSpec.
From Verif.Lib Require Import ListLib.
From Verif.Proofs Require Import LogObjA LogObjB.
Open Scope list_scope.
Open Scope nat_scope.

Section O.
  Context {A V I : Type} `{EA : Eq A} `{EV : Eq V}.
  Implicit Types (s : store A V I) (l m : list nat) (t : nat).
  Notation store := (store A V I).

  Definition dict_of s (e : nat) : nat := o_attrs (evs s e).
  (** only the dictionaries [D] may be different *)
  Record same s s' (D : list nat) : Prop := {
    sa_next : next s' = next s;
    sa_evs : evs s' = evs s;
    sa_trs : trs s' = trs s;
    sa_lsts : lsts s' = lsts s;
    sa_dcts : forall d, ~ In d D -> dcts s' d = dcts s d }.
  Lemma same_refl s D : same s s D.
  Proof. constructor; auto. Qed.
  Lemma same_trans s1 s2 s3 D D' : same s1 s2 D -> same s2 s3 D' -> same s1 s3 (D ++ D').
  Proof.
    intros [A1 A2 A3 A4 A5] [B1 B2 B3 B4 B5]. constructor; try congruence. intros d Hd. rewrite in_app_iff in Hd. rewrite B5, A5; auto.
  Qed.
  Lemma same_incl s1 s2 D D' : incl D D' -> same s1 s2 D -> same s1 s2 D'.
  Proof. intros Hi [A1 A2 A3 A4 A5]. constructor; auto. Qed.
  Lemma same_view_event s s' D e : same s s' D -> ~ In (dict_of s e) D -> view_event s' e = view_event s e.
  Proof. intros X Hn. unfold view_event. rewrite (sa_evs _ _ _ X), (sa_dcts _ _ _ X); auto. Qed.
  Lemma same_contents s s' D t : same s s' D -> contents s' t = contents s t.
  Proof. intros X. unfold contents. rewrite (sa_trs _ _ _ X), (sa_lsts _ _ _ X). auto. Qed.
  Lemma same_dict s s' D e : same s s' D -> dict_of s' e = dict_of s e.
  Proof. intros X. unfold dict_of. rewrite (sa_evs _ _ _ X). auto. Qed.
  Lemma same_set s d x : same s (set_dct d x s) [d].
  Proof. constructor; auto. intros b Hb. cbn [set_dct dcts]. apply put_other. intros ->. apply Hb. cbn. auto. Qed.

  Section Derive.
    Variables (minus : V -> V -> result V) (negative : V -> result bool) (sa ea da : string).
    Notation one := (derive_one minus negative sa ea da).
    Notation loop := (derive_loop (A:=A) minus negative sa ea da).
    Lemma derive_event_ok last d s : let '(s', r) := derive_event_obj minus negative sa ea da last d s in
      same s s' [d] /\ match one (attr ea (dcts s last)) (dcts s d) with
                       | Ok d' => r = Ok tt /\ dcts s' d = d'
                       | Err x => r = Err x
                       end.
    Proof.
      unfold derive_event_obj, derive_one.
      assert (P : forall s1 d1, same s s1 [d] -> dcts s1 d = d1 ->
        let '(s', r) := match (do ve <- attr ea (dcts s1 d) ; do vs <- attr sa (dcts s1 d) ; minus ve vs) with
          | Err x => (s1, Err x)
          | Ok v => let s2 := set_dct d (dict_set da v (dcts s1 d)) s1 in (s2, do neg <- negative v ; if neg then Err ValueError else Ok tt)
          end in
        same s s' [d] /\ match (do ve <- attr ea d1 ; do vs <- attr sa d1 ; do v <- minus ve vs ; do neg <- negative v ;
            if neg then Err ValueError else Ok (dict_set da v d1)) with Ok d' => r = Ok tt /\ dcts s' d = d' | Err x => r = Err x end).
      { intros s1 d1 X <-. destruct (attr ea (dcts s1 d)) as [ve|]; cbn [bind]; auto.
        destruct (attr sa (dcts s1 d)) as [vs|]; cbn [bind]; auto. destruct (minus ve vs) as [v|]; cbn [bind]; auto.
        assert (X' : same s (set_dct d (dict_set da v (dcts s1 d)) s1) [d]).
        { apply (same_incl _ _ ([d] ++ [d])); [intros x; cbn; tauto|]. eapply same_trans; [exact X|apply same_set]. }
        destruct (negative v) as [[|]|]; cbn [bind]; auto. split; auto. split; auto. cbn [set_dct dcts]. apply put_same. }
      destruct (dict_has sa (dcts s d)); cbn [bind].
      - apply (P s (dcts s d)); auto. apply same_refl.
      - destruct (attr ea (dcts s last)) as [v|]; cbn [bind].
        + apply (P (set_dct d (dict_set sa v (dcts s d)) s)); [apply same_set|]. cbn [set_dct dcts]. apply put_same.
        + split; auto. apply same_refl.
    Qed.
    Lemma derive_events_ok : forall es last s, NoDup (dict_of s last :: map (dict_of s) es) ->
      let '(s', r) := derive_events_obj minus negative sa ea da last es s in
      same s s' (map (dict_of s) es) /\ match loop (view_event s last) (map (view_event s) es) with
                                        | Ok vs => r = Ok tt /\ map (view_event s') es = vs
                                        | Err x => r = Err x
                                        end.
    Proof.
      induction es as [|e es IH]; intros last s Hn; cbn [derive_events_obj derive_loop map].
      - split; auto. apply same_refl.
      - fold (dict_of s last). fold (dict_of s e). pose proof (derive_event_ok (dict_of s last) (dict_of s e) s) as G.
        change (ev_attrs (view_event s last)) with (dcts s (dict_of s last)). change (ev_attrs (view_event s e)) with (dcts s (dict_of s e)).
        destruct (derive_event_obj minus negative sa ea da (dict_of s last) (dict_of s e) s) as [s1 r]. destruct G as [X G].
        destruct (one (attr ea (dcts s (dict_of s last))) (dcts s (dict_of s e))) as [d'|x]; cbn [bind].
        2: { subst r. split; auto. eapply same_incl; [|exact X]. intros y; cbn; tauto. }
        destruct G as [-> Ed].
        assert (Edm : forall es', map (dict_of s1) es' = map (dict_of s) es').
        { intros es'. apply map_ext. intros y. eapply same_dict. eauto. }
        cbn [map] in Hn. apply NoDup_cons_iff in Hn. destruct Hn as [Hl Hn]. pose proof Hn as Hn'. apply NoDup_cons_iff in Hn'. destruct Hn' as [He _].
        assert (Ev : view_event s1 e = Event (activity (view_event s e)) d' (transition (view_event s e))).
        { unfold view_event. rewrite (sa_evs _ _ _ X). cbn [activity transition]. fold (dict_of s e). rewrite Ed. auto. }
        assert (Es : map (view_event s1) es = map (view_event s) es).
        { apply map_ext_in. intros y Hy. eapply same_view_event; [exact X|]. intros [E|[]]. apply He. rewrite E. apply in_map. auto. }
        assert (Hn1 : NoDup (dict_of s1 e :: map (dict_of s1) es)).
        { rewrite Edm, (same_dict _ _ _ _ X). auto. }
        specialize (IH e s1 Hn1). rewrite Ev, Es in IH.
        destruct (derive_events_obj minus negative sa ea da e es s1) as [s2 r2]. destruct IH as [X2 IH]. rewrite Edm in X2.
        split; [apply (same_trans _ _ _ _ _ X X2)|].
        destruct (loop _ (map (view_event s) es)) as [out|x]; cbn [bind]; auto. destruct IH as [-> IH]. split; auto. rewrite IH.
        assert (E2 : view_event s2 e = view_event s1 e).
        { eapply same_view_event; [exact X2|]. rewrite (same_dict _ _ _ _ X). auto. }
        rewrite E2, Ev. auto.
    Qed.
    Definition dicts_of s t : list nat := map (dict_of s) (contents s t).
    Lemma derive_trace_ok t s : NoDup (o_tattrs (trs s t) :: dicts_of s t) ->
      let '(s', r) := derive_trace_obj minus negative sa ea da s t in
      same s s' (dicts_of s t) /\ match (match events (view_trace s t) with
        | [] => Err IndexError
        | e :: es =>
          do d <- one (attr ea (ev_attrs e)) (ev_attrs e) ;
          let e' := Event (activity e) d (transition e) in
          do out <- loop e' es ; Ok (with_events (view_trace s t) (e' :: out))
        end) with
        | Ok v => r = Ok tt /\ view_trace s' t = v
        | Err x => r = Err x
        end.
    Proof.
      unfold dicts_of. intros Hn. unfold derive_trace_obj. cbn [view_trace events]. fold (view_trace s t).
      destruct (contents s t) as [|e es] eqn:Ec; cbn [map].
      - split; auto. apply same_refl.
      - cbn [derive_events_obj]. fold (dict_of s e).
        pose proof (derive_event_ok (dict_of s e) (dict_of s e) s) as G. change (ev_attrs (view_event s e)) with (dcts s (dict_of s e)).
        destruct (derive_event_obj minus negative sa ea da (dict_of s e) (dict_of s e) s) as [s1 r]. destruct G as [X G].
        destruct (one (attr ea (dcts s (dict_of s e))) (dcts s (dict_of s e))) as [d'|x]; cbn [bind].
        2: { subst r. split; auto. eapply same_incl; [|exact X]. intros y; cbn; tauto. }
        destruct G as [-> Ed].
        assert (Edm : forall es', map (dict_of s1) es' = map (dict_of s) es').
        { intros es'. apply map_ext. intros y. eapply same_dict. eauto. }
        cbn [map] in Hn. apply NoDup_cons_iff in Hn. destruct Hn as [Hl Hn]. pose proof Hn as Hn'. apply NoDup_cons_iff in Hn'. destruct Hn' as [He _].
        assert (Ev : view_event s1 e = Event (activity (view_event s e)) d' (transition (view_event s e))).
        { unfold view_event. rewrite (sa_evs _ _ _ X). cbn [activity transition]. fold (dict_of s e). rewrite Ed. auto. }
        assert (Es : map (view_event s1) es = map (view_event s) es).
        { apply map_ext_in. intros y Hy. eapply same_view_event; [exact X|]. intros [E|[]]. apply He. rewrite E. apply in_map. auto. }
        assert (Hn1 : NoDup (dict_of s1 e :: map (dict_of s1) es)).
        { rewrite Edm, (same_dict _ _ _ _ X). auto. }
        pose proof (derive_events_ok es e s1 Hn1) as K. rewrite Ev, Es in K.
        destruct (derive_events_obj minus negative sa ea da e es s1) as [s2 r2]. destruct K as [X2 K]. rewrite Edm in X2.
        split; [apply (same_trans _ _ _ _ _ X X2)|].
        destruct (loop _ (map (view_event s) es)) as [out|x]; cbn [bind]; auto. destruct K as [-> K]. split; auto.
        assert (E2 : view_event s2 e = view_event s1 e).
        { eapply same_view_event; [exact X2|]. rewrite (same_dict _ _ _ _ X). auto. }
        pose proof (same_trans _ _ _ _ _ X X2) as X3.
        unfold view_trace, with_events. cbn [tid tr_attrs]. rewrite (same_contents _ _ _ _ X3), Ec. cbn [map].
        rewrite K, E2, Ev, (sa_trs _ _ _ X3), (sa_dcts _ _ _ X3) by auto. auto.
    Qed.
    Lemma derive_ok : forall l s, own_dicts s l ->
      let '(s', r) := derive_obj minus negative sa ea da s l in
      same s s' (flat_map (dicts_of s) l) /\
      match derive_event_duration minus negative sa ea da (view_log s l) with
      | Ok v => r = Ok tt /\ view_log s' l = v
      | Err x => r = Err x
      end.
    Proof.
      unfold own_dicts, derive_event_duration, view_log. induction l as [|t l IH]; intros s Hn; cbn [derive_obj mapM map flat_map].
      - split; auto. apply same_refl.
      - cbn [flat_map] in Hn. fold (dicts_of s t) in Hn.
        assert (Hd : NoDup (o_tattrs (trs s t) :: dicts_of s t) /\ NoDup (flat_map (fun t => o_tattrs (trs s t) :: dicts_of s t) l) /\
          (forall d, In d (o_tattrs (trs s t) :: dicts_of s t) -> ~ In d (flat_map (fun t => o_tattrs (trs s t) :: dicts_of s t) l))).
        { clear - Hn. unfold dicts_of, dict_of in *. revert Hn. generalize (o_tattrs (trs s t) :: map (fun e => o_attrs (evs s e)) (contents s t)) as a.
          generalize (flat_map (fun t => o_tattrs (trs s t) :: map (fun e => o_attrs (evs s e)) (contents s t)) l) as b. intros b a. clear.
          induction a as [|x a IH]; cbn [app]; intros Hn; [split; [constructor|split; auto]|].
          apply NoDup_cons_iff in Hn. destruct Hn as [Hx Hn]. rewrite in_app_iff in Hx. destruct (IH Hn) as (I1 & I2 & I3).
          split; [constructor; auto|]. split; auto. intros d [<-|Hd]; auto. }
        destruct Hd as (Ht & Hl & Hd). pose proof (derive_trace_ok t s Ht) as G.
        destruct (derive_trace_obj minus negative sa ea da s t) as [s1 r]. destruct G as [X G].
        assert (Xi : incl (dicts_of s t) (dicts_of s t ++ flat_map (dicts_of s) l)) by (intros y Hy; apply in_app_iff; auto).
        set (M := match events (view_trace s t) with [] => Err IndexError | _ => _ end) in *.
        destruct M as [v|x]; cbn [bind].
        2: { subst r. split; auto. eapply same_incl; eauto. }
        destruct G as [-> Ev].
        assert (Ed : forall u, dicts_of s1 u = dicts_of s u).
        { intros u. unfold dicts_of. rewrite (same_contents _ _ _ _ X). apply map_ext. intros y. eapply same_dict; eauto. }
        assert (Ef : flat_map (fun t => o_tattrs (trs s1 t) :: dicts_of s1 t) l = flat_map (fun t => o_tattrs (trs s t) :: dicts_of s t) l).
        { apply flat_map_ext. intros u. rewrite Ed, (sa_trs _ _ _ X). auto. }
        assert (Eg : flat_map (dicts_of s1) l = flat_map (dicts_of s) l) by (apply flat_map_ext; auto).
        assert (Evl : map (view_trace s1) l = map (view_trace s) l).
        { apply map_ext_in. intros u Hu. unfold view_trace. rewrite (same_contents _ _ _ _ X), (sa_trs _ _ _ X).
          rewrite (sa_dcts _ _ _ X). 2: { intros Hin. apply (Hd (o_tattrs (trs s u))); [cbn; auto|]. apply in_flat_map. exists u. cbn; auto. }
          f_equal. apply map_ext_in. intros y Hy. eapply same_view_event; [exact X|]. intros Hin. apply (Hd (dict_of s y)); [cbn; auto|].
          apply in_flat_map. exists u. split; auto. cbn. right. unfold dicts_of. apply in_map. auto. }
        specialize (IH s1). rewrite Evl in IH. unfold dicts_of, dict_of in Ef. rewrite Ef in IH. specialize (IH Hl).
        destruct (derive_obj minus negative sa ea da s1 l) as [s2 r2]. destruct IH as [X2 IH]. rewrite Eg in X2.
        split; [apply (same_trans _ _ _ _ _ X X2)|].
        destruct (mapM _ (map (view_trace s) l)) as [vs|x]; cbn [bind]; auto. destruct IH as [-> IH]. split; auto. rewrite IH. f_equal.
        rewrite <- Ev. assert (Hno : forall d, In d (o_tattrs (trs s t) :: dicts_of s t) -> ~ In d (flat_map (dicts_of s) l)).
        { intros d Hd1 Hd2. apply (Hd d Hd1). apply in_flat_map in Hd2. destruct Hd2 as (u & Hu & Hd2). apply in_flat_map. exists u. cbn; auto. }
        unfold view_trace. rewrite (same_contents _ _ _ _ X2), (sa_trs _ _ _ X2), (sa_dcts _ _ _ X2).
        2: { rewrite (sa_trs _ _ _ X). apply Hno. cbn; auto. }
        f_equal. apply map_ext_in. intros y Hy. eapply same_view_event; [exact X2|]. rewrite (same_dict _ _ _ _ X). apply Hno. cbn. right.
        rewrite (same_contents _ _ _ _ X) in Hy. unfold dicts_of. apply in_map. auto.
    Qed.
    (** the method only sees the dictionaries *)
    Lemma derive_events_dicts : forall es fs s x y, map (dict_of s) es = map (dict_of s) fs -> dict_of s x = dict_of s y ->
      derive_events_obj minus negative sa ea da x es s = derive_events_obj minus negative sa ea da y fs s.
    Proof.
      induction es as [|e es IH]; intros [|f fs] s x y E Exy; cbn [map] in E; try discriminate; auto.
      apply cons_inj in E. destruct E as [E1 E2]. cbn [derive_events_obj]. fold (dict_of s x). fold (dict_of s y). fold (dict_of s e). fold (dict_of s f).
      rewrite E1, Exy. pose proof (derive_event_ok (dict_of s y) (dict_of s f) s) as G.
      destruct (derive_event_obj minus negative sa ea da (dict_of s y) (dict_of s f) s) as [s1 [u|]]; auto. destruct G as [X _].
      apply IH; [|rewrite !(same_dict _ _ _ _ X); auto].
      etransitivity; [|etransitivity; [exact E2|]]; apply map_ext; intros z; [|symmetry]; apply (same_dict _ _ _ _ X).
    Qed.
    Lemma derive_events_same : forall es x s, let '(s', _) := derive_events_obj minus negative sa ea da x es s in same s s' (map (dict_of s) es).
    Proof.
      induction es as [|e es IH]; intros x s; cbn [derive_events_obj map]; [apply same_refl|].
      fold (dict_of s x). fold (dict_of s e). pose proof (derive_event_ok (dict_of s x) (dict_of s e) s) as G.
      destruct (derive_event_obj minus negative sa ea da (dict_of s x) (dict_of s e) s) as [s1 [u|]]; destruct G as [X _].
      - specialize (IH e s1). destruct (derive_events_obj minus negative sa ea da e es s1) as [s2 r]. assert (E : map (dict_of s1) es = map (dict_of s) es).
        { apply map_ext; intros z; eapply same_dict; eauto. } rewrite E in IH. apply (same_trans _ _ _ _ _ X IH).
      - eapply same_incl; [|exact X]. intros z. cbn. tauto.
    Qed.
    Lemma derive_dicts : forall l c s, map (dicts_of s) c = map (dicts_of s) l ->
      derive_obj minus negative sa ea da s c = derive_obj minus negative sa ea da s l.
    Proof.
      induction l as [|t l IH]; intros [|u c] s E; cbn [map] in E; try discriminate; auto.
      apply cons_inj in E. destruct E as [E1 E2]. cbn [derive_obj].
      assert (Et : derive_trace_obj minus negative sa ea da s u = derive_trace_obj minus negative sa ea da s t).
      { unfold derive_trace_obj. unfold dicts_of in E1. destruct (contents s u) as [|a es], (contents s t) as [|b fs]; cbn [map] in E1; try discriminate; auto.
        apply derive_events_dicts; auto. apply cons_inj in E1. tauto. }
      rewrite Et. assert (X : exists D, same s (fst (derive_trace_obj minus negative sa ea da s t)) D).
      { unfold derive_trace_obj. destruct (contents s t) as [|b fs]; [exists []; apply same_refl|].
        pose proof (derive_events_same (b :: fs) b s) as G. destruct (derive_events_obj minus negative sa ea da b (b :: fs) s). cbn [fst]. eauto. }
      destruct X as [D X]. destruct (derive_trace_obj minus negative sa ea da s t) as [s1 [r|]]; auto. cbn [fst] in X. apply IH.
      assert (Ed : forall u, dicts_of s1 u = dicts_of s u).
      { intros z. unfold dicts_of. rewrite (same_contents _ _ _ _ X). apply map_ext. intros y. eapply same_dict; eauto. }
      rewrite (map_ext _ _ Ed), (map_ext _ _ Ed). auto.
    Qed.
  End Derive.

  Section Join.
    Variables (minus plus : V -> V -> result V) (ord : list string -> list string) (sa ea da : option string) (re : bool) (bl : list A).
    Notation join := (join_events minus plus ord sa ea da re).
    Notation joining := (join_events_obj minus plus ord sa ea da re).
    Notation loop := (join_loop minus plus ord sa ea da re bl).
    Notation looping := (join_loop_obj minus plus ord sa ea da re bl).
    Lemma join_events_ok a b s : a <> b -> let '(s', r) := joining a b s in
      same s s' [a] /\ match join (dcts s a) (dcts s b) with
                       | Ok d' => r = Ok tt /\ dcts s' a = d'
                       | Err x => r = Err x
                       end.
    Proof.
      intros N. unfold join_events_obj, join_events.
      set (M := if re then _ else Ok tt). destruct M as [u|x]; cbn [bind]; [|split; auto; apply same_refl].
      assert (P : forall s1 a1, same s s1 [a] -> dcts s1 a = a1 ->
        let '(s', r) := match da with
          | None => (s1, Ok tt)
          | Some d =>
            match match sa, ea with
                  | Some st, Some e => do ve <- attr e (dcts s1 a) ; do vs <- attr st (dcts s1 a) ; minus ve vs
                  | _, _ => do va <- attr d (dcts s1 a) ; do vb <- attr d (dcts s1 b) ; plus va vb
                  end with
            | Err x => (s1, Err x)
            | Ok v => (set_dct a (dict_set d v (dcts s1 a)) s1, Ok tt)
            end
          end in
        same s s' [a] /\ match (match da with
          | None => Ok a1
          | Some d =>
            match sa, ea with
            | Some s, Some e => do ve <- attr e a1 ; do vs <- attr s a1 ; do v <- minus ve vs ; Ok (dict_set d v a1)
            | _, _ => do va <- attr d a1 ; do vb <- attr d (dcts s b) ; do v <- plus va vb ; Ok (dict_set d v a1)
            end
          end) with Ok d' => r = Ok tt /\ dcts s' a = d' | Err x => r = Err x end).
      { intros s1 a1 X <-. assert (Eb : dcts s1 b = dcts s b) by (apply (sa_dcts _ _ _ X); intros [E|[]]; auto). rewrite Eb.
        destruct da as [d|]; [|auto].
        assert (X' : forall v, same s (set_dct a (dict_set d v (dcts s1 a)) s1) [a] /\ Ok tt = Ok tt /\
          dcts (set_dct a (dict_set d v (dcts s1 a)) s1) a = dict_set d v (dcts s1 a)).
        { intros v. split; [|split; [auto|cbn [set_dct dcts]; apply put_same]].
          apply (same_incl _ _ ([a] ++ [a])); [intros x; cbn; tauto|]. eapply same_trans; [exact X|apply same_set]. }
        assert (P1 : let '(s', r) := match (do va <- attr d (dcts s1 a) ; do vb <- attr d (dcts s b) ; plus va vb) with
                  | Err x => (s1, Err x) | Ok v => (set_dct a (dict_set d v (dcts s1 a)) s1, Ok tt) end in
           same s s' [a] /\ match (do va <- attr d (dcts s1 a) ; do vb <- attr d (dcts s b) ; do v <- plus va vb ; Ok (dict_set d v (dcts s1 a)))
             with Ok d' => r = Ok tt /\ dcts s' a = d' | Err x => r = Err x end).
        { destruct (attr d (dcts s1 a)) as [va|]; cbn [bind]; auto. destruct (attr d (dcts s b)) as [vb|]; cbn [bind]; auto.
          destruct (plus va vb) as [v|]; cbn [bind]; auto. }
        destruct sa as [st|]; [|exact P1]. destruct ea as [e|]; [|exact P1].
        destruct (attr e (dcts s1 a)) as [ve|]; cbn [bind]; auto. destruct (attr st (dcts s1 a)) as [vs|]; cbn [bind]; auto.
        destruct (minus ve vs) as [v|]; cbn [bind]; auto. }
      destruct ea as [e|]; cbn [bind].
      - destruct (attr e (dcts s b)) as [v|]; cbn [bind].
        + apply (P (set_dct a (dict_set e v (dcts s a)) s)); [apply same_set|]. cbn [set_dct dcts]. apply put_same.
        + split; auto. apply same_refl.
      - apply (P s); auto. apply same_refl.
    Qed.
    Lemma join_loop_ok : forall rest done last s, NoDup (map (dict_of s) (done ++ last :: rest)) ->
      let '(s', r) := looping done last rest s in
      same s s' (dict_of s last :: map (dict_of s) rest) /\
      match loop (map (view_event s) done) (view_event s last) (map (view_event s) rest) with
      | Ok vs => exists es, r = Ok es /\ map (view_event s') es = vs /\ incl es (done ++ last :: rest)
      | Err x => r = Err x
      end.
    Proof.
      induction rest as [|e rest IH]; intros done last s Hn; cbn [join_loop_obj join_loop map].
      - split; [apply same_refl|]. exists (done ++ [last]). split; auto. split; [rewrite map_app; auto|apply incl_refl].
      - change (activity (view_event s last)) with (o_act (evs s last)). change (activity (view_event s e)) with (o_act (evs s e)).
        destruct (eqb (o_act (evs s last)) (o_act (evs s e)) && negb (mem (o_act (evs s e)) bl)).
        + fold (dict_of s last). fold (dict_of s e).
          assert (Hn3 : dict_of s last <> dict_of s e /\ ~ In (dict_of s last) (map (dict_of s) done) /\ ~ In (dict_of s last) (map (dict_of s) rest) /\
            NoDup (map (dict_of s) (done ++ last :: rest))).
          { rewrite map_app in Hn. cbn [map] in Hn. pose proof (NoDup_remove_2 _ _ _ Hn) as H1. rewrite in_app_iff in H1. cbn [In] in H1.
            split; [intros E; apply H1; auto|]. split; [tauto|]. split; [tauto|]. rewrite map_app. cbn [map].
            assert (P1 : Permutation (map (dict_of s) done ++ dict_of s last :: dict_of s e :: map (dict_of s) rest)
                                     (dict_of s e :: map (dict_of s) done ++ dict_of s last :: map (dict_of s) rest)).
            { etransitivity; [apply Permutation_app_head; apply perm_swap|]. symmetry. apply Permutation_middle. }
            apply (Permutation_NoDup P1) in Hn. apply NoDup_cons_iff in Hn. tauto. }
          destruct Hn3 as (N1 & N2 & N3 & N4).
          pose proof (join_events_ok (dict_of s last) (dict_of s e) s N1) as G.
          change (ev_attrs (view_event s last)) with (dcts s (dict_of s last)). change (ev_attrs (view_event s e)) with (dcts s (dict_of s e)).
          destruct (joining (dict_of s last) (dict_of s e) s) as [s1 r]. destruct G as [X G].
          destruct (join (dcts s (dict_of s last)) (dcts s (dict_of s e))) as [d'|x]; cbn [bind].
          2: { subst r. split; auto. eapply same_incl; [|exact X]. intros y; cbn; tauto. }
          destruct G as [-> Ed].
          assert (Edm : forall es', map (dict_of s1) es' = map (dict_of s) es').
          { intros es'. apply map_ext. intros y. eapply same_dict. eauto. }
          assert (Ev : view_event s1 last = Event (o_act (evs s last)) d' (transition (view_event s last))).
          { unfold view_event. rewrite (sa_evs _ _ _ X). cbn [activity transition]. fold (dict_of s last). rewrite Ed. auto. }
          assert (Es : forall es, ~ In (dict_of s last) (map (dict_of s) es) -> map (view_event s1) es = map (view_event s) es).
          { intros es Hes. apply map_ext_in. intros y Hy. eapply same_view_event; [exact X|]. intros [E|[]]. apply Hes. rewrite E. apply in_map. auto. }
          specialize (IH done last s1). rewrite Edm in IH. specialize (IH N4). rewrite Ev, !Es in IH by auto.
          destruct (looping done last rest s1) as [s2 r2]. destruct IH as [X2 IH]. rewrite Edm, (same_dict _ _ _ _ X) in X2. split.
          * eapply same_incl; [|exact (same_trans _ _ _ _ _ X X2)]. intros y; cbn. tauto.
          * destruct (loop _ _ _) as [vs|x]; auto. destruct IH as (es & -> & E & Hi). exists es. split; auto. split; auto.
            intros y Hy. apply Hi in Hy. rewrite in_app_iff in *. cbn in *. tauto.
        + specialize (IH (done ++ [last]) e s). rewrite <- app_assoc in IH. specialize (IH Hn). rewrite map_app in IH. cbn [map] in IH.
          destruct (looping (done ++ [last]) e rest s) as [s2 r2]. destruct IH as [X2 IH]. split; auto.
          eapply same_incl; [|exact X2]. intros y; cbn. tauto.
    Qed.

    (** [s'] comes from [s] by new lists for the traces [l] and changes of the dictionaries [D] *)
    Record relisted s s' (l D : list nat) : Prop := {
      re_next : next s <= next s';
      re_evs : evs s' = evs s;
      re_trs : forall t, ~ In t l -> trs s' t = trs s t;
      re_tid : forall t, o_tid (trs s' t) = o_tid (trs s t);
      re_tattrs : forall t, o_tattrs (trs s' t) = o_tattrs (trs s t);
      re_lsts : forall x, x < next s -> lsts s' x = lsts s x;
      re_dcts : forall d, ~ In d D -> dcts s' d = dcts s d }.
    Lemma relisted_trans s1 s2 s3 l l' D D' : relisted s1 s2 l D -> relisted s2 s3 l' D' -> relisted s1 s3 (l ++ l') (D ++ D').
    Proof.
      intros [A1 A2 A3 A4 A5 A6 A7] [B1 B2 B3 B4 B5 B6 B7]. constructor.
      - lia.
      - congruence.
      - intros t Ht. rewrite in_app_iff in Ht. rewrite B3, A3; auto.
      - intros t. rewrite B4. auto.
      - intros t. rewrite B5. auto.
      - intros x Hx. rewrite B6, A6 by lia. auto.
      - intros d Hd. rewrite in_app_iff in Hd. rewrite B7, A7; auto.
    Qed.
    Lemma relisted_incl s1 s2 l l' D D' : incl l l' -> incl D D' -> relisted s1 s2 l D -> relisted s1 s2 l' D'.
    Proof. intros H1 H2 [A1 A2 A3 A4 A5 A6 A7]. constructor; auto. Qed.
    Lemma relisted_contents s s' l D t : relisted s s' l D -> ~ In t l -> o_events (trs s t) < next s -> contents s' t = contents s t.
    Proof. intros X Hn Hlt. unfold contents. rewrite (re_trs _ _ _ _ X), (re_lsts _ _ _ _ X); auto. Qed.
    Lemma relisted_view s s' l D t : relisted s s' l D -> ~ In t l -> o_events (trs s t) < next s ->
      (forall d, In d (o_tattrs (trs s t) :: dicts_of s t) -> ~ In d D) -> view_trace s' t = view_trace s t.
    Proof.
      intros X Hn Hlt Hd. unfold view_trace. rewrite (relisted_contents _ _ _ _ _ X), (re_trs _ _ _ _ X), (re_dcts _ _ _ _ X) by (auto; apply Hd; cbn; auto).
      f_equal. apply map_ext_in. intros e He. unfold view_event. rewrite (re_evs _ _ _ _ X), (re_dcts _ _ _ _ X); auto. apply Hd. cbn. right. apply (in_map (dict_of s)). auto.
    Qed.
    Lemma join_trace_ok t s : NoDup (o_tattrs (trs s t) :: dicts_of s t) ->
      let '(s', r) := join_trace_obj minus plus ord sa ea da re bl s t in
      relisted s s' [t] (dicts_of s t) /\ match (match events (view_trace s t) with
        | [] => Err IndexError
        | e :: es => do es' <- loop [] e es ; Ok (with_events (view_trace s t) es')
        end) with
        | Ok v => r = Ok tt /\ view_trace s' t = v /\ incl (contents s' t) (contents s t) /\ o_events (trs s' t) < next s'
        | Err x => r = Err x
        end.
    Proof.
      unfold dicts_of. intros Hn. unfold join_trace_obj. cbn [view_trace events]. fold (view_trace s t).
      assert (Hs : forall s' D, same s s' D -> relisted s s' [t] D).
      { intros s' D [A1 A2 A3 A4 A5]. constructor; try rewrite A1; try rewrite A3; try rewrite A4; auto. }
      destruct (contents s t) as [|e es] eqn:Ec; cbn [map].
      - split; auto. apply Hs. apply same_refl.
      - apply NoDup_cons_iff in Hn. destruct Hn as [Ht Hn]. pose proof (join_loop_ok es [] e s Hn) as G. cbn [map app] in G.
        destruct (looping [] e es s) as [s1 r]. destruct G as [X G].
        destruct (loop [] (view_event s e) (map (view_event s) es)) as [vs|x]; cbn [bind].
        2: { subst r. split; auto. }
        destruct G as (es' & -> & E & Hi). unfold rebind, alloc_lst, set_events. cbn [evs trs lsts dcts next].
        assert (Ec' : forall q, contents (Store (evs s1) (put (trs s1) t (Tr (o_tid (trs s1 t)) (next s1) (o_tattrs (trs s1 t)))) (put (lsts s1) (next s1) es') (dcts s1) q) t = es').
        { intros q. unfold contents. cbn [trs lsts]. rewrite put_same. cbn [o_events]. apply put_same. }
        split; [|split; [auto|split; [|split]]].
        + constructor; cbn [evs trs lsts dcts next].
          * rewrite (sa_next _ _ _ X). lia.
          * apply X.
          * intros u Hu. rewrite put_other by (intros ->; apply Hu; cbn; auto). rewrite (sa_trs _ _ _ X). auto.
          * intros u. destruct (Nat.eq_dec u t) as [->|N]; [rewrite put_same; cbn [o_tid]|rewrite put_other by auto]; rewrite (sa_trs _ _ _ X); auto.
          * intros u. destruct (Nat.eq_dec u t) as [->|N]; [rewrite put_same; cbn [o_tattrs]|rewrite put_other by auto]; rewrite (sa_trs _ _ _ X); auto.
          * intros x Hx. rewrite put_other by (rewrite (sa_next _ _ _ X); lia). rewrite (sa_lsts _ _ _ X). auto.
          * apply X.
        + unfold view_trace, with_events. rewrite Ec'. cbn [trs dcts tid tr_attrs]. rewrite put_same. cbn [o_tid o_tattrs].
          rewrite (sa_trs _ _ _ X), (sa_dcts _ _ _ X) by auto. f_equal. rewrite <- E. apply map_ext. intros y. auto.
        + rewrite Ec'. auto.
        + rewrite put_same. cbn [o_events]. lia.
    Qed.
    Lemma join_ok : forall l s, own_dicts s l -> NoDup l -> (forall t, In t l -> o_events (trs s t) < next s) ->
      let '(s', r) := join_obj minus plus ord sa ea da re bl s l in
      relisted s s' l (flat_map (dicts_of s) l) /\
      match join_successive minus plus ord sa ea da re bl (view_log s l) with
      | Ok v => r = Ok tt /\ view_log s' l = v /\ forall t, In t l -> incl (contents s' t) (contents s t)
      | Err x => r = Err x
      end.
    Proof.
      unfold own_dicts, join_successive, view_log. induction l as [|t l IH]; intros s Hn Hu Hlt; cbn [join_obj mapM map flat_map].
      - split; [constructor; auto|]. split; auto. split; auto. intros t [].
      - cbn [flat_map] in Hn. fold (dicts_of s t) in Hn. apply NoDup_cons_iff in Hu. destruct Hu as [Htl Hu].
        assert (Hd : NoDup (o_tattrs (trs s t) :: dicts_of s t) /\ NoDup (flat_map (fun t => o_tattrs (trs s t) :: dicts_of s t) l) /\
          (forall d, In d (o_tattrs (trs s t) :: dicts_of s t) -> ~ In d (flat_map (fun t => o_tattrs (trs s t) :: dicts_of s t) l))).
        { clear - Hn. unfold dicts_of, dict_of in *. revert Hn. generalize (o_tattrs (trs s t) :: map (fun e => o_attrs (evs s e)) (contents s t)) as a.
          generalize (flat_map (fun t => o_tattrs (trs s t) :: map (fun e => o_attrs (evs s e)) (contents s t)) l) as b. intros b a. clear.
          induction a as [|x a IH]; cbn [app]; intros Hn; [split; [constructor|split; auto]|].
          apply NoDup_cons_iff in Hn. destruct Hn as [Hx Hn]. rewrite in_app_iff in Hx. destruct (IH Hn) as (I1 & I2 & I3).
          split; [constructor; auto|]. split; auto. intros d [<-|Hd]; auto. }
        destruct Hd as (Ht & Hl & Hd). pose proof (join_trace_ok t s Ht) as G.
        destruct (join_trace_obj minus plus ord sa ea da re bl s t) as [s1 r]. destruct G as [X G].
        assert (Xi : incl (dicts_of s t) (dicts_of s t ++ flat_map (dicts_of s) l)) by (intros y Hy; apply in_app_iff; auto).
        set (M := match events (view_trace s t) with [] => Err IndexError | _ => _ end) in *.
        destruct M as [v|x]; cbn [bind].
        2: { subst r. split; auto. eapply relisted_incl; [| |exact X]; auto. intros y; cbn; tauto. }
        destruct G as (-> & Ev & Hin & Hnew).
        assert (Hne : forall u, In u l -> u <> t) by (intros u Hul ->; auto).
        assert (Ec : forall u, In u l -> contents s1 u = contents s u).
        { intros u Hul. eapply relisted_contents; [exact X| |apply Hlt; cbn; auto]. intros [E|[]]. apply (Hne u); auto. }
        assert (Ed : forall u, In u l -> dicts_of s1 u = dicts_of s u).
        { intros u Hul. unfold dicts_of, dict_of. rewrite Ec, (re_evs _ _ _ _ X); auto. }
        assert (Ef : flat_map (fun t => o_tattrs (trs s1 t) :: dicts_of s1 t) l = flat_map (fun t => o_tattrs (trs s t) :: dicts_of s t) l).
        { rewrite !flat_map_concat_map. f_equal. apply map_ext_in. intros u Hul. rewrite Ed, (re_tattrs _ _ _ _ X); auto. }
        assert (Eg : flat_map (dicts_of s1) l = flat_map (dicts_of s) l).
        { rewrite !flat_map_concat_map. f_equal. apply map_ext_in. auto. }
        assert (Evl : map (view_trace s1) l = map (view_trace s) l).
        { apply map_ext_in. intros u Hul. eapply relisted_view; [exact X| |apply Hlt; cbn; auto|].
          - intros [E|[]]. apply (Hne u); auto.
          - intros d Hd1 Hd2. apply (Hd d); [cbn; auto|]. apply in_flat_map. exists u. auto. }
        specialize (IH s1). rewrite Evl in IH. unfold dicts_of, dict_of in Ef. rewrite Ef in IH.
        assert (Hlt1 : forall u, In u l -> o_events (trs s1 u) < next s1).
        { intros u Hul. rewrite (re_trs _ _ _ _ X) by (intros [E|[]]; apply (Hne u); auto). pose proof (re_next _ _ _ _ X).
          assert (o_events (trs s u) < next s) by (apply Hlt; cbn; auto). lia. }
        specialize (IH Hl Hu Hlt1).
        destruct (join_obj minus plus ord sa ea da re bl s1 l) as [s2 r2]. destruct IH as [X2 IH]. rewrite Eg in X2.
        split; [apply (relisted_trans _ _ _ _ _ _ _ X X2)|].
        destruct (mapM _ (map (view_trace s) l)) as [vs|x]; cbn [bind]; auto. destruct IH as (-> & IH & Hsub). split; auto.
        split; [|intros u [<-|Hul]; [rewrite (relisted_contents _ _ _ _ _ X2) by auto; auto|rewrite <- Ec by auto; auto]]. rewrite IH. f_equal.
        rewrite <- Ev. eapply relisted_view; [exact X2|auto|auto|].
        intros d Hd1 Hd2. apply (Hd d).
        + rewrite (re_tattrs _ _ _ _ X) in Hd1. destruct Hd1 as [->|Hd1]; [cbn; auto|]. right. unfold dicts_of in *. apply in_map_iff in Hd1.
          destruct Hd1 as (y & <- & Hy). unfold dict_of. rewrite (re_evs _ _ _ _ X). apply (in_map (dict_of s)). auto.
        + apply in_flat_map in Hd2. destruct Hd2 as (u & Hul & Hd2). apply in_flat_map. exists u. cbn; auto.
    Qed.
  End Join.

  (** what create_from_dict(to_dict()) makes *)
  Lemma reread_events_ok : forall es s, (forall e, In e es -> e < next s /\ o_attrs (evs s e) < next s) ->
    let '(s1, ns) := reread_events s es in
    ext s s1 /\ trs s1 = trs s /\ lsts s1 = lsts s /\ dcts s1 = dcts s /\ length ns = length es /\
    Forall2 (fun n e => evs s1 n = Ev (o_act (evs s e)) (o_attrs (evs s e)) None /\ next s <= n < next s1) ns es.
  Proof.
    induction es as [|e es IH]; intros s He; cbn [reread_events].
    - split; [apply ext_refl|]. repeat (split; auto).
    - unfold alloc_ev at 1. set (s1 := Store _ _ _ _ _).
      assert (X : ext s s1).
      { constructor; cbn [s1 evs trs lsts dcts next]; try lia; auto; intros x Hx; apply put_other; lia. }
      assert (He1 : forall y, In y es -> y < next s1 /\ o_attrs (evs s1 y) < next s1).
      { intros y Hy. destruct (He y) as [H1 H2]; [cbn; auto|]. rewrite (ex_evs _ _ X) by auto. cbn [s1 next]. lia. }
      specialize (IH s1 He1). destruct (reread_events s1 es) as [s2 ns]. destruct IH as (X2 & E1 & E2 & E3 & El & Hf).
      split; [eapply ext_trans; eauto|]. split; [rewrite E1; auto|]. split; [rewrite E2; auto|]. split; [rewrite E3; auto|].
      split; [cbn; auto|]. pose proof (ex_next _ _ X2) as Hn. change (next s1) with (S (next s)) in Hn. constructor.
      + rewrite (ex_evs _ _ X2) by (cbn [s1 next]; lia). cbn [s1 evs]. rewrite put_same. split; [auto|lia].
      + assert (Hes : forall y, In y es -> y < next s) by (intros y Hy; apply He; cbn; auto).
        clear - Hf Hes Hn. revert Hes. change (next s1) with (S (next s)) in Hf. induction Hf as [|n f ns es [H1 H2] Hf IH]; intros Hes; constructor.
        * split; [|lia]. rewrite H1. cbn [s1 evs]. rewrite put_other; auto. assert (f < next s) by (apply Hes; cbn; auto). lia.
        * apply IH. intros y Hy. apply Hes. cbn; auto.
  Qed.
  (** trace [u] of [s1] is like trace [t], with other events and another list, but the same dictionaries *)
  Definition mirrors s1 (u t : nat) : Prop :=
    o_tid (trs s1 u) = o_tid (trs s1 t) /\ o_tattrs (trs s1 u) = o_tattrs (trs s1 t) /\
    Forall2 (fun n e => evs s1 n = Ev (o_act (evs s1 e)) (o_attrs (evs s1 e)) None) (contents s1 u) (contents s1 t).
  Lemma mirrors_view s1 u t : mirrors s1 u t -> view_trace s1 u = without_transitions (view_trace s1 t).
  Proof.
    intros (E1 & E2 & E3). unfold view_trace, without_transitions, with_events. cbn [tid events tr_attrs]. rewrite E1, E2. f_equal.
    induction E3 as [|n e ns es H1 _ IH]; cbn [map]; auto. rewrite IH. f_equal. unfold view_event at 1. rewrite H1. auto.
  Qed.
  Lemma mirrors_dicts s1 u t : mirrors s1 u t -> dicts_of s1 u = dicts_of s1 t.
  Proof.
    intros (_ & _ & E3). unfold dicts_of. induction E3 as [|n e ns es H1 _ IH]; cbn [map]; auto. rewrite IH. f_equal. unfold dict_of. rewrite H1. auto.
  Qed.
  Lemma mirrors_same s s' D u t : same s s' D -> mirrors s u t -> mirrors s' u t.
  Proof.
    intros X (E1 & E2 & E3). unfold mirrors. rewrite (sa_trs _ _ _ X), (sa_evs _ _ _ X), !(same_contents _ _ _ _ X). auto.
  Qed.
  Lemma Forall2_in_impl {X Y} (P Q : X -> Y -> Prop) a b : (forall x y, In x a -> In y b -> P x y -> Q x y) -> Forall2 P a b -> Forall2 Q a b.
  Proof.
    intros H F. induction F as [|x y a b H1 F IH]; constructor.
    - apply H; cbn; auto.
    - apply IH. intros; apply H; cbn; auto.
  Qed.
  Lemma reread_trace_ok s t : live1 s t -> let '(s1, r) := reread_trace s t in
    ext s s1 /\ match r with
    | Err x => x = ValueError /\ contents s t = []
    | Ok u => contents s t <> [] /\ next s <= u /\ live1 s1 u /\ mirrors s1 u t /\ next s <= o_events (trs s1 u) /\
        forall n, In n (contents s1 u) -> next s <= n
    end.
  Proof.
    intros (L1 & L2 & L3 & L4). unfold reread_trace. pose proof (reread_events_ok (contents s t) s L4) as G.
    destruct (reread_events s (contents s t)) as [s1 ns]. destruct G as (X & E1 & E2 & E3 & El & Hf).
    destruct ns as [|n ns].
    { split; auto. split; auto. destruct (contents s t); auto. discriminate. }
    unfold alloc_lst, alloc_tr. cbn [evs trs lsts dcts next]. set (s2 := Store _ _ _ _ _). set (ns' := n :: ns) in *.
    assert (X2 : ext s1 s2).
    { constructor; cbn [s2 evs trs lsts dcts next]; try lia; auto; intros x Hx; apply put_other; lia. }
    pose proof (ext_trans _ _ _ X X2) as X3.
    assert (Et : trs s2 (S (next s1)) = Tr (o_tid (trs s t)) (next s1) (o_tattrs (trs s t))).
    { cbn [s2 trs]. rewrite put_same, E1. auto. }
    assert (Ec : contents s2 (S (next s1)) = ns').
    { unfold contents. rewrite Et. cbn [o_events s2 lsts]. apply put_same. }
    destruct (ext_live s s2 t X3) as (Lt & Tt & Ct & _ & Evs); [repeat split; auto; apply L4; auto|].
    pose proof (ex_next _ _ X) as Hn. split; auto. split; [destruct (contents s t); [discriminate|congruence]|]. split; [lia|].
    assert (Hin : forall x, In x ns' -> next s <= x < next s1 /\ o_attrs (evs s1 x) < next s).
    { intros x Hx. clearbody ns'. clear - Hf Hx L4. induction Hf as [|a e ms es [H1 H2] Hf IH]; [destruct Hx|]. destruct Hx as [<-|Hx].
      - split; auto. rewrite H1. cbn. apply L4. cbn; auto.
      - apply IH; auto. intros y Hy. apply L4. cbn; auto. }
    split; [|split; [|split]].
    - unfold live1. rewrite Ec, Et. cbn [o_events o_tattrs]. change (next s2) with (S (S (next s1))). split; [lia|]. split; [lia|]. split; [lia|].
      intros x Hx. destruct (Hin x Hx). rewrite (ex_evs _ _ X2) by lia. lia.
    - unfold mirrors. rewrite Ec, Ct, Et, Tt. cbn [o_tid o_tattrs]. split; auto. split; auto.
      eapply Forall2_in_impl; [|exact Hf]. intros a e Ha He [H1 H2]. cbv beta. rewrite (ex_evs _ _ X2), H1 by lia.
      assert (Ee : evs s2 e = evs s e) by auto. rewrite Ee. auto.
    - rewrite put_same. cbn. lia.
    - rewrite Ec. intros x Hx. destruct (Hin x Hx). lia.
  Qed.
  Lemma mirrors_ext s s' u t : ext s s' -> live1 s u -> live1 s t -> mirrors s u t -> mirrors s' u t.
  Proof.
    intros X Lu Lt (E1 & E2 & E3). destruct (ext_live s s' u X Lu) as (_ & Tu & Cu & _ & Eu). destruct (ext_live s s' t X Lt) as (_ & Tt & Ct & _ & Et).
    unfold mirrors. rewrite Tu, Tt, Cu, Ct. split; auto. split; auto. eapply Forall2_in_impl; [|exact E3].
    intros a e Ha He H1. cbv beta in *. rewrite Eu, Et by auto. auto.
  Qed.
  Lemma reread_ok : forall l s, exists_in s l -> let '(s1, r) := reread s l in ext s s1 /\ match r with
    | Err x => x = ValueError /\ ~ no_empty s l
    | Ok c => no_empty s l /\ fine s1 c /\ Forall2 (mirrors s1) c l /\
      (forall u, In u c -> next s <= u /\ next s <= o_events (trs s1 u) /\ forall n, In n (contents s1 u) -> next s <= n)
    end.
  Proof.
    induction l as [|t l IH]; intros s He; cbn [reread].
    - split; [apply ext_refl|]. split; [intros t []|]. split; [split; [intros t []|split; constructor]|]. split; [constructor|intros u []].
    - assert (Lt : live1 s t) by (apply He; cbn; auto). pose proof (reread_trace_ok s t Lt) as C. destruct (reread_trace s t) as [s1 [u|x]].
      2: { destruct C as (X1 & -> & E). split; auto. split; auto. intros N. apply (N t); cbn; auto. }
      destruct C as (X1 & Nt & Hu & Lu & Mu & Eu & Fu).
      assert (He1 : exists_in s1 l) by (intros x Hx; apply (ext_live s s1 x X1); apply He; cbn; auto).
      assert (Nl : no_empty s1 l <-> no_empty s l).
      { split; intros N x Hx E; apply (N x Hx); destruct (ext_live s s1 x X1) as (_ & _ & Ex & _); try congruence; apply He; cbn; auto. }
      specialize (IH s1 He1). destruct (reread s1 l) as [s2 [c|x]].
      2: { destruct IH as (X2 & -> & N). split; [eapply ext_trans; eauto|]. split; auto. intros N'. apply N. apply Nl. intros x Hx. apply N'. cbn; auto. }
      destruct IH as (X2 & N2 & [F1 [F2 F3]] & M2 & Hc).
      destruct (ext_live s1 s2 u X2 Lu) as (Lu2 & Tu2 & Cu2 & _ & _).
      assert (Hlt : u < next s1 /\ o_events (trs s1 u) < next s1) by (destruct Lu as (? & ? & ? & _); auto).
      destruct (ext_live s s1 t X1 Lt) as (Lt1 & _). pose proof (ex_next _ _ X1) as Hn.
      split; [eapply ext_trans; eauto|]. split; [intros x [<-|Hx]; auto; apply Nl; auto|]. split; [split; [|split]|split].
      + intros x [<-|Hx]; auto.
      + constructor; auto. intros Hin. destruct (Hc u Hin). lia.
      + cbn [map]. constructor; auto. rewrite Tu2. intros Hin. apply in_map_iff in Hin. destruct Hin as (v & E & Hv). destruct (Hc v Hv) as (_ & E1 & _). lia.
      + constructor; auto. apply (mirrors_ext s1 s2); auto.
      + intros v [<-|Hv]; [rewrite Tu2, Cu2; auto|]. destruct (Hc v Hv) as (? & ? & H3). split; [lia|]. split; [lia|]. intros n Hn'. apply H3 in Hn'. lia.
  Qed.
End O.
