(** Event logs as objects: the properties C136 - C139 *)
From Coq Require Import String ZArith QArith Permutation.
From Verif.Model Require Import Base EventLog LogNoise LogObjects.
From Verif.Spec Require Import LogObjectSpec.
From Verif.Lib Require Import ListLib.
From Verif.Proofs Require Import LogObjA LogObjB LogObjC.
From Verif.Proofs Require EventLogB.
Open Scope list_scope.
Open Scope nat_scope.

Section O.
  Context {A V I : Type} `{EA : Eq A} `{EV : Eq V}.
  Implicit Types (s : store A V I) (l m : list nat) (t : nat).

  Lemma map_pointwise {X Y} (f g : X -> Y) (l : list X) : map f l = map g l -> forall x, In x l -> f x = g x.
  Proof. induction l as [|x l IH]; cbn [map]; intros E y Hy; [destruct Hy|]. apply cons_inj in E. destruct E as [E1 E2]. destruct Hy as [<-|Hy]; auto. Qed.
  Lemma view_pointwise s s' (F : trace A V I -> trace A V I) l : view_log s' l = map F (view_log s l) ->
    forall t, In t l -> view_trace s' t = F (view_trace s t).
  Proof. unfold view_log. rewrite map_map. apply map_pointwise. Qed.
  Lemma edit_each x s l m : ~ is_noise x -> fine s (l ++ m) -> let '(s', _) := do_edit x s l in
    (forall t, In t l -> view_trace s' t = edited_trace x (view_trace s t)) /\ (forall t, In t m -> view_trace s' t = view_trace s t).
  Proof.
    intros Hx Hf.
    assert (M : let '(s', _) := do_edit x s l in forall t, In t m -> view_trace s' t = view_trace s t).
    { pose proof (edit_good x l m s Hf) as G. destruct (do_edit x s l) as [s' l']. destruct G as (_ & _ & G & _). apply map_pointwise. exact G. }
    assert (L : let '(s', _) := do_edit x s l in forall t, In t l -> view_trace s' t = edited_trace x (view_trace s t)).
    { clear M. destruct x as [a b|a b|a|a| |n]; cbn [do_edit edited_trace]; [| | | | |destruct Hx; exact Logic.I].
      - unfold cut_traces_obj. cbn zeta.
        set (s1 := match a with None => s | Some acts => for_each (fun s t =>
                  rebind (fun es => slice_from es (get_first_index (view_trace s t) acts)) s t) s l end).
        assert (H1 : fine s1 (l ++ m) /\ forall t, In t l -> view_trace s1 t = match a with None => view_trace s t
          | Some acts => with_events (view_trace s t) (slice_from (events (view_trace s t)) (get_first_index (view_trace s t) acts)) end).
        { destruct a as [acts|]; [|auto].
          destruct (for_each_ok _ (fun es => slice_from es (first_match 0 es acts)) (fun s t => step_cut_start acts s t) l m s Hf) as (F1 & F2 & _).
          split; auto. intros t Ht. exact (view_pointwise _ _ _ _ F2 t Ht). }
        destruct H1 as [F1 E1]. intros t Ht. rewrite <- (E1 t Ht). destruct b as [acts|]; [|auto].
        destruct (for_each_ok _ (fun es => slice_to es (last_match (ListUtils.enumerate_reversed es) acts + 1)) (fun s t => step_cut_end acts s t) l m s1 F1) as (_ & F2 & _).
        exact (view_pointwise _ _ _ _ F2 t Ht).
      - assert (E : forall t, In t l -> view_trace (fst (filter_activities_obj a false s l)) t =
          with_events (view_trace s t) (filter (fun e => mem (activity e) a) (events (view_trace s t)))).
        { destruct (for_each_ok _ _ (fun s t => step_filter a s t) l m s Hf) as (_ & F2 & _). intros t Ht. exact (view_pointwise _ _ _ _ F2 t Ht). }
        destruct b; exact E.
      - destruct (for_each_ok _ _ (fun s t => step_start a s t) l m s Hf) as (_ & F2 & _). intros t Ht. exact (view_pointwise _ _ _ _ F2 t Ht).
      - destruct (for_each_ok _ _ (fun s t => step_end a s t) l m s Hf) as (_ & F2 & _). intros t Ht. exact (view_pointwise _ _ _ _ F2 t Ht).
      - destruct (for_each_ok _ _ (fun s t => step_keep s t) l m s Hf) as (_ & F2 & _). intros t Ht. exact (view_pointwise _ _ _ _ F2 t Ht). }
    destruct (do_edit x s l) as [s' l']. auto.
  Qed.

  Lemma own_dicts_perm s l : Permutation (flat_map (fun t => o_tattrs (trs s t) :: map (fun e => o_attrs (evs s e)) (contents s t)) l)
    (map (fun t => o_tattrs (trs s t)) l ++ flat_map (dicts_of s) l).
  Proof.
    induction l as [|t l IH]; cbn [flat_map map app]; auto. constructor. fold (dicts_of s t). change (map (fun e => o_attrs (evs s e)) (contents s t)) with (dicts_of s t).
    etransitivity; [apply Permutation_app_head; exact IH|]. rewrite !app_assoc. apply Permutation_app_tail. apply Permutation_app_comm.
  Qed.
  Lemma own_dicts_iff s l : own_dicts s l <-> NoDup (map (fun t => o_tattrs (trs s t)) l ++ flat_map (dicts_of s) l).
  Proof.
    unfold own_dicts. split; apply Permutation_NoDup; [|symmetry]; apply own_dicts_perm.
  Qed.
  Lemma ext_dicts s s1 t : ext s s1 -> live1 s t -> dicts_of s1 t = dicts_of s t.
  Proof.
    intros X L. destruct (ext_live s s1 t X L) as (_ & _ & Ec & _ & Ee). unfold dicts_of, dict_of. rewrite Ec. apply map_ext_in. intros e He. rewrite Ee; auto.
  Qed.
  Lemma ext_own_dicts s s1 l : ext s s1 -> exists_in s l -> own_dicts s l -> own_dicts s1 l.
  Proof.
    intros X He. rewrite !own_dicts_iff. intros Hn.
    assert (E1 : map (fun t => o_tattrs (trs s1 t)) l = map (fun t => o_tattrs (trs s t)) l).
    { apply map_ext_in. intros t Ht. destruct (ext_live s s1 t X) as (_ & -> & _); auto. apply He. auto. }
    assert (E2 : flat_map (dicts_of s1) l = flat_map (dicts_of s) l).
    { rewrite !flat_map_concat_map. f_equal. apply map_ext_in. intros t Ht. apply ext_dicts; auto. apply He. auto. }
    rewrite E1, E2. auto.
  Qed.
  Lemma dicts_lt s l : exists_in s l -> forall d, In d (flat_map (dicts_of s) l) -> d < next s.
  Proof.
    intros He d Hd. apply in_flat_map in Hd. destruct Hd as (t & Ht & Hd). unfold dicts_of in Hd. apply in_map_iff in Hd. destruct Hd as (e & <- & Hin).
    destruct (He t Ht) as (_ & _ & _ & H4). apply H4. auto.
  Qed.
  Lemma map_eq_Forall2 {X Y Z} (f : X -> Z) (g : Y -> Z) a b : map f a = map g b -> Forall2 (fun x y => f x = g y) a b.
  Proof.
    revert b. induction a as [|x a IH]; intros [|y b] E; cbn [map] in E; try discriminate; constructor; apply cons_inj in E; destruct E; auto.
  Qed.
  Lemma Forall2_both {X Y} (P Q : X -> Y -> Prop) a b : Forall2 P a b -> Forall2 Q a b -> Forall2 (fun x y => P x y /\ Q x y) a b.
  Proof. intros F. induction F; intros G; inversion G; subst; constructor; auto. Qed.
  Lemma Forall2_map_eq {X Y Z} (f : X -> Z) (g : Y -> Z) a b : Forall2 (fun x y => f x = g y) a b -> map f a = map g b.
  Proof. intros F. induction F; cbn [map]; auto. f_equal; auto. Qed.

  (** copies *)
  Record copied s s1 l c : Prop := {
    co_ext : ext s s1; co_fine : fine s1 c;
    co_pairs : Forall2 (fun u t => o_tid (trs s1 u) = o_tid (trs s1 t) /\ contents s1 u = contents s1 t /\
                                   dcts s1 (o_tattrs (trs s1 u)) = dcts s1 (o_tattrs (trs s1 t))) c l;
    co_fresh : forall u, In u c -> next s <= u /\ next s <= o_events (trs s1 u) /\ next s <= o_tattrs (trs s1 u);
    co_tattrs : NoDup (map (fun u => o_tattrs (trs s1 u)) c) }.
  Lemma copied_ok s l s1 c : exists_in s l -> copy s l = (s1, Ok c) -> copied s s1 l c.
  Proof.
    intros He Ec. pose proof (copy_ok l s He) as C. rewrite Ec in C. destruct C as (X & _ & V1 & F & C1 & Hc & Hd & _).
    constructor; auto. unfold view_log in V1. apply map_eq_Forall2 in V1, C1. pose proof (Forall2_both _ _ _ _ V1 C1) as P.
    eapply Forall2_in_impl; [|exact P]. intros u t Hu Ht [E1 E2]. cbv beta in *.
    destruct (ext_live s s1 t X) as (_ & Tt & Ct & Vt & _); [apply He; auto|].
    rewrite <- Vt in E1. rewrite <- Ct in E2. split; [exact (f_equal (@tid A V I) E1)|]. split; auto. exact (f_equal (@tr_attrs A V I) E1).
  Qed.
  Lemma copied_own_dicts s s1 l c : exists_in s l -> copied s s1 l c -> own_dicts s l -> own_dicts s1 c.
  Proof.
    intros He [X F P Hc Hd]. rewrite !own_dicts_iff. intros Hn.
    assert (E : flat_map (dicts_of s1) c = flat_map (dicts_of s) l).
    { assert (E1 : flat_map (dicts_of s1) l = flat_map (dicts_of s) l).
      { rewrite !flat_map_concat_map. f_equal. apply map_ext_in. intros t Ht. apply ext_dicts; auto. apply He. auto. }
      rewrite <- E1, !flat_map_concat_map. f_equal. apply Forall2_map_eq. eapply Forall2_in_impl; [|exact P].
      intros u t _ _ (_ & Ec & _). unfold dicts_of. rewrite Ec. auto. }
    rewrite E. apply NoDup_app_disjoint'; auto.
    - clear - Hn. induction (map (fun t => o_tattrs (trs s t)) l) as [|x a IH]; auto. cbn [app] in Hn. apply NoDup_cons_iff in Hn. tauto.
    - intros d Ha Hb. apply in_map_iff in Ha. destruct Ha as (u & <- & Hu). destruct (Hc u Hu) as (_ & _ & Hx).
      pose proof (dicts_lt s l He _ Hb). lia.
  Qed.

  (** splits *)
  Lemma slices_app {X} (a : list X) z : slice_to a z ++ slice_from a z = a.
  Proof. unfold slice_to, slice_from. apply firstn_skipn. Qed.
  Lemma slice_to_map {X Y} (f : X -> Y) a z : slice_to (map f a) z = map f (slice_to a z).
  Proof. unfold slice_to. rewrite map_length, firstn_map. auto. Qed.
  Lemma slice_from_map {X Y} (f : X -> Y) a z : slice_from (map f a) z = map f (slice_from a z).
  Proof. unfold slice_from. rewrite map_length, skipn_map. auto. Qed.
End O.

Lemma mapM_map {X Y Z} (f : X -> Y) (g : Y -> result Z) l : mapM g (map f l) = mapM (fun x => g (f x)) l.
Proof. induction l as [|x l IH]; cbn [map mapM]; auto. destruct (g (f x)); cbn [bind]; auto. rewrite IH. auto. Qed.
Lemma pick_natural {A V I : Type} (g : nat -> trace A V I) l is :
  pick_traces (map g l) is = (do ts <- mapM (fun i => of_option IndexError (nth_error l i)) is ; Ok (map g ts)).
Proof.
  unfold pick_traces. induction is as [|i is IH]; cbn [mapM bind map]; auto. rewrite nth_error_map.
  destruct (nth_error l i) as [t|]; cbn [option_map of_option bind]; auto. rewrite IH. clear IH.
  destruct (mapM (fun j => of_option IndexError (nth_error l j)) is) as [ts|]; cbn [bind map]; auto.
Qed.
Lemma k_folds_natural {A V I : Type} (g : nat -> trace A V I) k l :
  k_folds k (map g l) = (do fs <- k_folds_obj k l ; Ok (map (fun f => (map g (fst f), map g (snd f))) fs)).
Proof.
  unfold k_folds, k_folds_obj. destruct (k <? 2)%Z; cbn [bind]; auto. rewrite map_length.
  destruct (kfold_split (length l) (Z.to_nat k)) as [folds|]; cbn [bind]; auto.
  induction folds as [|f folds IH]; cbn [mapM bind map]; auto. rewrite !pick_natural.
  destruct (mapM _ (fst f)) as [tr|]; cbn [bind]; auto. destruct (mapM _ (snd f)) as [te|]; cbn [bind]; auto.
  rewrite IH. clear IH. match goal with |- context [mapM ?F folds] => destruct (mapM F folds) as [fs|] end; cbn [bind map fst snd]; auto.
Qed.
Lemma others_mid {X} (a b : list (list X)) x : EventLogSpec.others (a ++ x :: b) (length a) = concat a ++ concat b.
Proof.
  unfold EventLogSpec.others. rewrite firstn_app, firstn_all, Nat.sub_diag. cbn [firstn]. rewrite app_nil_r. f_equal. f_equal.
  rewrite skipn_app, skipn_all2 by lia. replace (S (length a) - length a) with 1 by lia. reflexivity.
Qed.
Lemma k_folds_perm k l folds : k_folds_obj k l = Ok folds -> forall train test, In (train, test) folds -> Permutation (train ++ test) l.
Proof.
  intros E train test Hin. set (g := fun t : nat => Trace (A:=unit) (V:=unit) (I:=nat) t [] []).
  assert (Hk : (2 <= k <= Z.of_nat (length l))%Z).
  { unfold k_folds_obj in E. destruct (Z.ltb_spec k 2); [discriminate|]. unfold kfold_split in E.
    destruct (Nat.ltb_spec (length l) (Z.to_nat k)); [discriminate|]. lia. }
  destruct (EventLogB.k_folds_ok k (map g l)) as (fs & E1 & _ & Hc & Ho & _); [rewrite map_length; auto|].
  rewrite k_folds_natural, E in E1. cbn [bind] in E1. assert (Efs : map (fun f => (map g (fst f), map g (snd f))) folds = fs) by congruence. clear E1.
  apply In_nth_error in Hin. destruct Hin as [i Hi].
  assert (Hi' : nth_error fs i = Some (map g train, map g test)) by (rewrite <- Efs, nth_error_map, Hi; auto).
  specialize (Ho i _ _ Hi').
  assert (P : Permutation (map g (train ++ test)) (map g l)).
  { rewrite map_app, Ho, <- Hc. destruct (nth_error_split fs i Hi') as (f1 & f2 & -> & <-).
    rewrite map_app. cbn [map snd]. assert (L : length (map snd f1) = length f1) by apply map_length. rewrite <- L. unfold log in *.
    rewrite (others_mid (map snd f1) (map snd f2) (map g test)).
    rewrite concat_app. cbn [concat]. rewrite <- app_assoc. apply Permutation_app_head. apply Permutation_app_comm. }
  apply (Permutation_map (@tid unit unit nat)) in P. rewrite !map_map in P. cbn [g tid] in P. rewrite !map_id in P. auto.
Qed.

(*P C136 Methods that change a log change its objects *)
(** the methods of a log that replace or change the lists of events of its
    traces, and the noise generators, do to the objects what they do to values *)
Lemma C136_edit : forall (A V I : Type) (EA : Eq A) (s s' : store A V I) l l' x,
  exists_in s l -> own_lists s l -> do_edit x s l = (s', l') ->
  view_log s' l' = edited x (view_log s l) /\ incl l' l /\ exists_in s' l' /\ own_lists s' l'.
Proof.
  intros A V I EA s s' l l' x He Ho E. assert (Hf : fine s (l ++ [])) by (rewrite app_nil_r; split; auto).
  pose proof (edit_good x l [] s Hf) as G. rewrite E in G. rewrite app_nil_r in G. destruct G as ([G1 G1'] & G2 & _ & G3 & _). auto.
Qed.
(** derive_event_duration, with every event object and dictionary in one place only *)
Lemma C136_derive : forall (A V I : Type) (minus : V -> V -> result V) (negative : V -> result bool) start_attr end_attr dur_attr (s s' : store A V I) l r,
  own_dicts s l -> derive_obj minus negative start_attr end_attr dur_attr s l = (s', r) ->
  match derive_event_duration minus negative start_attr end_attr dur_attr (view_log s l) with
  | Ok v => r = Ok tt /\ view_log s' l = v
  | Err x => r = Err x
  end.
Proof.
  intros A V I minus negative sa ea da s s' l r Hn E. pose proof (derive_ok minus negative sa ea da l s Hn) as G. rewrite E in G. apply G.
Qed.
(** join_successive_equal_activities, likewise *)
Lemma C136_join : forall (A V I : Type) (EA : Eq A) (EV : Eq V) (minus plus : V -> V -> result V) ord start_attr end_attr dur_attr raise_error blacklist
    (s s' : store A V I) l r,
  exists_in s l -> NoDup l -> own_dicts s l -> join_obj minus plus ord start_attr end_attr dur_attr raise_error blacklist s l = (s', r) ->
  match join_successive minus plus ord start_attr end_attr dur_attr raise_error blacklist (view_log s l) with
  | Ok v => r = Ok tt /\ view_log s' l = v
  | Err x => r = Err x
  end.
Proof.
  intros A V I EA EV minus plus ord sa ea da re bl s s' l r He Hu Hn E.
  pose proof (join_ok minus plus ord sa ea da re bl l s Hn Hu) as G. rewrite E in G.
  destruct G as [_ G]; [intros t Ht; apply He; auto|]. destruct (join_successive _ _ _ _ _ _ _ _ _); auto. tauto.
Qed.

(** without that condition the claim is false: a trace with the same event
    object three times, of duration 1, is joined to one of duration 4 *)
Lemma C136_same_event_witness : exists (s s' : store nat nat nat) l,
  exists_in s l /\ own_lists s l /\
  join_obj (fun x y => Ok (x - y)) (fun x y => Ok (x + y)) (fun x => x) None None (Some "d"%string) true [] s l = (s', Ok tt) /\
  map (fun t => map (@ev_attrs nat nat) (events t)) (view_log s' l) = [[[("d"%string, 4)]]] /\
  (do v <- join_successive (fun x y => Ok (x - y)) (fun x y => Ok (x + y)) (fun x => x) None None (Some "d"%string) true [] (view_log s l) ;
   Ok (map (fun t => map (@ev_attrs nat nat) (events t)) v)) = Ok [[[("d"%string, 3)]]].
Proof.
  set (s := Store (fun x => Ev 7 1 None) (fun x => Tr 10 2 3) (fun x => if x =? 2 then [0; 0; 0] else [])
                  (fun x => if x =? 1 then [("d"%string, 1)] else []) 5 : store nat nat nat).
  eexists s, _, [4]. split; [|split; [|split; [reflexivity|split; reflexivity]]].
  - intros t [<-|[]]; cbn; (split; [lia|split; [lia|split; [lia|]]]); intros e [<-|[<-|[<-|[]]]]; cbn; lia.
  - split; cbn; repeat (constructor; [cbn; intuition discriminate|]); constructor.
Qed.

(*P C137 Copies of a log *)
(** a copy has the content of the log; it cannot be made of a log with an empty trace *)
Lemma C137_copy : forall (A V I : Type) (s s1 : store A V I) l r,
  exists_in s l -> copy s l = (s1, r) ->
  view_log s1 l = view_log s l /\
  ((exists t, In t l /\ contents s t = []) /\ r = Err ValueError \/
   (forall t, In t l -> contents s t <> []) /\ exists c, r = Ok c /\ view_log s1 c = view_log s l /\ forall t, In t c -> ~ In t l).
Proof.
  intros A V I s s1 l r He E. pose proof (copy_ok l s He) as C. rewrite E in C. destruct C as [X C].
  split; [unfold view_log; apply map_ext_in; intros t Ht; apply (ext_live s s1 t X); apply He; auto|].
  destruct r as [c|x].
  - destruct C as (N & V1 & _ & _ & Hc & _). right. split; auto. exists c. split; auto. split; auto. intros t Ht Hl. destruct (Hc t Ht) as (Hx & _).
    destruct (He t Hl). lia.
  - destruct C as (-> & N). left. split; auto. clear - N. induction l as [|t l IH]; [destruct N; intros t []|].
    destruct (contents s t) as [|e es] eqn:Et; [exists t; cbn; auto|].
    destruct IH as (u & Hu & Eu); [|exists u; cbn; auto]. intros N'. apply N. intros u [<-|Hu]; [congruence|auto].
Qed.
(** programs that edit two logs without common traces or lists, in any order
    of the calls: each log shows its own edits and nothing of the other's *)
Lemma C137_no_common : forall (A V I : Type) (EA : Eq A) h (s s' : store A V I) l m l' m',
  exists_in s l -> exists_in s m -> own_lists s l -> own_lists s m -> no_common s l m -> run h s l m = (s', l', m') ->
  view_log s' l' = edited_all (edits_of First h) (view_log s l) /\ view_log s' m' = edited_all (edits_of Second h) (view_log s m).
Proof.
  intros A V I EA h s s' l m l' m' He1 He2 [H1 H2] [H3 H4] [N1 N2] E.
  assert (Hf : fine s (l ++ m)).
  { split; [|split].
    - intros t Ht. apply in_app_iff in Ht. destruct Ht; [apply He1|apply He2]; auto.
    - apply NoDup_app_disjoint'; auto.
    - rewrite map_app. apply NoDup_app_disjoint'; auto. intros a Ha Hb. apply in_map_iff in Ha, Hb. destruct Ha as (t & <- & Ht), Hb as (u & E1 & Hu).
      apply (N2 t u); auto. }
  pose proof (run_ok h s l m Hf) as G. rewrite E in G. tauto.
Qed.
(** in particular a copy and the log it was made of *)
Lemma C137_independent : forall (A V I : Type) (EA : Eq A) h (s s1 s2 : store A V I) l c l' c',
  exists_in s l -> own_lists s l -> copy s l = (s1, Ok c) -> run h s1 c l = (s2, c', l') ->
  view_log s2 c' = edited_all (edits_of First h) (view_log s l) /\ view_log s2 l' = edited_all (edits_of Second h) (view_log s l).
Proof.
  intros A V I EA h s s1 s2 l c l' c' He Ho Ec E.
  assert (Hf : fine s (l ++ [])) by (rewrite app_nil_r; split; auto).
  destruct (copy_fine s l [] s1 c Hf Ec) as (F & V1 & V2 & _). rewrite app_nil_r in F.
  pose proof (run_ok h s1 c l F) as G. rewrite E, V1, V2 in G. tauto.
Qed.
(** but the events are shared: durations derived in the copy appear in the
    log as well *)
Lemma C137_derive : forall (A V I : Type) (minus : V -> V -> result V) (negative : V -> result bool) start_attr end_attr dur_attr (s s1 s2 : store A V I) l c r,
  exists_in s l -> own_dicts s l -> copy s l = (s1, Ok c) -> derive_obj minus negative start_attr end_attr dur_attr s1 c = (s2, r) ->
  match derive_event_duration minus negative start_attr end_attr dur_attr (view_log s l) with
  | Ok v => r = Ok tt /\ view_log s2 c = v /\ view_log s2 l = v
  | Err x => r = Err x
  end.
Proof.
  intros A V I minus negative sa ea da s s1 s2 l c r He Hn Ec E. pose proof (copied_ok s l s1 c He Ec) as [X F P Hc Hd].
  assert (Ed : map (dicts_of s1) c = map (dicts_of s1) l).
  { apply Forall2_map_eq. eapply Forall2_in_impl; [|exact P]. intros u t _ _ (_ & E1 & _). unfold dicts_of. rewrite E1. auto. }
  rewrite (derive_dicts minus negative sa ea da l c s1 Ed) in E.
  pose proof (derive_ok minus negative sa ea da l s1 (ext_own_dicts s s1 l X He Hn)) as G. rewrite E in G. destruct G as [S G].
  assert (Vl : view_log s1 l = view_log s l).
  { unfold view_log. apply map_ext_in. intros t Ht. apply (ext_live s s1 t X). apply He. auto. }
  rewrite Vl in G. destruct (derive_event_duration _ _ _ _ _ (view_log s l)) as [v|x]; auto. destruct G as [-> G]. split; auto. split; auto.
  rewrite <- G. apply Forall2_map_eq. eapply Forall2_in_impl; [|exact P]. intros u t Hu Ht (E1 & E2 & E3).
  unfold view_trace. rewrite !(same_contents _ _ _ _ S), (sa_trs _ _ _ S), E1, E2. f_equal.
  rewrite !(sa_dcts _ _ _ S); auto.
  - intros Hin. apply own_dicts_iff in Hn. destruct (ext_live s s1 t X) as (_ & Tt & _); [apply He; auto|]. rewrite Tt in Hin.
    assert (Hin' : In (o_tattrs (trs s t)) (flat_map (dicts_of s) l)).
    { apply in_flat_map in Hin. destruct Hin as (y & Hy & Hin). apply in_flat_map. exists y. split; auto. rewrite (ext_dicts s s1) in Hin; auto. apply He. auto. }
    clear - Hn Hin' Ht. assert (Ha : In (o_tattrs (trs s t)) (map (fun t => o_tattrs (trs s t)) l)) by (apply (in_map (fun t => o_tattrs (trs s t))); auto).
    revert Ha Hin' Hn. generalize (o_tattrs (trs s t)). generalize (flat_map (dicts_of s) l). generalize (map (fun t => o_tattrs (trs s t)) l). clear.
    intros a b x Ha Hb. induction a as [|y a IH]; [destruct Ha|]. cbn [app]. intros Hn. apply NoDup_cons_iff in Hn. destruct Hn as [Hy Hn]. rewrite in_app_iff in Hy.
    destruct Ha as [->|Ha]; auto.
  - intros Hin. destruct (Hc u Hu) as (_ & _ & Hx). assert (Hlt : o_tattrs (trs s1 u) < next s); [|lia].
    apply (dicts_lt s l He). apply in_flat_map in Hin. destruct Hin as (y & Hy & Hin). apply in_flat_map. exists y. split; auto. rewrite (ext_dicts s s1) in Hin; auto. apply He. auto.
Qed.
(** and so do joined events: every event of the joined copy is an event of
    the log, whose traces keep all their activities *)
Lemma C137_join : forall (A V I : Type) (EA : Eq A) (EV : Eq V) (minus plus : V -> V -> result V) ord start_attr end_attr dur_attr raise_error blacklist
    (s s1 s2 : store A V I) l c r,
  exists_in s l -> own_dicts s l -> copy s l = (s1, Ok c) ->
  join_obj minus plus ord start_attr end_attr dur_attr raise_error blacklist s1 c = (s2, r) ->
  match join_successive minus plus ord start_attr end_attr dur_attr raise_error blacklist (view_log s l) with
  | Ok v => r = Ok tt /\ view_log s2 c = v /\ Forall2 (fun w joined => incl (events joined) (events w)) (view_log s2 l) v
  | Err x => r = Err x
  end /\
  map to_activity_list (view_log s2 l) = map to_activity_list (view_log s l).
Proof.
  intros A V I EA EV minus plus ord sa ea da re bl s s1 s2 l c r He Hn Ec E. pose proof (copied_ok s l s1 c He Ec) as K.
  pose proof (copied_own_dicts s s1 l c He K Hn) as Hnc. destruct K as [X F P Hc Hd].
  pose proof (copy_ok l s He) as C. rewrite Ec in C. destruct C as (_ & _ & V1 & _).
  assert (Hnd : NoDup c) by apply F.
  pose proof (join_ok minus plus ord sa ea da re bl c s1 Hnc Hnd) as G. rewrite E in G.
  destruct G as [R G]; [intros t Ht; apply F; auto|]. rewrite V1 in G.
  assert (Cl : forall t, In t l -> contents s2 t = contents s1 t).
  { intros t Ht. destruct (ext_live s s1 t X) as (Lt & _); [apply He; auto|]. eapply relisted_contents; [exact R| |exact (proj1 (proj2 Lt))].
    intros Hin. destruct (Hc t Hin) as (Hx & _). destruct (He t Ht). lia. }
  split.
  - destruct (join_successive _ _ _ _ _ _ _ _ (view_log s l)) as [v|x]; auto. destruct G as (-> & <- & Hi). split; auto. split; auto.
    unfold view_log. clear - P Cl Hi. revert Cl Hi. induction P as [|u t c l (E1 & E2 & E3) P IH]; intros Cl Hi; cbn [map]; constructor.
    + cbn [view_trace events]. apply incl_map. rewrite (Cl t) by (cbn; auto). rewrite <- E2. apply Hi. cbn; auto.
    + apply IH; [intros y Hy; apply Cl; cbn; auto|intros y Hy; apply Hi; cbn; auto].
  - unfold view_log. rewrite !map_map. apply map_ext_in. intros t Ht. unfold to_activity_list. cbn [view_trace events]. rewrite !map_map.
    rewrite (Cl t Ht). destruct (ext_live s s1 t X) as (_ & _ & Ct & _ & Ee); [apply He; auto|]. rewrite Ct. apply map_ext_in. intros e Hin.
    cbn [view_event activity]. rewrite (re_evs _ _ _ _ R), Ee; auto.
Qed.

(*P C138 Splits of a log share its traces *)
(** the two logs of a split consist of the trace objects of the log *)
Lemma C138_split : forall (A V I : Type) rnd (shuffle : list nat -> list nat) (shuffled : list (trace A V I) -> list (trace A V I)) p (s : store A V I) l,
  Permutation (shuffle l) l -> shuffled (view_log s l) = view_log s (shuffle l) ->
  match train_test_split_obj rnd shuffle p l with
  | Ok (train, test) => train_test_split rnd shuffled p (view_log s l) = Ok (view_log s train, view_log s test) /\ Permutation (train ++ test) l
  | Err x => train_test_split rnd shuffled p (view_log s l) = Err x
  end.
Proof.
  intros A V I rnd shuffle shuffled p s l Hp Es. unfold train_test_split_obj, train_test_split. destruct (negb _); auto.
  rewrite Es. unfold view_log. rewrite map_length, slice_to_map, slice_from_map. split; auto. rewrite slices_app. auto.
Qed.
(** so do those of every fold *)
Lemma C138_folds : forall (A V I : Type) k (s : store A V I) l,
  match k_folds_obj k l with
  | Ok folds => k_folds k (view_log s l) = Ok (map (fun f => (view_log s (fst f), view_log s (snd f))) folds) /\
      forall train test, In (train, test) folds -> Permutation (train ++ test) l
  | Err x => k_folds k (view_log s l) = Err x
  end.
Proof.
  intros A V I k s l. pose proof (k_folds_natural (view_trace s) k l) as N. change (map (view_trace s) l) with (view_log s l) in N.
  destruct (k_folds_obj k l) as [folds|] eqn:E; cbn [bind] in N; auto. split; auto. apply (k_folds_perm k l folds E).
Qed.
(** edits of the two parts, in any order, do not disturb each other *)
Lemma C138_independent : forall (A V I : Type) (EA : Eq A) h (s s' : store A V I) l train test train' test',
  exists_in s l -> own_lists s l -> Permutation (train ++ test) l -> run h s train test = (s', train', test') ->
  view_log s' train' = edited_all (edits_of First h) (view_log s train) /\
  view_log s' test' = edited_all (edits_of Second h) (view_log s test).
Proof.
  intros A V I EA h s s' l train test train' test' He Ho P E.
  assert (Hf : fine s (train ++ test)) by (apply (fine_perm _ l); [symmetry; auto|split; auto]).
  pose proof (run_ok h s train test Hf) as G. rewrite E in G. tauto.
Qed.
(** but they change the log itself and every other log with the same traces *)
Lemma C138_original : forall (A V I : Type) (EA : Eq A) (s s' : store A V I) l train test train' x,
  exists_in s l -> own_lists s l -> Permutation (train ++ test) l -> do_edit x s train = (s', train') ->
  (forall t, In t test -> view_trace s' t = view_trace s t) /\
  (~ is_noise x -> forall t, In t train -> view_trace s' t = edited_trace x (view_trace s t)).
Proof.
  intros A V I EA s s' l train test train' x He Ho P E.
  assert (Hf : fine s (train ++ test)) by (apply (fine_perm _ l); [symmetry; auto|split; auto]).
  split.
  - pose proof (edit_good x train test s Hf) as G. rewrite E in G. destruct G as (_ & _ & G & _). apply map_pointwise. exact G.
  - intros Hx. pose proof (edit_each x s train test Hx Hf) as G. rewrite E in G. apply G.
Qed.
(** which can leave the log with traces without events, and its methods with
    an exception *)
Lemma C138_empty_traces_witness : exists (s s' : store nat nat nat) l train test train',
  exists_in s l /\ own_lists s l /\ train_test_split_obj (fun q => q) (fun x => x) (1 # 2) l = Ok (train, test) /\
  compute_start_activities (view_log s l) = Ok [1; 2] /\
  do_edit (FilterActivities [2] true) s train = (s', train') /\
  view_log s' train' = [] /\ map to_activity_list (view_log s' l) = [[]; [2]] /\
  compute_start_activities (view_log s' l) = Err IndexError.
Proof.
  set (s := Store (fun x => Ev (if x =? 0 then 1 else 2) (if x =? 0 then 1 else 3) None)
                  (fun x => if x =? 6 then Tr 10 4 5 else Tr 11 7 8)
                  (fun x => if x =? 4 then [0] else if x =? 7 then [2] else []) (fun _ => []) 10 : store nat nat nat).
  eexists s, _, [6; 9], _, _, _. split; [|split; [|split; [reflexivity|split; [reflexivity|split; [reflexivity|split; [reflexivity|split; reflexivity]]]]]].
  - intros t [<-|[<-|[]]]; cbn; (split; [lia|split; [lia|split; [lia|]]]); intros e [<-|[]]; cbn; lia.
  - split; cbn; repeat (constructor; [cbn; intuition discriminate|]); constructor.
Qed.

(*P C139 Logs made from dictionaries share attributes *)
(** EventLog.create_from_dict(log.to_dict()) *)
Lemma C139_reread : forall (A V I : Type) (s s1 : store A V I) l r,
  exists_in s l -> reread s l = (s1, r) ->
  view_log s1 l = view_log s l /\
  ((exists t, In t l /\ contents s t = []) /\ r = Err ValueError \/
   (forall t, In t l -> contents s t <> []) /\
   exists c, r = Ok c /\ view_log s1 c = map without_transitions (view_log s l) /\ forall t, In t c -> ~ In t l).
Proof.
  intros A V I s s1 l r He E. pose proof (reread_ok l s He) as C. rewrite E in C. destruct C as [X C].
  assert (Vl : view_log s1 l = view_log s l) by (unfold view_log; apply map_ext_in; intros t Ht; apply (ext_live s s1 t X); apply He; auto).
  split; auto. destruct r as [c|x].
  - destruct C as (N & _ & M & Hc). right. split; auto. exists c. split; auto. split.
    + rewrite <- Vl. unfold view_log. rewrite map_map. apply Forall2_map_eq. eapply Forall2_in_impl; [|exact M]. intros u t _ _ Hm. apply mirrors_view. auto.
    + intros t Ht Hl. destruct (Hc t Ht) as (Hx & _). destruct (He t Hl). lia.
  - destruct C as (-> & N). left. split; auto. clear - N. induction l as [|t l IH]; [destruct N; intros t []|].
    destruct (contents s t) as [|e es] eqn:Et; [exists t; cbn; auto|].
    destruct IH as (u & Hu & Eu); [|exists u; cbn; auto]. intros N'. apply N. intros u [<-|Hu]; [congruence|auto].
Qed.
(** edits of the new log and of the old one do not disturb each other *)
Lemma C139_independent : forall (A V I : Type) (EA : Eq A) h (s s1 s2 : store A V I) l c l' c',
  exists_in s l -> own_lists s l -> reread s l = (s1, Ok c) -> run h s1 c l = (s2, c', l') ->
  view_log s2 c' = edited_all (edits_of First h) (map without_transitions (view_log s l)) /\
  view_log s2 l' = edited_all (edits_of Second h) (view_log s l).
Proof.
  intros A V I EA h s s1 s2 l c l' c' He Ho Ec E.
  pose proof (reread_ok l s He) as C. rewrite Ec in C. destruct C as (X & N & [F1 [F2 F3]] & M & Hc).
  destruct (ext_fine s s1 l X) as [[G1 [G2 G3]] Vl]; [split; auto|].
  assert (Hf : fine s1 (c ++ l)).
  { split; [|split].
    - intros t Ht. apply in_app_iff in Ht. destruct Ht; auto.
    - apply NoDup_app_disjoint'; auto. intros t Ht Hin. destruct (Hc t Ht). assert (t < next s) by (apply He; auto). lia.
    - rewrite map_app. apply NoDup_app_disjoint'; auto. intros a Ha Hb. apply in_map_iff in Ha, Hb. destruct Ha as (t & <- & Ht), Hb as (v & E' & Hv).
      destruct (Hc t Ht) as (_ & Hx & _). rewrite <- E' in Hx. destruct (ext_live s s1 v X) as (_ & Ev & _); [apply He; auto|].
      rewrite Ev in Hx. assert (o_events (trs s v) < next s) by (apply He; auto). lia. }
  pose proof (run_ok h s1 c l Hf) as G. rewrite E in G. destruct G as (_ & G4 & G5).
  assert (Vc : view_log s1 c = map without_transitions (view_log s l)).
  { rewrite <- Vl. unfold view_log. rewrite map_map. apply Forall2_map_eq. eapply Forall2_in_impl; [|exact M]. intros u t _ _ Hm. apply mirrors_view. auto. }
  rewrite <- Vc, <- Vl. auto.
Qed.
(** but durations derived in the new log appear in the old one *)
Lemma C139_derive : forall (A V I : Type) (minus : V -> V -> result V) (negative : V -> result bool) start_attr end_attr dur_attr (s s1 s2 : store A V I) l c r,
  exists_in s l -> own_dicts s l -> reread s l = (s1, Ok c) -> derive_obj minus negative start_attr end_attr dur_attr s1 c = (s2, r) ->
  match derive_event_duration minus negative start_attr end_attr dur_attr (view_log s l) with
  | Ok v => r = Ok tt /\ view_log s2 c = map without_transitions v /\ view_log s2 l = v
  | Err x => r = Err x
  end.
Proof.
  intros A V I minus negative sa ea da s s1 s2 l c r He Hn Ec E.
  pose proof (reread_ok l s He) as C. rewrite Ec in C. destruct C as (X & N & _ & M & Hc).
  assert (Ed : map (dicts_of s1) c = map (dicts_of s1) l).
  { apply Forall2_map_eq. eapply Forall2_in_impl; [|exact M]. intros u t _ _ Hm. apply mirrors_dicts. auto. }
  rewrite (derive_dicts minus negative sa ea da l c s1 Ed) in E.
  pose proof (derive_ok minus negative sa ea da l s1 (ext_own_dicts s s1 l X He Hn)) as G. rewrite E in G. destruct G as [S G].
  assert (Vl : view_log s1 l = view_log s l).
  { unfold view_log. apply map_ext_in. intros t Ht. apply (ext_live s s1 t X). apply He. auto. }
  rewrite Vl in G. destruct (derive_event_duration _ _ _ _ _ (view_log s l)) as [v|x]; auto. destruct G as [-> G]. split; auto. split; auto.
  rewrite <- G. unfold view_log. rewrite map_map. apply Forall2_map_eq. eapply Forall2_in_impl; [|exact M]. intros u t _ _ Hm.
  apply mirrors_view. eapply mirrors_same; eauto.
Qed.
