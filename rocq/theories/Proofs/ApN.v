(** Activity patterns, part 15: choices of a list of patterns *)
From Coq Require Import String Ascii ZArith Permutation.
From Verif.Model Require Import Base PetriNet ActivityPattern.
From Verif.Spec Require Import PetriSpec ActivityPatternSpec.
From Verif.Lib Require Import ListLib DictLib.
From Verif.Proofs Require Import PetriA PetriC PetriD PetriH ApA ApB ApC ApD ApE ApF ApG ApS ApH ApI ApJ.
Open Scope string_scope.
Open Scope list_scope.
Open Scope nat_scope.

Lemma at_most_one (l : list string) (P : string -> Prop) : NoDup l -> (forall p, In p l <-> P p) -> (forall x y, P x -> P y -> x = y) -> (1 <? length l) = false.
Proof.
  intros N HP U. apply Nat.ltb_ge. destruct l as [|x [|y l]]; cbn; [lia|lia|]. exfalso.
  assert (x = y) by (apply U; apply HP; cbn; auto). subst. inversion N as [|? ? N1 _]; subst. apply N1. cbn; auto.
Qed.
(** a net with at most one source and one sink is only copied *)
Lemma transform_single ord st n : wf n -> (forall x y, source n x -> source n y -> x = y) -> (forall x y, sink n x -> sink n y -> x = y) ->
  exists n' st', transform_to_workflow_net ord st n = Ok (n', st') /\ places n' = places n /\ transitions n' = transitions n.
Proof.
  intros W U1 U2. unfold transform_to_workflow_net. destruct (copy st n) as [[c st1]|] eqn:C; [|rewrite copy_ok in C by auto; discriminate].
  destruct (wf_copy _ _ _ _ W C) as (Wc & Ep & Et). cbn [bind].
  destruct (get_source_sink_places c) as [so si] eqn:Q. apply source_sink_ok in Q; [|apply (w_trans _ Wc)]. destruct Q as (D1 & D2 & D3 & D4).
  assert (SS : forall p, before_some c p <-> before_some n p) by (intros; unfold before_some, starts; rewrite Et; tauto).
  assert (TT : forall p, behind_some c p <-> behind_some n p) by (intros; unfold behind_some, ends; rewrite Et; tauto).
  rewrite (at_most_one so (source n)); auto; [|intros; rewrite D3, SS, TT; unfold source; tauto].
  rewrite (at_most_one si (sink n)); auto; [|intros; rewrite D4, SS, TT; unfold sink; tauto].
  cbn [bind]. eauto.
Qed.
Lemma run_same n n' st : transitions n' = transitions n -> forall M l M1, run n' st M l M1 <-> run n st M l M1.
Proof.
  intros E. assert (F : forall K t K1, fires n' st K t K1 <-> fires n st K t K1).
  { intros K t K1. unfold fires, has_transition, guard_of, starts, effect, starts, ends. rewrite E. tauto. }
  intros M l M1. split; (induction 1 as [K K1 Q|K t K2 l1 K1 Fr R IH]; [constructor; auto|econstructor; [apply F; exact Fr|exact IH]]).
Qed.
Lemma speaks_same p p' : transitions (pnet p') = transitions (pnet p) -> amap p' = amap p -> forall st w, speaks st p' w <-> speaks st p w.
Proof.
  intros E A st w. unfold speaks, letters.
  assert (L : forall l, flat_map (spell p') l = flat_map (spell p) l) by (intros; apply flat_map_ext; intros; unfold spell; rewrite E, A; auto).
  assert (S : forall x, source (pnet p') x <-> source (pnet p) x) by (intros; unfold source, before_some, behind_some, starts, ends; rewrite E; tauto).
  assert (K : forall x, sink (pnet p') x <-> sink (pnet p) x) by (intros; unfold sink, before_some, behind_some, starts, ends; rewrite E; tauto).
  split; intros (i & o & l & H1 & H2 & H3 & H4); exists i, o, l; [rewrite <- S, <- K, <- L|rewrite S, K, L]; rewrite (run_same _ _ st E) in *; auto.
Qed.
(** copies *)
Lemma copy_same ord st p : any_order ord -> good p -> exists p' st', copy_pattern ord st p = Ok (p', st') /\ good p' /\
  places (pnet p') = places (pnet p) /\ transitions (pnet p') = transitions (pnet p) /\ amap p' = amap p.
Proof.
  intros HO G. assert (X : exists p' st', copy_pattern ord st p = Ok (p', st') /\
    places (pnet p') = places (pnet p) /\ transitions (pnet p') = transitions (pnet p) /\ amap p' = amap p).
  { unfold copy_pattern. destruct (copy st (pnet p)) as [[c st1]|] eqn:C; [|rewrite copy_ok in C by apply G; discriminate].
    destruct (wf_copy _ _ _ _ (g_wf _ G) C) as (Wc & Ep & Et). cbn [bind]. unfold new_pattern.
    assert (T : exists n' st', (if is_workflow_net c then Ok (c, st1) else transform_to_workflow_net ord st1 c) = Ok (n', st') /\
      places n' = places (pnet p) /\ transitions n' = transitions (pnet p)).
    { destruct (is_workflow_net c); [eauto|].
      assert (SS : forall q, before_some c q <-> before_some (pnet p) q) by (intros; unfold before_some, starts; rewrite Et; tauto).
      assert (TT : forall q, behind_some c q <-> behind_some (pnet p) q) by (intros; unfold behind_some, ends; rewrite Et; tauto).
      destruct (transform_single ord st1 c Wc) as (n' & st' & E & E1 & E2).
      - intros x y. unfold source. rewrite !SS, !TT. apply (g_src _ G).
      - intros x y. unfold sink. rewrite !SS, !TT. apply (g_snk _ G).
      - exists n', st'. split; [auto|]. split; congruence. }
    destruct T as (n' & st' & -> & E1 & E2). cbn [bind].
    rewrite (proj2 (visible_ok c (amap p) (w_trans _ Wc))); [|unfold mapped; rewrite Et; exact (g_map _ G)].
    exists (Pattern n' (amap p)), st'. cbn [pnet amap]. auto. }
  destruct X as (p' & st' & E & X). exists p', st'. split; [auto|]. split; [eapply copy_good; eauto|auto].
Qed.
Definition same_pattern (p p' : pattern) : Prop :=
  good p' /\ places (pnet p') = places (pnet p) /\ transitions (pnet p') = transitions (pnet p) /\ amap p' = amap p.
Lemma copies_ok ord : any_order ord -> forall l acc st, Forall good l -> exists cs st',
  foldM (fun '(acc, st) c => do (c', st') <- copy_pattern ord st c ; Ok (acc ++ [c'], st')) l (acc, st) = Ok (acc ++ cs, st') /\
  Forall2 same_pattern l cs.
Proof.
  intros HO. induction l as [|p l IH]; intros acc st F; cbn [foldM].
  - exists [], st. rewrite app_nil_r. auto.
  - inversion F as [|? ? G F']; subst. destruct (copy_same ord st p HO G) as (p' & st' & -> & X). cbn [bind].
    destruct (IH (acc ++ [p']) st' F') as (cs & st'' & E & X2). rewrite E, <- app_assoc. exists (p' :: cs), st''. split; [auto|]. constructor; [exact X|auto].
Qed.

(** new ids *)
Lemma NoDup_both {X} (l m : list X) : NoDup l -> NoDup m -> (forall v, In v l -> In v m -> False) -> NoDup (l ++ m).
Proof.
  induction l as [|x l IH]; cbn; intros N1 N2 H; [auto|]. inversion N1; subst. constructor.
  - rewrite in_app_iff. intros [?|?]; [auto|]. eapply H; cbn; eauto.
  - apply IH; auto. intros v Hv Hl. eapply H; cbn; eauto.
Qed.
Lemma fresh_all_ok : forall ls ids, exists ms, fresh_all ls ids = Ok ms /\ map keys ms = ls /\ NoDup (flat_map values ms) /\
  (forall v, In v (flat_map values ms) -> ~ In v ids) /\ forall m id v, In m ms -> In (id, v) m -> exists k, v = quoted id k.
Proof.
  induction ls as [|l ls IH]; intros ids; cbn [fresh_all].
  - exists []. split; [auto|]. split; [auto|]. split; [constructor|]. split; cbn; tauto.
  - destruct (fresh_ok l ids) as (m & -> & K & N & D & Q). cbn [bind]. destruct (IH (ids ++ values m)) as (ms & -> & K2 & N2 & D2 & Q2). cbn [bind].
    exists (m :: ms). split; [auto|]. split; [cbn; congruence|]. split; [|split].
    + cbn [flat_map]. apply NoDup_both; auto. intros v Hv Hw. apply (D2 v Hw). rewrite in_app_iff. auto.
    + cbn [flat_map]. intros v Hv Hi. apply in_app_iff in Hv. destruct Hv as [Hv|Hv]; [apply (D v Hv); auto|apply (D2 v Hv)]. rewrite in_app_iff. auto.
    + intros m' id v [<-|Hm] Hi; eauto.
Qed.

(** places with new keys *)
Lemma dict_set_new {V} k (v : V) (d : dict string V) : ~ In k (keys d) -> dict_set k v d = d ++ [(k, v)].
Proof.
  induction d as [|[k' v'] d IH]; cbn [dict_set keys map fst app In]; intros H; [auto|]. destruct (eqb_ok k k') as [->|]; [exfalso; apply H; auto|]. rewrite IH; [auto|]. intros Q. apply H. right. exact Q.
Qed.
Lemma moved {V} (old new : string) (d : dict string V) x : NoDup (keys d) -> dict_get old d = Some x -> ~ In new (keys d) ->
  Permutation (dict_set new x (dict_del old d)) (map (fun '(k, v) => (if eqb k old then new else k, v)) d).
Proof.
  intros N E H. rewrite dict_set_new; [|intros Hi; apply keys_dict_del_In in Hi; tauto].
  revert N E H. induction d as [|[k v] d IH]; [discriminate|]. cbn [keys map fst dict_get dict_del]. intros N E H. inversion N as [|? ? N1 N2]; subst.
  destruct (eqb_ok old k) as [->|Hn].
  - injection E as ->. cbn [map]. rewrite eqb_refl. rewrite Permutation_app_comm. cbn [app]. constructor.
    replace (map _ d) with d; [auto|]. rewrite <- (map_id d) at 1. apply map_ext_in. intros [k' v'] Hi. destruct (eqb_ok k' k) as [->|]; [|auto].
    exfalso. apply N1. apply (in_map fst) in Hi. exact Hi.
  - cbn [map app]. destruct (eqb_ok k old) as [E2|_]; [congruence|]. constructor. apply IH; auto. intros Hi. apply H. right. exact Hi.
Qed.
Lemma rekeyed_ok : forall m (d : dict string (string * place)), NoDup (keys d) -> NoDup (keys m) -> NoDup (values m) ->
  (forall old new, In (old, new) m -> In old (keys d)) ->
  (forall old new, In (old, new) m -> old <> new -> ~ In new (keys m) /\ ~ In new (keys d)) ->
  exists d', rekeyed m d = Ok d' /\ Permutation d' (map (fun '(k, v) => (renamed m k, v)) d).
Proof.
  unfold rekeyed. induction m as [|[old new] m IH]; intros d Nd Nk Nv H1 H2; cbn [foldM].
  - exists d. split; [auto|]. rewrite <- (map_id d) at 1. erewrite map_ext; [apply Permutation_refl|]. intros [k v]. auto.
  - inversion Nk as [|? ? K1 K2]; subst. inversion Nv as [|? ? V1 V2]; subst. cbn [fst snd] in *.
    destruct (eqb_ok old new) as [<-|Hn].
    + cbn [bind]. destruct (IH d Nd K2 V2) as (d' & E & P).
      * intros o n Hi. apply (H1 o n). right; auto.
      * intros o n Hi Hne. destruct (H2 o n (or_intror Hi) Hne) as [A B]. split; [|auto]. intros Q. apply A. right. exact Q.
      * exists d'. split; [auto|]. rewrite P. erewrite map_ext; [apply Permutation_refl|]. intros [k v]. unfold renamed. cbn [dict_get].
        destruct (eqb_ok k old) as [->|]; [|auto]. rewrite (proj2 (dict_get_None m old) K1). auto.
    + destruct (dict_get_key d old) as [x Ex]; [apply (H1 old new); cbn; auto|]. rewrite Ex. cbn [of_option bind].
      destruct (H2 old new (or_introl eq_refl) Hn) as [A B].
      pose proof (moved old new d x Nd Ex B) as M.
      set (d1 := dict_set new x (dict_del old d)) in *.
      assert (D1 : forall k, In k (keys d1) <-> k = new \/ (k <> old /\ In k (keys d))).
      { intros k. unfold d1. rewrite keys_dict_set_In, keys_dict_del_In by auto. tauto. }
      destruct (IH d1) as (d' & E & P).
      * unfold d1. apply keys_dict_set_NoDup, keys_dict_del_NoDup. auto.
      * auto.
      * auto.
      * intros o n Hi. apply D1. right. split; [|apply (H1 o n); right; auto]. intros ->. apply K1. apply (in_map fst) in Hi. exact Hi.
      * intros o n Hi Hne. destruct (H2 o n (or_intror Hi) Hne) as [A2 B2]. split; [intros Q; apply A2; right; exact Q|].
        rewrite D1. intros [->|[_ Q]]; [|auto]. apply V1. apply (in_map snd) in Hi. exact Hi.
      * exists d'. split; [exact E|]. rewrite P, M, map_map. erewrite map_ext; [apply Permutation_refl|]. intros [k v]. unfold renamed. cbn [dict_get].
        destruct (eqb_ok k old) as [->|]; [|auto]. rewrite (proj2 (dict_get_None m new)); [auto|]. intros Q. apply A. right. exact Q.
Qed.

(** parts *)
Definition comp_of (k : nat) (x : part) (i o : string) : comp := Comp k (pnet (fst x)) (renamed (snd (snd x))) (renamed (fst (snd x))) i o.
Lemma put_transitions : forall (T : dict string transition) n, NoDup (keys (transitions n ++ T)) ->
  foldM (fun n '(t, tr) => put_transition t tr n) T n = Ok (Net (places n) (transitions n ++ T) (variables n)).
Proof.
  induction T as [|[t tr] T IH]; intros n N; cbn [foldM].
  - rewrite app_nil_r. destruct n; auto.
  - unfold put_transition at 1. assert (H : ~ In t (keys (transitions n))).
    { unfold keys in N. rewrite map_app in N. cbn in N. apply NoDup_remove_2 in N. rewrite in_app_iff in N. tauto. }
    destruct (dict_has t (transitions n)) eqn:Eh; [apply dict_has_In in Eh; contradiction|]. cbn [bind]. rewrite dict_set_new by auto.
    rewrite IH; cbn [places transitions variables]; rewrite <- app_assoc; auto.
Qed.
Lemma put_places : forall (T : dict string (string * place)) n, NoDup (keys (places n) ++ map (fun '(_, (id, _)) => id) T) ->
  foldM (fun n '(_, (id, p)) => put_place id p n) T n = Ok (Net (places n ++ values T) (transitions n) (variables n)).
Proof.
  induction T as [|[t [id p]] T IH]; intros n N; cbn [foldM].
  - cbn. rewrite app_nil_r. destruct n; auto.
  - unfold put_place at 1. cbn [map] in N. pose proof (NoDup_remove_2 _ _ _ N) as H. rewrite in_app_iff in H.
    destruct (dict_has id (places n)) eqn:Eh; [apply dict_has_In in Eh; tauto|]. cbn [bind]. rewrite dict_set_new by (intros Q; apply H; auto).
    rewrite IH; cbn [places transitions variables].
    + rewrite <- app_assoc. auto.
    + unfold keys in *. rewrite map_app, <- app_assoc. cbn. exact N.
Qed.
Definition part_pl (x : part) : dict string place :=
  renamed_places (renamed (snd (snd x))) (renamed (fst (snd x))) (places (pnet (fst x))).
Record part_ok (x : part) : Prop := {
  x_good : good (fst x);
  x_tk : keys (fst (snd x)) = keys (transitions (pnet (fst x)));
  x_pk : keys (snd (snd x)) = keys (places (pnet (fst x)));
  x_tq : forall id v, In (id, v) (fst (snd x)) -> exists k, v = quoted id k;
  x_pq : forall id v, In (id, v) (snd (snd x)) -> exists k, v = quoted id k;
  x_tn : NoDup (values (fst (snd x)));
  x_pn : NoDup (values (snd (snd x))) }.
Lemma part_places_ok x : part_ok x -> unquoted (fst x) -> exists ps, part_places x = Ok ps /\ Permutation (values ps) (part_pl x).
Proof.
  destruct x as [c [tm pm]]. intros H U. unfold part_places, part_pl. cbn [fst snd].
  set (d := map _ (places (pnet c))).
  assert (Kd : keys d = keys (places (pnet c))) by (unfold d, keys; rewrite map_map; apply map_ext; intros [k p]; auto).
  pose proof (x_pk _ H) as Kp. cbn [fst snd] in Kp.
  destruct (rekeyed_ok pm d) as (ps & E & P).
  - rewrite Kd. apply (g_wf _ (x_good _ H)).
  - rewrite Kp. apply (g_wf _ (x_good _ H)).
  - apply (x_pn _ H).
  - intros old new Hi. rewrite Kd, <- Kp. apply (in_map fst) in Hi. exact Hi.
  - intros old new Hi Hn. rewrite Kd, Kp. assert (Q : ~ In new (keys (places (pnet c)))); [|auto].
    destruct (x_pq _ H old new Hi) as [[|k] ->]; [exfalso; apply Hn; auto|]. apply (U old k). red. cbn [fst snd]. rewrite <- Kp. apply (in_map fst) in Hi. exact Hi.
  - exists ps. split; [exact E|]. unfold values. rewrite P, map_map. unfold d. rewrite map_map. unfold renamed_places.
    erewrite map_ext; [apply Permutation_refl|]. intros [k p]. auto.
Qed.
Lemma join_ok : forall parts n, Forall part_ok parts -> Forall (fun x => unquoted (fst x)) parts ->
  NoDup (keys (transitions n) ++ keys (flat_map part_transitions parts)) -> NoDup (keys (places n) ++ keys (flat_map part_pl parts)) ->
  exists n', foldM (fun n x =>
    do n1 <- foldM (fun n '(t, tr) => put_transition t tr n) (part_transitions x) n ;
    do ps <- part_places x ;
    foldM (fun n '(_, (id, p)) => put_place id p n) ps n1) parts n = Ok n' /\
  transitions n' = transitions n ++ flat_map part_transitions parts /\ Permutation (places n') (places n ++ flat_map part_pl parts) /\ variables n' = variables n.
Proof.
  induction parts as [|x parts IH]; intros n F U Nt Np; cbn [foldM].
  - exists n. cbn [flat_map]. rewrite !app_nil_r. auto.
  - inversion F as [|? ? Fx F']; subst. inversion U as [|? ? Ux U']; subst.
    cbn [flat_map] in Nt, Np. unfold keys in Nt, Np. rewrite map_app in Nt. rewrite map_app in Np.
    rewrite put_transitions.
    2:{ unfold keys. rewrite map_app. rewrite app_assoc in Nt. apply NoDup_app_inv in Nt. apply Nt. }
    cbn [bind]. destruct (part_places_ok x Fx Ux) as (ps & -> & P). cbn [bind].
    assert (Pk : Permutation (map (fun '(_, (id, _)) => id) ps) (map fst (part_pl x))).
    { rewrite <- P. unfold values. rewrite map_map. erewrite map_ext; [apply Permutation_refl|]. intros [k [id p]]. auto. }
    rewrite put_places; cbn [places transitions variables].
    2:{ unfold keys. apply (Permutation_NoDup (l := map fst (places n) ++ map fst (part_pl x))); [apply Permutation_app_head, Permutation_sym, Pk|].
        rewrite app_assoc in Np. apply NoDup_app_inv in Np. apply Np. }
    destruct (IH (Net (places n ++ values ps) (transitions n ++ part_transitions x) (variables n)) F' U') as (n' & E & T & Q & V).
    + cbn [transitions]. unfold keys. rewrite map_app, <- app_assoc. exact Nt.
    + cbn [places]. unfold keys. rewrite map_app, <- app_assoc. eapply Permutation_NoDup; [|exact Np].
      apply Permutation_app_head, Permutation_app_tail. apply Permutation_map, Permutation_sym, P.
    + exists n'. split; [exact E|]. cbn [places transitions variables] in *. cbn [flat_map]. rewrite T, <- app_assoc. split; [auto|]. split; [|auto].
      rewrite Q, <- app_assoc. apply Permutation_app_head, Permutation_app_tail, P.
Qed.
Lemma perm_get {V} (d d' : dict string V) k : NoDup (keys d') -> Permutation d d' -> dict_get k d = dict_get k d'.
Proof.
  intros N P. assert (N' : NoDup (keys d)) by (eapply Permutation_NoDup; [|exact N]; apply Permutation_map, Permutation_sym, P).
  destruct (dict_get k d) as [v|] eqn:E.
  - symmetry. apply dict_In_get; [auto|]. apply (Permutation_in _ P). apply dict_get_In. auto.
  - symmetry. apply dict_get_None. apply dict_get_None in E. intros Q. apply E. apply (Permutation_in _ (Permutation_map fst (Permutation_sym P))). exact Q.
Qed.
Lemma composed_perm R R' cs X G pre post : composed R cs X G pre post -> Permutation (places R') (places R) -> transitions R' = transitions R ->
  composed R' cs X G pre post.
Proof.
  intros K P Et. pose proof (k_wf _ _ _ _ _ _ K) as W.
  assert (Hp : forall q, has_place R' q <-> has_place R q).
  { intros q. unfold has_place. split; apply Permutation_in; apply Permutation_map; auto using Permutation_sym. }
  assert (Es : forall t, starts R' t = starts R t) by (intros; unfold starts; rewrite Et; auto).
  assert (Ee : forall t, ends R' t = ends R t) by (intros; unfold ends; rewrite Et; auto).
  assert (Eg : forall t, guard_of R' t = guard_of R t) by (intros; unfold guard_of; rewrite Et; auto).
  assert (W' : wf R').
  { destruct W. constructor.
    - eapply Permutation_NoDup; [|exact w_places]. apply Permutation_map, Permutation_sym, P.
    - rewrite Et. auto.
    - intros t. rewrite Es. auto.
    - intros t. rewrite Ee. auto.
    - intros t p. rewrite Es, Hp. eauto.
    - intros t p. rewrite Ee, Hp. eauto.
    - intros p pl. rewrite (perm_get _ _ p w_places P). intros E. destruct (w_pt _ _ E) as (A & B & C). split; [auto|]. split; [auto|].
      intros t. rewrite Es. auto. }
  destruct K as [k_wf0 k_in0 k_letter0 k_t0 k_p0 k_same_t0 k_same_p0 k_xt0 k_gp0 k_glue0 k_prex0 k_postx0 k_pre0 k_post0]. constructor; auto.
  - intros c Hc. destruct (k_in0 c Hc). constructor; auto.
    + intros; apply Hp; auto.
    + intros; unfold has_transition; rewrite Et; apply in_trans; auto.
    + intros; rewrite Eg; auto.
    + intros; rewrite Es; auto.
    + intros; rewrite Ee; auto.
  - intros; rewrite Et; auto.
  - intros; unfold has_transition; rewrite Et; apply k_t0.
  - intros; rewrite Hp; apply k_p0.
  - intros; rewrite Et; auto.
  - intros; rewrite Es; auto.
  - intros; rewrite Ee; auto.
Qed.
(** one transition for each place of a list *)
Lemma composed_star (f g h : string -> string) cs G : forall ps R X pre post, composed R cs X G pre post ->
  (forall p, In p ps -> has_place R (g p) /\ has_place R (h p)) -> NoDup (map f ps) ->
  (foldM (fun n p => do n <- add_transition (f p) None false n ; add_connection (g p) (f p) (h p) n) ps R = Err ValueError /\
    exists p, In p ps /\ has_transition R (f p)) \/
  exists R', foldM (fun n p => do n <- add_transition (f p) None false n ; add_connection (g p) (f p) (h p) n) ps R = Ok R' /\
    (forall p, In p ps -> ~ has_transition R (f p)) /\
    composed R' cs (fun t => X t \/ exists p, In p ps /\ t = f p) G
      (fun t q => pre t q \/ exists p, In p ps /\ t = f p /\ q = g p) (fun t q => post t q \/ exists p, In p ps /\ t = f p /\ q = h p).
Proof.
  induction ps as [|p ps IH]; intros R X pre post K HP N; cbn [foldM].
  - right. exists R. split; [auto|]. split; [intros p []|]. eapply composed_iff; [exact K|..]; intros; cbv beta; try tauto; (split; [auto|]); intros [?|(z & [] & _)]; auto.
  - cbn [map] in N. inversion N as [|? ? N1 N2]; subst.
    destruct (composed_transition _ _ _ _ _ _ (f p) K) as [[Ht ->]|(Ht & R1 & -> & K1)]; [left; split; [auto|]; exists p; cbn; auto|]. cbn [bind].
    assert (P1 : forall q, has_place R q -> has_place R1 q) by (intros q Hq; apply (k_p _ _ _ _ _ _ K) in Hq; apply (k_p _ _ _ _ _ _ K1); auto).
    destruct (HP p) as [Pg Ph]; [cbn; auto|].
    destruct (composed_connection _ _ _ _ _ _ (g p) (f p) (h p) K1) as (R2 & -> & K2); auto. cbn [bind].
    assert (T2 : forall t, has_transition R2 t <-> t = f p \/ has_transition R t).
    { intros t. rewrite (k_t _ _ _ _ _ _ K2), (k_t _ _ _ _ _ _ K). tauto. }
    destruct (IH R2 _ _ _ K2) as [[-> (q & Hq & Tq)]|(R' & -> & Hn & K')]; auto.
    + intros q Hq. destruct (HP q) as [Qg Qh]; [cbn; auto|]. split; apply (k_p _ _ _ _ _ _ K2), (k_p _ _ _ _ _ _ K1), P1; auto.
    + left. split; [auto|]. exists q. split; [cbn; auto|]. apply T2 in Tq. destruct Tq as [E|Tq]; [|auto]. exfalso. apply N1. rewrite <- E. apply in_map. auto.
    + right. exists R'. split; [auto|]. split.
      * intros q [<-|Hq]; [auto|]. intros Tq. apply (Hn q Hq). apply T2. auto.
      * eapply composed_iff; [exact K'|..]; cbv beta.
        -- intros t. split; [intros [[->|Hx]|(q & Hq & ->)]|intros [Hx|(q & [<-|Hq] & ->)]]; eauto; right; eexists; (split; [|reflexivity]); cbn; auto.
        -- intros q. tauto.
        -- intros t q. split; [intros [[Hx|[-> ->]]|(z & Hz & -> & ->)]|intros [Hx|(z & [<-|Hz] & -> & ->)]]; auto; right; eexists; (split; [|split; reflexivity]); cbn; auto.
        -- intros t q. split; [intros [[Hx|[-> ->]]|(z & Hz & -> & ->)]|intros [Hx|(z & [<-|Hz] & -> & ->)]]; auto; right; eexists; (split; [|split; reflexivity]); cbn; auto.
Qed.
(** names *)
Lemma names_other (ft : string -> string) (m : dict string string) : forall (T : dict string transition) names y, (forall t, In t (keys T) -> y <> ft t) ->
  dict_get y (fold_left (fun names '(t, _) => match dict_get t m with Some a => dict_set (ft t) a names | None => names end) T names) = dict_get y names.
Proof.
  induction T as [|[t tr] T IH]; intros names y H; cbn [fold_left]; [auto|]. rewrite IH by (intros u Hu; apply H; right; exact Hu).
  destruct (dict_get t m); [|auto]. rewrite dict_get_set. destruct (eqb_ok y (ft t)) as [E|]; [|auto]. exfalso. apply (H t); [left; auto|auto].
Qed.
Lemma names_one (ft : string -> string) (m : dict string string) : forall (T : dict string transition) names t tr a, NoDup (map ft (keys T)) ->
  In (t, tr) T -> dict_get t m = Some a ->
  dict_get (ft t) (fold_left (fun names '(t, _) => match dict_get t m with Some a => dict_set (ft t) a names | None => names end) T names) = Some a.
Proof.
  induction T as [|[u ur] T IH]; intros names t tr a N Hi E; cbn [fold_left]; [destruct Hi|]. cbn [keys map fst] in N. inversion N as [|? ? N1 N2]; subst.
  destruct Hi as [Q|Hi]; [|eapply IH; eauto]. injection Q as -> ->. rewrite E, names_other.
  - rewrite dict_get_set, eqb_refl. auto.
  - intros v Hv Q. apply N1. rewrite Q. apply in_map. exact Hv.
Qed.
Lemma part_keys_t x : part_ok x -> keys (part_transitions x) = values (fst (snd x)).
Proof.
  intros H. destruct x as [c [tm pm]]. cbn [fst snd]. unfold part_transitions. transitivity (map (renamed tm) (keys (transitions (pnet c)))).
  - unfold renamed_transitions, keys. rewrite !map_map. apply map_ext. intros [k v]. auto.
  - pose proof (x_tk _ H) as E. cbn [fst snd] in E. rewrite <- E. apply renamed_map. rewrite E. apply (g_wf _ (x_good _ H)).
Qed.
Lemma part_keys_p x : part_ok x -> keys (part_pl x) = values (snd (snd x)).
Proof.
  intros H. destruct x as [c [tm pm]]. cbn [fst snd]. unfold part_pl. cbn [fst snd]. transitivity (map (renamed pm) (keys (places (pnet c)))).
  - unfold renamed_places, keys. rewrite !map_map. apply map_ext. intros [k v]. auto.
  - pose proof (x_pk _ H) as E. cbn [fst snd] in E. rewrite <- E. apply renamed_map. rewrite E. apply (g_wf _ (x_good _ H)).
Qed.
Lemma part_map_t x : part_ok x -> map (renamed (fst (snd x))) (keys (transitions (pnet (fst x)))) = values (fst (snd x)).
Proof. intros H. pose proof (x_tk _ H) as E. rewrite <- E. apply renamed_map. rewrite E. apply (g_wf _ (x_good _ H)). Qed.
Lemma part_map_p x : part_ok x -> map (renamed (snd (snd x))) (keys (places (pnet (fst x)))) = values (snd (snd x)).
Proof. intros H. pose proof (x_pk _ H) as E. rewrite <- E. apply renamed_map. rewrite E. apply (g_wf _ (x_good _ H)). Qed.
Lemma all_names_other : forall parts names y, Forall part_ok parts -> ~ In y (flat_map (fun x => values (fst (snd x))) parts) ->
  dict_get y (fold_left part_names parts names) = dict_get y names.
Proof.
  induction parts as [|x parts IH]; intros names y F H; cbn [fold_left]; [auto|]. inversion F as [|? ? Fx F']; subst. cbn [flat_map] in H. rewrite in_app_iff in H.
  rewrite IH by tauto. rewrite <- (part_map_t x Fx) in H. destruct x as [c [tm pm]]. cbn [fst snd part_names] in *. apply names_other.
  intros t Ht ->. apply H. left. apply in_map. auto.
Qed.
Lemma all_names : forall parts names x u tr a, Forall part_ok parts -> NoDup (flat_map (fun x => values (fst (snd x))) parts) -> In x parts ->
  dict_get u (transitions (pnet (fst x))) = Some tr -> dict_get u (amap (fst x)) = Some a ->
  dict_get (renamed (fst (snd x)) u) (fold_left part_names parts names) = Some a.
Proof.
  induction parts as [|y parts IH]; intros names x u tr a F N Hx Eu Ea; [destruct Hx|]. inversion F as [|? ? Fy F']; subst. cbn [flat_map] in N.
  apply NoDup_app_inv in N. destruct N as (N1 & N2 & D). cbn [fold_left]. destruct Hx as [->|Hx]; [|eapply IH; eauto].
  rewrite all_names_other; auto.
  - pose proof (part_map_t x Fy) as M. destruct x as [c [tm pm]]. cbn [fst snd part_names] in *. eapply names_one; [rewrite M; auto|apply dict_get_In; eauto|auto].
  - intros Q. refine (D _ _ Q). rewrite <- (part_map_t x Fy). apply in_map. eapply dict_get_Some_key; eauto.
Qed.
(** the parts as numbered nets *)
Definition src_of (p : pattern) : string := hd "" (fst (get_source_sink_places (pnet p))).
Definition snk_of (p : pattern) : string := hd "" (snd (get_source_sink_places (pnet p))).
Lemma ends_of p : good p -> complete p -> (forall q, source (pnet p) q <-> q = src_of p) /\ (forall q, sink (pnet p) q <-> q = snk_of p).
Proof.
  intros G [[i Hi] [o Ho]]. unfold src_of, snk_of. destruct (get_source_sink_places (pnet p)) as [so si] eqn:Q.
  apply source_sink_ok in Q; [|apply (g_wf _ G)]. destruct Q as (_ & _ & D3 & D4). cbn [fst snd]. split.
  - destruct so as [|x so]; [exfalso; apply (D3 i); auto|]. cbn [hd]. apply unique_iff; [apply (g_src _ G)|]. apply D3. cbn; auto.
  - destruct si as [|x si]; [exfalso; apply (D4 o); auto|]. cbn [hd]. apply unique_iff; [apply (g_snk _ G)|]. apply D4. cbn; auto.
Qed.
Definition comp_nr (k : nat) (x : part) : comp :=
  Comp k (pnet (fst x)) (renamed (snd (snd x))) (renamed (fst (snd x))) (src_of (fst x)) (snk_of (fst x)).
Fixpoint comps (k : nat) (parts : list part) : list comp :=
  match parts with [] => [] | x :: r => comp_nr k x :: comps (S k) r end.
Lemma comps_in c : forall parts k, In c (comps k parts) <-> exists i x, nth_error parts i = Some x /\ c = comp_nr (k + i) x.
Proof.
  induction parts as [|x parts IH]; intros k; cbn [comps In].
  - split; [intros []|]. intros ([|i] & x & E & _); discriminate.
  - rewrite IH. split.
    + intros [<-|(i & y & E & ->)]; [exists 0, x; split; [auto|f_equal; lia]|]. exists (S i), y. split; [auto|]. f_equal. lia.
    + intros ([|i] & y & E & ->); [left; injection E as ->; f_equal; lia|]. right. exists i, y. split; [auto|]. f_equal. lia.
Qed.
Lemma comps_nodup : forall parts k, NoDup (comps k parts).
Proof.
  induction parts as [|x parts IH]; intros k; cbn [comps]; constructor; [|auto].
  rewrite comps_in. intros (i & y & _ & E). apply (f_equal c_nr) in E. cbn in E. lia.
Qed.
Lemma comps_places : forall parts k, flat_map comp_places (comps k parts) = flat_map part_pl parts.
Proof. induction parts as [|x parts IH]; intros k; cbn [comps flat_map]; [auto|]. rewrite IH. auto. Qed.
Lemma comps_transitions : forall parts k, flat_map comp_transitions (comps k parts) = flat_map part_transitions parts.
Proof. induction parts as [|x parts IH]; intros k; cbn [comps flat_map]; [auto|]. rewrite IH. destruct x as [c [tm pm]]. auto. Qed.
Lemma flat_keys_t parts : Forall part_ok parts -> keys (flat_map part_transitions parts) = flat_map (fun x => values (fst (snd x))) parts.
Proof.
  induction 1 as [|x parts Fx F IH]; [auto|]. cbn [flat_map]. unfold keys in *. rewrite map_app, IH. f_equal. apply (part_keys_t x Fx).
Qed.
Lemma flat_keys_p parts : Forall part_ok parts -> keys (flat_map part_pl parts) = flat_map (fun x => values (snd (snd x))) parts.
Proof.
  induction 1 as [|x parts Fx F IH]; [auto|]. cbn [flat_map]. unfold keys in *. rewrite map_app, IH. f_equal. apply (part_keys_p x Fx).
Qed.
(** the source and the sink of a part under their new ids *)
Lemma part_ends_ok ord x : any_order ord -> part_ok x -> complete (fst x) ->
  part_ends ord x = Ok (renamed (snd (snd x)) (src_of (fst x)), renamed (snd (snd x)) (snk_of (fst x))).
Proof.
  intros HO H C. destruct (ends_of (fst x) (x_good _ H) C) as [Si So]. set (c := comp_nr 0 x).
  assert (K : composed (union [c] []) [c] (fun _ => False) (fun _ => False) (fun _ _ => False) (fun _ _ => False)).
  { apply union_ok.
    - intros d [<-|[]]. apply (g_wf _ (x_good _ H)).
    - unfold union. cbn [places flat_map]. rewrite app_nil_r, comp_keys_p. cbn [c_net c_p c comp_nr]. rewrite (part_map_p x H). apply (x_pn _ H).
    - unfold union. cbn [transitions flat_map]. rewrite app_nil_r, comp_keys_t. cbn [c_net c_t c comp_nr]. rewrite (part_map_t x H). apply (x_tn _ H). }
  assert (L : linked (union [c] []) [c] (fun _ => False) (fun _ => False) (fun _ _ => False) (fun _ _ => False)).
  { constructor; [auto|..].
    - intros d p [<-|[]]. apply Si.
    - intros d p [<-|[]]. apply So.
    - intros d t p _ _ [].
    - intros d t p _ _ []. }
  assert (T : transitions (Net [] (part_transitions x) []) = transitions (union [c] [])).
  { unfold union. cbn [transitions flat_map]. rewrite app_nil_r. destruct x as [p [tm pm]]. auto. }
  unfold part_ends. replace (get_source_sink_places (Net [] (part_transitions x) [])) with (get_source_sink_places (union [c] [])).
  2:{ unfold get_source_sink_places. rewrite T. auto. }
  destruct (get_source_sink_places (union [c] [])) as [so si] eqn:Q.
  apply source_sink_ok in Q; [|apply (k_wf _ _ _ _ _ _ K)]. destruct Q as (D1 & D2 & D3 & D4).
  assert (S1 : forall q, source (union [c] []) q <-> q = c_p c (c_i c)).
  { intros q. rewrite (l_source _ _ _ _ _ _ L). split; [intros [(F & _)|(d & [<-|[]] & -> & _)]; [destruct F|auto]|].
    intros ->. right. exists c. split; [cbn; auto|]. split; [auto|]. intros [t []]. }
  assert (S2 : forall q, sink (union [c] []) q <-> q = c_p c (c_o c)).
  { intros q. rewrite (l_sink _ _ _ _ _ _ L). split; [intros [(F & _)|(d & [<-|[]] & -> & _)]; [destruct F|auto]|].
    intros ->. right. exists c. split; [cbn; auto|]. split; [auto|]. intros [t []]. }
  rewrite (pop_ok ord (c_p c (c_i c)) (fun q => q = c_p c (c_i c)) so HO D1); [|intros q; rewrite D3; apply S1|congruence|auto]. cbn [bind].
  rewrite (pop_ok ord (c_p c (c_o c)) (fun q => q = c_p c (c_o c)) si HO D2); [|intros q; rewrite D4; apply S2|congruence|auto]. auto.
Qed.
Lemma part_ends_fails ord x : any_order ord -> part_ok x -> ~ complete (fst x) -> part_ends ord x = Err KeyError.
Proof.
  intros HO H C. set (c := comp_nr 0 x).
  assert (K : composed (union [c] []) [c] (fun _ => False) (fun _ => False) (fun _ _ => False) (fun _ _ => False)).
  { apply union_ok.
    - intros d [<-|[]]. apply (g_wf _ (x_good _ H)).
    - unfold union. cbn [places flat_map]. rewrite app_nil_r, comp_keys_p. cbn [c_net c_p c comp_nr]. rewrite (part_map_p x H). apply (x_pn _ H).
    - unfold union. cbn [transitions flat_map]. rewrite app_nil_r, comp_keys_t. cbn [c_net c_t c comp_nr]. rewrite (part_map_t x H). apply (x_tn _ H). }
  assert (T : transitions (Net [] (part_transitions x) []) = transitions (union [c] [])).
  { unfold union. cbn [transitions flat_map]. rewrite app_nil_r. destruct x as [p [tm pm]]. auto. }
  unfold part_ends. replace (get_source_sink_places (Net [] (part_transitions x) [])) with (get_source_sink_places (union [c] [])).
  2:{ unfold get_source_sink_places. rewrite T. auto. }
  destruct (get_source_sink_places (union [c] [])) as [so si] eqn:Q.
  apply source_sink_ok in Q; [|apply (k_wf _ _ _ _ _ _ K)]. destruct Q as (D1 & D2 & D3 & D4).
  assert (B : forall q, before_some (union [c] []) q <-> exists p, before_some (c_net c) p /\ q = c_p c p).
  { intros q. split.
    - intros [t Ht]. pose proof (starts_has _ _ _ Ht) as Hh. apply (k_t _ _ _ _ _ _ K) in Hh. destruct Hh as [[]|(d & u & [<-|[]] & Hu & ->)].
      apply (in_starts _ _ _ _ (k_in _ _ _ _ _ _ K c (or_introl eq_refl))) in Ht; [|auto]. destruct Ht as (p & Hp & ->). exists p. split; [exists u|]; auto.
    - intros (p & [u Hu] & ->). exists (c_t c u). apply (in_starts _ _ _ _ (k_in _ _ _ _ _ _ K c (or_introl eq_refl))); [eapply starts_has; eauto|]. eauto. }
  assert (F : forall q, behind_some (union [c] []) q <-> exists p, behind_some (c_net c) p /\ q = c_p c p).
  { intros q. split.
    - intros [t Ht]. pose proof (ends_has _ _ _ Ht) as Hh. apply (k_t _ _ _ _ _ _ K) in Hh. destruct Hh as [[]|(d & u & [<-|[]] & Hu & ->)].
      apply (in_ends _ _ _ _ (k_in _ _ _ _ _ _ K c (or_introl eq_refl))) in Ht; [|auto]. destruct Ht as (p & Hp & ->). exists p. split; [exists u|]; auto.
    - intros (p & [u Hu] & ->). exists (c_t c u). apply (in_ends _ _ _ _ (k_in _ _ _ _ _ _ K c (or_introl eq_refl))); [eapply ends_has; eauto|]. eauto. }
  assert (S1 : forall q, source (union [c] []) q -> exists p, source (c_net c) p).
  { intros q [Hb Hn]. apply B in Hb. destruct Hb as (p & Hp & ->). exists p. split; [auto|]. intros Q. apply Hn. apply F. eauto. }
  assert (S2 : forall q, sink (union [c] []) q -> exists p, sink (c_net c) p).
  { intros q [Hb Hn]. apply F in Hb. destruct Hb as (p & Hp & ->). exists p. split; [auto|]. intros Q. apply Hn. apply B. eauto. }
  destruct so as [|y so]; [rewrite pop_none; auto|]. unfold pop at 1. destruct (ord (y :: so)); [auto|]. cbn [bind].
  destruct si as [|z si]; [rewrite pop_none; auto|]. exfalso. apply C. split.
  - apply (S1 y). apply D3. cbn; auto.
  - apply (S2 z). apply D4. cbn; auto.
Qed.
Lemma zip_parts : forall cs tms pms, Forall good cs ->
  map keys tms = map (fun c => keys (transitions (pnet c))) cs -> map keys pms = map (fun c => keys (places (pnet c))) cs ->
  (forall m id v, In m tms -> In (id, v) m -> exists k, v = quoted id k) -> (forall m id v, In m pms -> In (id, v) m -> exists k, v = quoted id k) ->
  NoDup (flat_map values tms) -> NoDup (flat_map values pms) ->
  let parts := combine cs (combine tms pms) in
  Forall part_ok parts /\ map fst parts = cs /\ flat_map (fun x => values (fst (snd x))) parts = flat_map values tms /\
  flat_map (fun x => values (snd (snd x))) parts = flat_map values pms.
Proof.
  induction cs as [|c cs IH]; intros tms pms G Kt Kp Qt Qp Nt Np; destruct tms as [|tm tms]; try discriminate; destruct pms as [|pm pms]; try discriminate; cbn [combine].
  - repeat split; constructor.
  - cbn [map] in Kt, Kp. injection Kt as Kt1 Kt2. injection Kp as Kp1 Kp2. inversion G as [|? ? G1 G2]; subst.
    cbn [flat_map] in Nt, Np. apply NoDup_app_inv in Nt, Np. destruct Nt as (Nt1 & Nt2 & _). destruct Np as (Np1 & Np2 & _).
    destruct (IH tms pms G2 Kt2 Kp2) as (I1 & I2 & I3 & I4); auto; [intros; eapply Qt; eauto; right; auto|intros; eapply Qp; eauto; right; auto|].
    split; [|cbn [map fst snd flat_map]; rewrite I2, I3, I4; auto]. constructor; [|auto].
    constructor; cbn [fst snd]; auto; [intros; eapply Qt; eauto; left; auto|intros; eapply Qp; eauto; left; auto].
Qed.
Definition start_of (x : part) : string := renamed (snd (snd x)) (src_of (fst x)).
Definition end_of (x : part) : string := renamed (snd (snd x)) (snk_of (fst x)).
Definition part_place (parts : list part) (q : string) : Prop := exists x p, In x parts /\ has_place (pnet (fst x)) p /\ q = renamed (snd (snd x)) p.
Definition part_trans (parts : list part) (q : string) : Prop := exists x p, In x parts /\ has_transition (pnet (fst x)) p /\ q = renamed (fst (snd x)) p.
(** 182-214 *)
Definition join_tail (ord : order) (st : store) (parts : list part) : result (pattern * store) :=
  do n <- join_parts parts ;
  let s := String.concat "," (map start_of parts) in
  do n <- add_place s "" 0 n ;
  do n <- foldM (fun n p => let t := (s ++ "," ++ p)%string in
      do n <- add_transition t None false n ; add_connection s t p n) (map start_of parts) n ;
  let e := String.concat "," (map end_of parts) in
  do n <- add_place e "" 0 n ;
  do n <- foldM (fun n p => let t := (p ++ "," ++ e)%string in
      do n <- add_transition t None false n ; add_connection p t e n) (map end_of parts) n ;
  new_pattern ord st n (Named (fold_left part_names parts [])).
Lemma string_app_inj_l u v w : (u ++ v)%string = (u ++ w)%string -> v = w.
Proof. intros E. apply (f_equal chars) in E. rewrite !chars_app in E. apply app_inv_head in E. apply chars_inj. auto. Qed.
Lemma string_app_inj_r u v w : (u ++ v)%string = (w ++ v)%string -> u = w.
Proof. intros E. apply (f_equal chars) in E. rewrite !chars_app in E. apply app_inv_tail in E. apply chars_inj. auto. Qed.
Lemma list_case ord st parts : any_order ord -> Forall part_ok parts -> Forall (fun x => complete (fst x)) parts ->
  Forall (fun x => unquoted (fst x)) parts ->
  NoDup (flat_map (fun x => values (fst (snd x))) parts) -> NoDup (flat_map (fun x => values (snd (snd x))) parts) -> parts <> [] ->
  let s := String.concat "," (map start_of parts) in let e := String.concat "," (map end_of parts) in
  NoDup (map start_of parts ++ map end_of parts) /\
  ((join_tail ord st parts = Err ValueError /\
    (part_place parts s \/ part_place parts e \/ e = s \/
     (exists p, In p (map start_of parts) /\ part_trans parts (s ++ "," ++ p)%string) \/
     (exists p, In p (map end_of parts) /\ part_trans parts (p ++ "," ++ e)%string) \/
     exists p q, In p (map start_of parts) /\ In q (map end_of parts) /\ (s ++ "," ++ p)%string = (q ++ "," ++ e)%string)) \/
  exists p, join_tail ord st parts = Ok (p, st) /\ works p /\ (forall x, parts <> [x]) /\
    (Forall (fun x => connected (pnet (fst x))) parts -> connected (pnet p) /\
      (forall st, Forall (fun x => ends_clean st (fst x)) parts -> ends_clean st p) /\
      forall st w, speaks st p w <-> exists x, In x parts /\ speaks st (fst x) w)).
Proof.
  intros HO FO FC FU Nt Np NE s e. rewrite !Forall_forall in FC, FU. pose proof FO as FO'. rewrite Forall_forall in FO'.
  set (cs := comps 0 parts).
  assert (Cin : forall c, In c cs <-> exists i x, nth_error parts i = Some x /\ c = comp_nr i x) by (intros c; apply (comps_in c parts 0)).
  assert (Cof : forall c, In c cs -> exists x, In x parts /\ nth_error parts (c_nr c) = Some x /\ c = comp_nr (c_nr c) x).
  { intros c Hc. apply Cin in Hc. destruct Hc as (i & x & Hx & ->). exists x. split; [eapply nth_error_In; eauto|]. cbn. auto. }
  assert (Cto : forall x, In x parts -> exists i, In (comp_nr i x) cs).
  { intros x Hx. apply In_nth_error in Hx. destruct Hx as [i Hi]. exists i. apply Cin. eauto. }
  pose proof (comps_nodup parts 0) as NC. fold cs in NC.
  assert (NEc : cs <> []) by (unfold cs; destruct parts; [congruence|discriminate]).
  unfold join_tail. fold s e.
  destruct (join_ok parts new_net FO) as (R1 & EJ & TJ & PJ & _).
  { apply Forall_forall. auto. }
  { cbn. rewrite flat_keys_t; auto. }
  { cbn. rewrite flat_keys_p; auto. }
  cbn [transitions places new_net app] in TJ, PJ.
  assert (K1 : composed R1 cs (fun _ => False) (fun _ => False) (fun _ _ => False) (fun _ _ => False)).
  { apply (composed_perm (union cs [])).
    - apply union_ok; unfold union; cbn [places transitions]; unfold cs.
      + intros c Hc. destruct (Cof c Hc) as (x & Hx & _ & ->). apply (g_wf _ (x_good _ (FO' x Hx))).
      + rewrite comps_places, flat_keys_p; auto.
      + rewrite comps_transitions, flat_keys_t; auto.
    - unfold union. cbn [places]. unfold cs. rewrite comps_places. auto.
    - unfold union. cbn [transitions]. unfold cs. rewrite comps_transitions. auto. }
  assert (EJ' : join_parts parts = Ok R1) by exact EJ. rewrite EJ'. cbn [bind]. clear EJ EJ'.
  assert (ED : forall x, In x parts -> (forall q, source (pnet (fst x)) q <-> q = src_of (fst x)) /\ (forall q, sink (pnet (fst x)) q <-> q = snk_of (fst x))).
  { intros x Hx. apply ends_of; [apply (x_good _ (FO' x Hx))|auto]. }
  assert (Hs : forall x, In x parts -> has_place (pnet (fst x)) (src_of (fst x)) /\ has_place (pnet (fst x)) (snk_of (fst x)) /\ src_of (fst x) <> snk_of (fst x)).
  { intros x Hx. destruct (ED x Hx) as [E1 E2]. pose proof (proj2 (E1 _) eq_refl) as [B1 B2]. pose proof (proj2 (E2 _) eq_refl) as [B3 B4].
    pose proof (g_wf _ (x_good _ (FO' x Hx))) as W. split; [apply before_place; auto|]. split; [apply behind_place; auto|]. intros Q. apply B2. rewrite Q. auto. }
  assert (Es : map start_of parts = map (fun c => c_p c (c_i c)) cs /\ map end_of parts = map (fun c => c_p c (c_o c)) cs).
  { unfold cs. generalize 0. clear. induction parts as [|x parts IH]; intros k; cbn [map comps]; [auto|]. destruct (IH (S k)) as [-> ->]. auto. }
  destruct Es as [Es Ee].
  assert (Ci : forall c, In c cs -> has_place (c_net c) (c_i c) /\ has_place (c_net c) (c_o c) /\ c_i c <> c_o c).
  { intros c Hc. destruct (Cof c Hc) as (x & Hx & _ & ->). apply (Hs x Hx). }
  assert (ND : NoDup (map start_of parts ++ map end_of parts)).
  { rewrite Es, Ee. apply NoDup_both.
    - apply NoDup_map_in; [auto|]. intros c d Hc Hd E. apply (k_same_p _ _ _ _ _ _ K1 c d (c_i c) (c_i d)); auto; apply Ci; auto.
    - apply NoDup_map_in; [auto|]. intros c d Hc Hd E. apply (k_same_p _ _ _ _ _ _ K1 c d (c_o c) (c_o d)); auto; apply Ci; auto.
    - intros v Hv Hw. apply in_map_iff in Hv, Hw. destruct Hv as (c & <- & Hc). destruct Hw as (d & E & Hd).
      destruct (k_same_p _ _ _ _ _ _ K1 d c (c_o d) (c_i c)) as [-> Q]; auto; try (apply Ci; auto). destruct (Ci c Hc) as (_ & _ & Q'). congruence. }
  split; [auto|].
  assert (PP : forall q, has_place R1 q -> part_place parts q).
  { intros q Hq. apply (k_p _ _ _ _ _ _ K1) in Hq. destruct Hq as [[]|(c & p & Hc & Hp & ->)]. destruct (Cof c Hc) as (x & Hx & _ & Q). rewrite Q in Hp. rewrite Q. exists x, p. auto. }
  assert (PT : forall q, has_transition R1 q -> part_trans parts q).
  { intros q Hq. apply (k_t _ _ _ _ _ _ K1) in Hq. destruct Hq as [[]|(c & p & Hc & Hp & ->)]. destruct (Cof c Hc) as (x & Hx & _ & Q). rewrite Q in Hp. rewrite Q. exists x, p. auto. }
  apply NoDup_app_inv in ND. destruct ND as (ND1 & ND2 & ND3).
  assert (Ps : forall p, In p (map start_of parts) -> has_place R1 p).
  { intros p Hp. rewrite Es in Hp. apply in_map_iff in Hp. destruct Hp as (c & <- & Hc). apply (in_place _ _ _ _ (k_in _ _ _ _ _ _ K1 c Hc)). apply Ci; auto. }
  assert (Pe : forall p, In p (map end_of parts) -> has_place R1 p).
  { intros p Hp. rewrite Ee in Hp. apply in_map_iff in Hp. destruct Hp as (c & <- & Hc). apply (in_place _ _ _ _ (k_in _ _ _ _ _ _ K1 c Hc)). apply Ci; auto. }
  destruct (composed_place _ _ _ _ _ _ s K1) as [[H ->]|(Hns & R2 & -> & K2)]; [left; split; [auto|]; left; auto|]. cbn [bind].
  assert (P2 : forall q, has_place R2 q <-> q = s \/ has_place R1 q).
  { intros q. rewrite (k_p _ _ _ _ _ _ K2), (k_p _ _ _ _ _ _ K1). tauto. }
  assert (T2 : forall q, has_transition R2 q <-> has_transition R1 q).
  { intros q. rewrite (k_t _ _ _ _ _ _ K2), (k_t _ _ _ _ _ _ K1). tauto. }
  destruct (composed_star (fun p => (s ++ "," ++ p)%string) (fun _ => s) (fun p => p) cs _ (map start_of parts) R2 _ _ _ K2) as [[H Hb]|(R3 & H & Hn3 & K3)].
  { intros p Hp. split; apply P2; auto. }
  { apply NoDup_map_in; [auto|]. intros u v _ _ E. apply string_app_inj_l in E. change ("," ++ u = "," ++ v)%string in E. apply string_app_inj_l in E. auto. }
  { left. rewrite H. cbn [bind]. split; [auto|]. right. right. right. left. destruct Hb as (p & Hp & Hb). exists p. split; [auto|]. apply PT, T2. auto. }
  rewrite H. cbn [bind]. clear H.
  assert (P3 : forall q, has_place R3 q <-> q = s \/ has_place R1 q) by (intros q; rewrite <- P2, (k_p _ _ _ _ _ _ K3), (k_p _ _ _ _ _ _ K2); tauto).
  assert (T3 : forall q, has_transition R3 q <-> (exists p, In p (map start_of parts) /\ q = (s ++ "," ++ p)%string) \/ has_transition R1 q).
  { intros q. rewrite <- T2, (k_t _ _ _ _ _ _ K3), (k_t _ _ _ _ _ _ K2). tauto. }
  destruct (composed_place _ _ _ _ _ _ e K3) as [[H ->]|(Hne & R4 & -> & K4)].
  { left. split; [auto|]. apply P3 in H. destruct H as [H|H]; auto. }
  cbn [bind].
  assert (P4 : forall q, has_place R4 q <-> q = e \/ q = s \/ has_place R1 q).
  { intros q. rewrite <- P3, (k_p _ _ _ _ _ _ K4), (k_p _ _ _ _ _ _ K3). tauto. }
  assert (T4 : forall q, has_transition R4 q <-> has_transition R3 q).
  { intros q. rewrite (k_t _ _ _ _ _ _ K4), (k_t _ _ _ _ _ _ K3). tauto. }
  destruct (composed_star (fun p => (p ++ "," ++ e)%string) (fun p => p) (fun _ => e) cs _ (map end_of parts) R4 _ _ _ K4) as [[H Hb]|(R5 & H & Hn5 & K5)].
  { intros p Hp. split; apply P4; auto. }
  { apply NoDup_map_in; [auto|]. intros u v _ _ E. apply string_app_inj_r in E. auto. }
  { left. rewrite H. cbn [bind]. split; [auto|]. destruct Hb as (q & Hq & Hb). apply T4, T3 in Hb. right. right. right. right. destruct Hb as [(p & Hp & E)|Hb].
    - right. exists p, q. auto.
    - left. exists q. split; [auto|]. auto. }
  rewrite H. cbn [bind]. clear H. right.
  set (sg := fun c => (s ++ "," ++ c_p c (c_i c))%string). set (ep := fun c => (c_p c (c_o c) ++ "," ++ e)%string).
  set (X := fun t => exists c, In c cs /\ (t = sg c \/ t = ep c)).
  set (G := fun q => q = s \/ q = e).
  set (pre := fun t q => exists c, In c cs /\ ((t = sg c /\ q = s) \/ (t = ep c /\ q = c_p c (c_o c)))).
  set (post := fun t q => exists c, In c cs /\ ((t = sg c /\ q = c_p c (c_i c)) \/ (t = ep c /\ q = e))).
  assert (Iss : forall p, In p (map start_of parts) <-> exists c, In c cs /\ p = c_p c (c_i c)).
  { intros p. rewrite Es, in_map_iff. split; intros (c & A & B); exists c; auto. }
  assert (Ies : forall p, In p (map end_of parts) <-> exists c, In c cs /\ p = c_p c (c_o c)).
  { intros p. rewrite Ee, in_map_iff. split; intros (c & A & B); exists c; auto. }
  assert (KR : composed R5 cs X G pre post).
  { eapply composed_iff; [exact K5|..]; cbv beta; unfold X, G, pre, post.
    - intros t. split.
      + intros [[[]|(p & Hp & ->)]|(p & Hp & ->)]; [apply Iss in Hp|apply Ies in Hp]; destruct Hp as (c & Hc & ->); exists c; auto.
      + intros (c & Hc & [->| ->]); [left; right; exists (c_p c (c_i c))|right; exists (c_p c (c_o c))]; (split; [|auto]); [apply Iss|apply Ies]; eauto.
    - intros q. tauto.
    - intros t q. split.
      + intros [[[]|(p & Hp & -> & ->)]|(p & Hp & -> & ->)]; [apply Iss in Hp|apply Ies in Hp]; destruct Hp as (c & Hc & ->); exists c; auto.
      + intros (c & Hc & [[-> ->]|[-> ->]]); [left; right; exists (c_p c (c_i c))|right; exists (c_p c (c_o c))]; (split; [|auto]); [apply Iss|apply Ies]; eauto.
    - intros t q. split.
      + intros [[[]|(p & Hp & -> & ->)]|(p & Hp & -> & ->)]; [apply Iss in Hp|apply Ies in Hp]; destruct Hp as (c & Hc & ->); exists c; auto.
      + intros (c & Hc & [[-> ->]|[-> ->]]); [left; right; exists (c_p c (c_i c))|right; exists (c_p c (c_o c))]; (split; [|auto]); [apply Iss|apply Ies]; eauto. }
  assert (L : linked R5 cs X G pre post).
  { constructor; [auto|..].
    - intros c p Hc. destruct (Cof c Hc) as (x & Hx & _ & ->). apply (ED x Hx).
    - intros c p Hc. destruct (Cof c Hc) as (x & Hx & _ & ->). apply (ED x Hx).
    - intros c t p Hc Hp (d & Hd & [[_ E]|[_ E]]).
      + exfalso. apply (k_gp _ _ _ _ _ _ KR s c p); auto. left. auto.
      + destruct (k_same_p _ _ _ _ _ _ KR c d p (c_o d)) as [-> ->]; auto. apply Ci. auto.
    - intros c t p Hc Hp (d & Hd & [[_ E]|[_ E]]).
      + destruct (k_same_p _ _ _ _ _ _ KR c d p (c_i d)) as [-> ->]; auto. apply Ci. auto.
      + exfalso. apply (k_gp _ _ _ _ _ _ KR e c p); auto. right. auto. }
  assert (Gs : G s) by (left; auto). assert (Ge : G e) by (right; auto).
  assert (se : s <> e) by (intros Q; apply Hne; apply P3; auto).
  assert (HG : forall q, G q -> q = s \/ q = e) by auto.
  assert (Hpre : forall t q, pre t q <-> exists c, In c cs /\ ((t = sg c /\ q = s) \/ (t = ep c /\ q = c_p c (c_o c)))) by (intros; unfold pre; tauto).
  assert (Hpost : forall t q, post t q <-> exists c, In c cs /\ ((t = sg c /\ q = c_p c (c_i c)) \/ (t = ep c /\ q = e))) by (intros; unfold post; tauto).
  assert (HX : forall t, X t <-> exists c, In c cs /\ (t = sg c \/ t = ep c)) by (intros; unfold X; tauto).
  assert (Isg : forall c d, In c cs -> In d cs -> sg c = sg d -> c = d).
  { intros c d Hc Hd E. unfold sg in E. apply string_app_inj_l in E. change ("," ++ c_p c (c_i c) = "," ++ c_p d (c_i d))%string in E. apply string_app_inj_l in E.
    apply (k_same_p _ _ _ _ _ _ KR c d (c_i c) (c_i d)); auto; apply Ci; auto. }
  assert (Iep : forall c d, In c cs -> In d cs -> ep c = ep d -> c = d).
  { intros c d Hc Hd E. unfold ep in E. apply string_app_inj_r in E. apply (k_same_p _ _ _ _ _ _ KR c d (c_o c) (c_o d)); auto; apply Ci; auto. }
  assert (Isep : forall c d, In c cs -> In d cs -> sg c <> ep d).
  { intros c d Hc Hd E. apply (Hn5 (c_p d (c_o d))); [apply Ies; eauto|]. apply T4, T3. left. exists (c_p c (c_i c)). split; [apply Iss; eauto|]. symmetry. exact E. }
  set (pat := fun c => fst (nth (c_nr c) parts (Pattern new_net [], ([], [])))).
  assert (Pn : forall c x, nth_error parts (c_nr c) = Some x -> pat c = fst x).
  { intros c x Hx. unfold pat. rewrite (nth_error_nth _ _ _ Hx). auto. }
  set (names := fold_left part_names parts []).
  assert (Ep : forall c, In c cs -> pnet (pat c) = c_net c).
  { intros c Hc. destruct (Cof c Hc) as (x & Hx & Hi & E). rewrite (Pn c x Hi), E. auto. }
  assert (Sp : forall c, In c cs -> spelled names c (pat c)).
  { intros c Hc. destruct (Cof c Hc) as (x & Hx & Hi & E). rewrite (Pn c x Hi). intros u tr Eu V. rewrite E. cbn [c_t comp_nr].
    destruct (g_map _ (x_good _ (FO' x Hx)) u tr Eu V) as [a Ea]. rewrite Ea. unfold names. eapply all_names; eauto. }
  pose proof (ch_source _ _ _ _ _ _ s e sg ep L NEc Gs Ge se HG Hpre Hpost) as So.
  pose proof (ch_sink _ _ _ _ _ _ s e sg ep L NEc Gs Ge se HG Hpre Hpost) as Si.
  destruct (k_new _ _ _ _ _ _ KR ord st names _ _ So Si) as (En & W & Gp).
  { intros c Hc. exists (pat c). split; [auto|]. split; [|auto]. destruct (Cof c Hc) as (x & Hx & Hi & _). rewrite (Pn c x Hi). apply (x_good _ (FO' x Hx)). }
  exists (Pattern R5 names). split; [exact En|]. split; [split; auto|]. split.
  { intros x Q. apply Hns. apply Ps. unfold s. rewrite Q. cbn. auto. }
  intros FN. rewrite Forall_forall in FN.
  assert (CN : forall c, In c cs -> connected (c_net c)).
  { intros c Hc. destruct (Cof c Hc) as (x & Hx & _ & ->). apply (FN x Hx). }
  split; [apply (ch_connected _ _ _ _ _ _ s e sg ep L Gs Ge Hpre Hpost HX); auto|]. split.
  - intros st0 FL. rewrite Forall_forall in FL. apply (choice_clean _ _ _ _ _ _ s e sg ep L NC NEc Gs Ge se HG Hpre Hpost HX Isg Iep names pat Ep); auto.
    intros c Hc. destruct (Cof c Hc) as (x & Hx & Hi & _). rewrite (Pn c x Hi). auto.
  - intros st0 w. rewrite (ch_words _ _ _ _ _ _ s e sg ep L NC NEc Gs Ge se HG Hpre Hpost HX) with (pat := pat); auto. split.
    + intros (c & Hc & Hw). destruct (Cof c Hc) as (x & Hx & Hi & _). rewrite (Pn c x Hi) in Hw. eauto.
    + intros (x & Hx & Hw). apply In_nth_error in Hx. destruct Hx as [i Hi]. exists (comp_nr i x). split; [apply Cin; eauto|].
      rewrite (Pn (comp_nr i x) x Hi). auto.
Qed.

Lemma choice_list_parts ord st l : any_order ord -> Forall good l -> exists parts st', Forall part_ok parts /\ Forall2 same_pattern l (map fst parts) /\
  NoDup (flat_map (fun x => values (fst (snd x))) parts) /\ NoDup (flat_map (fun x => values (snd (snd x))) parts) /\
  (Forall complete l -> choice_list ord st l = join_tail ord st' parts) /\
  (~ Forall complete l -> choice_list ord st l = Err KeyError).
Proof.
  intros HO G. unfold choice_list. destruct (copies_ok ord HO l [] st G) as (cs & st' & E & S). rewrite E. cbn [bind app]. clear E.
  assert (Gc : Forall good cs) by (clear - S; induction S as [|a b l m H S IH]; constructor; [apply H|auto]).
  destruct (fresh_all_ok (map (fun c => keys (transitions (pnet c))) cs) []) as (tms & -> & Kt & Nt & _ & Qt). cbn [bind].
  destruct (fresh_all_ok (map (fun c => keys (places (pnet c))) cs) []) as (pms & -> & Kp & Np & _ & Qp). cbn [bind].
  destruct (zip_parts cs tms pms Gc Kt Kp Qt Qp Nt Np) as (F & M & Vt & Vp). cbv zeta in *.
  set (parts := combine cs (combine tms pms)) in *. exists parts, st'. split; [auto|]. split; [rewrite M; auto|]. split; [rewrite Vt; auto|]. split; [rewrite Vp; auto|].
  assert (C : Forall2 (fun a x => complete a <-> complete (fst x)) l parts).
  { rewrite <- M in S. clear - S. revert S. generalize parts. induction l as [|a l IH]; intros [|x ps] S; inversion S as [|? ? ? ? H S']; subst; constructor; auto.
    destruct H as (_ & _ & E & _). unfold complete, source, sink, before_some, behind_some, starts, ends. rewrite E. tauto. }
  clear - HO F C. split; intros H.
  - assert (HP : Forall (fun x => complete (fst x)) parts).
    { clear - C H. induction C as [|a x l ps E C IH]; [constructor|]. inversion H; subst. constructor; [apply E; auto|auto]. }
    assert (E : mapM (part_ends ord) parts = Ok (map (fun x => (start_of x, end_of x)) parts)).
    { clear - HO F HP. induction parts as [|x ps IH]; [auto|]. inversion F; subst. inversion HP; subst. cbn [mapM]. rewrite part_ends_ok; auto. cbn [bind]. rewrite IH; auto. }
    rewrite E. cbn [bind]. unfold join_tail. rewrite !map_map. reflexivity.
  - assert (E : mapM (part_ends ord) parts = Err KeyError); [|rewrite E; auto].
    clear - HO F C H. induction C as [|a x l ps E C IH]; [exfalso; apply H; constructor|]. inversion F as [|? ? Fx F']; subst. cbn [mapM].
    destruct (complete_dec (fst x) (x_good _ Fx)) as [Cx|Nx].
    + rewrite part_ends_ok; auto. cbn [bind]. rewrite IH; auto. intros Q. apply H. constructor; [apply E; auto|auto].
    + rewrite part_ends_fails; auto. unfold complete. intros [[? ?] [? ?]]. destruct Nx as [Nx|Nx]; eapply Nx; eauto.
Qed.
Lemma Forall2_in_l {A B} (R : A -> B -> Prop) l m a : Forall2 R l m -> In a l -> exists b, In b m /\ R a b.
Proof. induction 1 as [|x y l m H F IH]; intros Hi; [destruct Hi|]. destruct Hi as [<-|Hi]; [exists y; cbn; auto|]. destruct (IH Hi) as (b & Hb & Q). exists b; cbn; auto. Qed.
Lemma Forall2_in_r {A B} (R : A -> B -> Prop) l m b : Forall2 R l m -> In b m -> exists a, In a l /\ R a b.
Proof. induction 1 as [|x y l m H F IH]; intros Hi; [destruct Hi|]. destruct Hi as [<-|Hi]; [exists x; cbn; auto|]. destruct (IH Hi) as (a & Ha & Q). exists a; cbn; auto. Qed.
Definition list_place (l : list pattern) (x : string) : Prop := exists a u k, In a l /\ has_place (pnet a) u /\ x = quoted u k.
Definition list_trans (l : list pattern) (x : string) : Prop := exists a u k, In a l /\ has_transition (pnet a) u /\ x = quoted u k.
Lemma choice_list_case ord st l : any_order ord -> Forall good l -> Forall complete l -> Forall unquoted l -> l <> [] ->
  (choice_list ord st l = Err ValueError /\ exists ss es, length ss = length l /\ length es = length l /\ NoDup (ss ++ es) /\ (forall x, In x (ss ++ es) -> list_place l x) /\
    let s := String.concat "," ss in let e := String.concat "," es in
    (list_place l s \/ list_place l e \/ e = s \/
     (exists p, In p ss /\ list_trans l (s ++ "," ++ p)%string) \/ (exists p, In p es /\ list_trans l (p ++ "," ++ e)%string) \/
     exists p q, In p ss /\ In q es /\ (s ++ "," ++ p)%string = (q ++ "," ++ e)%string)) \/
  exists p st', choice_list ord st l = Ok (p, st') /\ works p /\ (forall x, l <> [x]) /\
    (Forall (fun a => connected (pnet a)) l -> connected (pnet p) /\
      (forall st, Forall (ends_clean st) l -> ends_clean st p) /\
      forall st w, speaks st p w <-> exists a, In a l /\ speaks st a w).
Proof.
  intros HO G C U NE. destruct (choice_list_parts ord st l HO G) as (parts & st' & FO & S & Nt & Np & E & _). rewrite (E C). clear E.
  assert (NEp : parts <> []) by (intros ->; inversion S; subst; congruence).
  assert (Len : length parts = length l) by (clear - S; revert l S; induction parts as [|x ps IH]; intros l S; inversion S; subst; cbn; auto).
  assert (T : forall x, In x parts -> exists a, In a l /\ same_pattern a (fst x)).
  { intros x Hx. apply (Forall2_in_r _ _ _ (fst x) S). apply in_map. auto. }
  assert (B : forall a, In a l -> exists x, In x parts /\ same_pattern a (fst x)).
  { intros a Ha. destruct (Forall2_in_l _ _ _ a S Ha) as (b & Hb & Q). apply in_map_iff in Hb. destruct Hb as (x & <- & Hx). eauto. }
  rewrite Forall_forall in C, U.
  destruct (list_case ord st' parts HO FO) as (ND & R); auto.
  { apply Forall_forall. intros x Hx. destruct (T x Hx) as (a & Ha & _ & Q1 & Q2 & _). generalize (C a Ha). unfold complete, source, sink, before_some, behind_some, starts, ends. rewrite Q2. auto. }
  { apply Forall_forall. intros x Hx. destruct (T x Hx) as (a & Ha & _ & Q1 & Q2 & _). generalize (U a Ha). unfold unquoted, has_place. rewrite Q1. auto. }
  assert (FO' := FO). rewrite Forall_forall in FO'. rewrite Forall_forall in G.
  assert (PP : forall q, part_place parts q -> list_place l q).
  { intros q (x & p & Hx & Hp & ->). destruct (T x Hx) as (a & Ha & _ & Q1 & Q2 & _).
    destruct (x_pq _ (FO' x Hx) p (renamed (snd (snd x)) p)) as [k ->]; [apply renamed_In; rewrite (x_pk _ (FO' x Hx)); auto|].
    exists a, p, k. split; [auto|]. split; [|auto]. unfold has_place in *. rewrite <- Q1. auto. }
  assert (PT : forall q, part_trans parts q -> list_trans l q).
  { intros q (x & p & Hx & Hp & ->). destruct (T x Hx) as (a & Ha & _ & Q1 & Q2 & _).
    destruct (x_tq _ (FO' x Hx) p (renamed (fst (snd x)) p)) as [k ->]; [apply renamed_In; rewrite (x_tk _ (FO' x Hx)); auto|].
    exists a, p, k. split; [auto|]. split; [|auto]. unfold has_transition in *. rewrite <- Q2. auto. }
  cbv zeta in R. destruct R as [[E H]|(p & E & W & N1 & H)].
  - left. split; [exact E|]. exists (map start_of parts), (map end_of parts). rewrite !map_length. split; [auto|]. split; [auto|]. split; [auto|]. split.
    { intros q Hq. apply PP. apply in_app_iff in Hq.
      assert (Q : forall x, In x parts -> has_place (pnet (fst x)) (src_of (fst x)) /\ has_place (pnet (fst x)) (snk_of (fst x))).
      { intros x Hx. destruct (T x Hx) as (a & Ha & Gx & Q1 & Q2 & _). destruct (ends_of (fst x) Gx) as [E1 E2].
        - generalize (C a Ha). unfold complete, source, sink, before_some, behind_some, starts, ends. rewrite Q2. auto.
        - split; [apply before_place, (proj2 (E1 _) eq_refl)|apply behind_place, (proj2 (E2 _) eq_refl)]; apply (g_wf _ Gx). }
      destruct Hq as [Hq|Hq]; apply in_map_iff in Hq; destruct Hq as (x & <- & Hx); exists x; eexists; (split; [exact Hx|]); (split; [|reflexivity]); apply (Q x Hx). }
    cbv zeta. destruct H as [H|[H|[H|[(z & Hz & H)|[(z & Hz & H)|H]]]]]; auto.
    + right. right. right. left. eauto.
    + right. right. right. right. left. eauto.
    + right. right. right. right. right. auto.
  - right. exists p, st'. split; [exact E|]. split; [auto|]. split.
    { intros x Q. rewrite Q in Len. destruct parts as [|y [|z ps]]; cbn in Len; try discriminate. apply (N1 y). auto. }
    intros CN. rewrite Forall_forall in CN. destruct H as (H1 & H2 & H3).
    { apply Forall_forall. intros x Hx. destruct (T x Hx) as (a & Ha & _ & Q1 & Q2 & _). generalize (CN a Ha). unfold connected, has_transition, starts, ends. rewrite Q2. auto. }
    split; [auto|]. split.
    + intros st0 FL. rewrite Forall_forall in FL. apply H2. apply Forall_forall. intros x Hx. destruct (T x Hx) as (a & Ha & _ & Q1 & Q2 & _).
      intros o M Ho (i & ll & Hi & R) Hm q. apply (FL a Ha o M); auto.
      * revert Ho. unfold sink, before_some, behind_some, starts, ends. rewrite Q2. auto.
      * exists i, ll. split; [revert Hi; unfold source, before_some, behind_some, starts, ends; rewrite Q2; auto|]. apply (run_same (pnet a) (pnet (fst x)) st0 Q2). auto.
    + intros st0 w. rewrite H3. split.
      * intros (x & Hx & Hw). destruct (T x Hx) as (a & Ha & _ & Q1 & Q2 & Q3). exists a. split; [auto|]. apply (speaks_same a (fst x) Q2 Q3). auto.
      * intros (a & Ha & Hw). destruct (B a Ha) as (x & Hx & _ & Q1 & Q2 & Q3). exists x. split; [auto|]. apply (speaks_same a (fst x) Q2 Q3). auto.
Qed.
