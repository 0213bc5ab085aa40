From Coq Require Import Permutation.
From Verif.Model Require Import Base ListUtils Parallel.
From Verif.Spec Require Import ParallelSpec.
From Verif.Lib Require Import ListLib.
From Verif.Proofs Require Import ListUtils2 ParallelA.

Lemma partitions {X} (l : list X) n ps : view_of_n_partitions l n = Ok ps ->
  concat ps = l /\ ps <> [] /\ (forall p, In p ps -> p <> []) /\ l <> [] /\ length ps <= length l.
Proof.
  intros E.
  destruct l as [|x l].
  { rewrite view_of_n_partitions_err in E by auto. discriminate. }
  destruct (Z.le_gt_cases n 0) as [Hn|Hn].
  { rewrite view_of_n_partitions_err in E by auto. discriminate. }
  destruct (view_of_n_partitions_ok (x :: l) n) as (ps' & q & r & r' & E' & C & L & Hq & M); [discriminate|lia|].
  rewrite E in E'. injection E' as <-. split; [auto|]. split; [|split; [|split; [discriminate|lia]]].
  - intros ->. discriminate.
  - intros p Hp ->. apply (in_map (@length X)) in Hp. rewrite M in Hp. cbn in Hp. apply in_app_or in Hp.
    destruct Hp as [Hp|Hp]; apply repeat_spec in Hp; lia.
Qed.

Lemma mapM_app {X Y} (f : X -> result Y) l m : mapM f (l ++ m) = do a <- mapM f l ; do b <- mapM f m ; Ok (a ++ b).
Proof.
  induction l as [|x l IH]; cbn [mapM app bind]; [destruct (mapM f m); auto|]. destruct (f x); cbn [bind]; [|auto]. rewrite IH.
  destruct (mapM f l); cbn [bind]; [|auto]. destruct (mapM f m); auto.
Qed.
Lemma mapM_Ok {X Y} (f : X -> result Y) l rs : mapM f l = Ok rs <-> Forall2 (fun x r => f x = Ok r) l rs.
Proof.
  revert rs. induction l as [|x l IH]; intros rs; cbn [mapM].
  - split; [intros E; injection E as <-; constructor|]. inversion 1; auto.
  - split.
    + destruct (f x) eqn:E; cbn [bind]; [|discriminate]. destruct (mapM f l) eqn:E1; cbn [bind]; [|discriminate].
      intros Q; injection Q as <-. constructor; auto. apply IH. auto.
    + inversion 1; subst. match goal with H : f x = _ |- _ => rewrite H end. cbn [bind].
      match goal with H : Forall2 _ l _ |- _ => apply IH in H; rewrite H end. auto.
Qed.
Lemma Forall2_in_l {X Y} (P : X -> Y -> Prop) l m x : Forall2 P l m -> In x l -> exists y, In y m /\ P x y.
Proof. induction 1 as [|a b l m Hab F IH]; cbn; [tauto|]. intros [<-|Hx]; [eauto|]. destruct (IH Hx) as (y & ? & ?). eauto. Qed.
Lemma Forall2_in_r {X Y} (P : X -> Y -> Prop) l m y : Forall2 P l m -> In y m -> exists x, In x l /\ P x y.
Proof. induction 1 as [|a b l m Hab F IH]; cbn; [tauto|]. intros [<-|Hx]; [eauto|]. destruct (IH Hx) as (x & ? & ?). eauto. Qed.
Lemma flat_map_singletons {X Y} (f : X -> result Y) (h : X -> list Y) l rs : Forall2 (fun x r => f x = Ok r) l rs ->
  (forall x r, f x = Ok r -> In r rs -> h x = [r]) -> flat_map h l = rs.
Proof.
  intros F Hh. induction F as [|x r l rs E F IH]; cbn [flat_map]; [auto|]. rewrite (Hh x r E) by (cbn; auto). cbn [app]. f_equal.
  apply IH. intros; apply Hh; cbn; auto.
Qed.

Lemma filter_none {X} (g : X -> bool) l : (forall x, In x l -> g x = false) -> filter g l = [].
Proof. induction l as [|x l IH]; cbn; [auto|]. intros H. rewrite H by auto. auto. Qed.

Section Workers.
Context {E R : Type}.
Variable exc : R -> option error.
Local Notation msg := (@msg R).
(** workers put the messages of [b p] and then stop *)
Variable b : list E -> list msg.
Variable ps : list (list E).
Let ws := map (fun p => b p ++ [Raised StopIteration]) ps.
Lemma ws_ended : Forall ended ws.
Proof. apply Forall_forall. intros w Hw. apply in_map_iff in Hw. destruct Hw as (p & <- & _). exists (b p). auto. Qed.
Lemma ws_len : length ws = length ps.
Proof. apply map_length. Qed.
Lemma ws_ne : ps <> [] -> ws <> [].
Proof. unfold ws. destruct ps; [congruence|discriminate]. Qed.
Lemma ws_stops : (forall p m, In p ps -> In m (b p) -> kind exc m <> Some StopIteration) -> stops exc (concat ws) = length ws.
Proof.
  rewrite ws_len. unfold ws. induction ps as [|p q IH]; intros Hb; cbn [map concat length]; [auto|].
  rewrite !stops_app, IH by (intros; eapply Hb; cbn; eauto).
  assert (Z0 : stops exc (b p) = 0).
  { unfold stops. rewrite filter_none; [auto|]. intros m Hm. specialize (Hb p m (or_introl eq_refl) Hm).
    unfold is_stop. destruct (kind exc m) as [[]|]; congruence. }
  rewrite Z0. cbn. lia.
Qed.
Lemma ws_vals : vals exc (concat ws) = concat (map (fun p => vals exc (b p)) ps).
Proof.
  unfold ws. induction ps as [|p q IH]; cbn [map concat]; [auto|]. rewrite !vals_app, IH. cbn. rewrite app_nil_r. auto.
Qed.
Lemma ws_in m : In m (concat ws) <-> (ps <> [] /\ m = Raised StopIteration) \/ exists p, In p ps /\ In m (b p).
Proof.
  unfold ws. rewrite in_concat. split.
  - intros (w & Hw & Hm). apply in_map_iff in Hw. destruct Hw as (p & <- & Hp). apply in_app_or in Hm. destruct Hm as [Hm|[<-|[]]]; [eauto|].
    left. split; [destruct ps; [destruct Hp|discriminate]|auto].
  - intros [[Hp ->]|(p & Hp & Hm)].
    + destruct ps as [|p q]; [congruence|]. exists (b p ++ [Raised StopIteration]). split; [cbn; auto|]. apply in_or_app; cbn; auto.
    + exists (b p ++ [Raised StopIteration]). split; [apply in_map_iff; eauto|]. apply in_or_app; auto.
Qed.
Hypothesis Hne : ps <> [].
Hypothesis Hs : forall p m, In p ps -> In m (b p) -> kind exc m <> Some StopIteration.
Lemma collect_cases sched res : mp_collect exc ws sched = Some res ->
  match res with
  | Ok acc => Permutation acc (concat (map (fun p => vals exc (b p)) ps)) /\ forall p m, In p ps -> In m (b p) -> kind exc m = None
  | Err e => exists p m, In p ps /\ In m (b p) /\ kind exc m = Some e
  end.
Proof.
  unfold mp_collect. destruct (exec (mp_step exc (length ws)) sched (mp_init ws)) as [s|] eqn:Ex; [|discriminate].
  pose proof (uinv_exec exc ws ws_ended (ws_ne Hne) sched s Ex) as I. destruct (main s) as [|r] eqn:Em; [discriminate|].
  intros Q; injection Q as <-. destruct r as [acc|e].
  - destruct (u_ok exc ws ws_ended s acc I Em (ws_stops Hs)) as [P C]. rewrite ws_vals in P. split; [auto|]. intros p m Hp Hm.
    rewrite Forall_forall in C. destruct (C m) as [?|?]; [apply ws_in; right; eauto|auto|]. exfalso. eapply Hs; eauto.
  - destruct (u_err exc ws s e I Em) as (He & m & Hm & Ek). apply ws_in in Hm. destruct Hm as [[_ ->]|(p & Hp & Hm)]; [cbn in Ek; congruence|eauto].
Qed.
Lemma collect_o_cases sched res : mpo_collect exc ws sched = Some res ->
  match res with
  | Ok acc => acc = concat (map (fun p => vals exc (b p)) ps) /\ forall p m, In p ps -> In m (b p) -> kind exc m = None
  | Err e => exists p m, In p ps /\ In m (b p) /\ kind exc m = Some e
  end.
Proof.
  unfold mpo_collect. destruct (exec (mpo_step exc) sched (mpo_init ws)) as [s|] eqn:Ex; [|discriminate].
  pose proof (oinv_exec exc ws ws_ended (ws_ne Hne) sched s Ex) as I. destruct (main_o s) as [|r] eqn:Em; [discriminate|].
  intros Q; injection Q as <-. destruct r as [acc|e].
  - destruct (o_ok exc ws s acc I Em) as [P C].
    assert (BS : forall p, In p ps -> before_stop exc (b p ++ [Raised StopIteration]) = b p).
    { intros p Hp. specialize (Hs p). revert Hs. generalize (b p) as l. induction l as [|m l IH]; intros Hl; cbn; [auto|].
      assert (is_stop exc m = false) as ->; [|f_equal; apply IH; intros; apply Hl; cbn; auto].
      specialize (Hl m Hp (or_introl eq_refl)). unfold is_stop. destruct (kind exc m) as [[]|]; congruence. }
    split.
    + rewrite P. f_equal. unfold ws. rewrite map_map. apply map_ext_in. intros p Hp. rewrite BS; auto.
    + intros p m Hp Hm. assert (Hw : In (b p ++ [Raised StopIteration]) ws) by (apply in_map_iff; eauto).
      specialize (C _ Hw). rewrite BS in C by auto. rewrite Forall_forall in C. apply C. auto.
  - destruct (o_err exc ws s e I Em) as (He & m & Hm & Ek). apply ws_in in Hm. destruct Hm as [[_ ->]|(p & Hp & Hm)]; [cbn in Ek; congruence|eauto].
Qed.
End Workers.

(** bodies of the workers *)
Definition map_msg {E R} (f : E -> result R) (x : E) : msg := match f x with Ok r => Val r | Err e => Raised e end.
Lemma map_msg_kind {E R} exc (f : E -> result R) x e : kind exc (map_msg f x) = Some e <-> yields exc f x e.
Proof.
  unfold map_msg, yields. destruct (f x) as [r|e'] eqn:Ef; cbn.
  - split; [eauto|]. intros [?|(r' & E' & Hr)]; [discriminate|]. injection E' as ->. auto.
  - split; [intros Q; injection Q as ->; auto|]. intros [Q|(r' & Q & _)]; [injection Q as ->; auto|discriminate].
Qed.
Lemma map_vals {E R} exc (f : E -> result R) l rs : mapM f l = Ok rs -> (forall r, In r rs -> exc r = None) -> vals exc (map (map_msg f) l) = rs.
Proof.
  intros F Hr. apply mapM_Ok in F. unfold vals. rewrite flat_map_concat_map, map_map, <- flat_map_concat_map.
  apply (flat_map_singletons f _ l rs F). intros x r Ef Hin. unfold val_of, map_msg. rewrite Ef. cbn. rewrite Hr; auto.
Qed.
Lemma concat_map_vals {E R} exc (f : E -> result R) ps rs : mapM f (concat ps) = Ok rs -> (forall r, In r rs -> exc r = None) ->
  concat (map (fun p => vals exc (map (map_msg f) p)) ps) = rs.
Proof.
  revert rs. induction ps as [|p ps IH]; cbn [concat map]; intros rs M Hr; [injection M as <-; auto|].
  rewrite mapM_app in M. destruct (mapM f p) as [r1|] eqn:E1; cbn [bind] in M; [|discriminate].
  destruct (mapM f (concat ps)) as [r2|] eqn:E2; cbn [bind] in M; [|discriminate]. injection M as <-.
  rewrite (map_vals exc f p r1 E1) by (intros; apply Hr, in_or_app; auto). f_equal. apply IH; auto. intros; apply Hr, in_or_app; auto.
Qed.

(*P C54 Ordered parallel map equals sequential map *)
Lemma C54_multiprocess : forall (E R : Type) (exc : R -> option error) (f : E -> result R) n l rs sched res,
  (1 <= n)%Z -> l <> [] -> local_map f l = Ok rs -> (forall r, In r rs -> exc r = None) ->
  mp_map_ordered exc f n l sched = Some res -> res = Ok rs.
Proof.
  intros E R exc f n l rs sched res Hn Hl M Hr. unfold mp_map_ordered. destruct (view_of_n_partitions l n) as [ps|e] eqn:Ep.
  2:{ destruct (view_of_n_partitions_ok l n Hl Hn) as (? & ? & ? & ? & Q & _). congruence. }
  destruct (partitions _ _ _ Ep) as (C & Hne & _). intros Hc.
  assert (Hb : forall p m, In p ps -> In m (map (map_msg f) p) -> kind exc m = None).
  { intros p m Hp Hm. apply in_map_iff in Hm. destruct Hm as (x & <- & Hx). unfold local_map in M. apply mapM_Ok in M.
    assert (Hxl : In x l) by (rewrite <- C; apply in_concat; eauto).
    destruct (Forall2_in_l _ _ _ _ M Hxl) as (r & Hin & Ef). unfold map_msg. rewrite Ef. cbn. auto. }
  apply (collect_o_cases exc (map (map_msg f)) ps Hne) in Hc; [|intros p m Hp Hm Q; rewrite (Hb p m Hp Hm) in Q; discriminate].
  destruct res as [acc|e].
  - destruct Hc as [-> _]. f_equal. apply concat_map_vals; [rewrite C; auto|auto].
  - destruct Hc as (p & m & Hp & Hm & Ek). rewrite (Hb p m Hp Hm) in Ek. discriminate.
Qed.

(** threads *)
Lemma th_map_worker_ok {E R} (f : E -> result R) l : match th_map_worker f l with
  | (rs, None) => mapM f l = Ok rs | (_, Some e) => mapM f l = Err e end.
Proof.
  induction l as [|x l IH]; cbn [th_map_worker mapM]; [auto|]. destruct (f x); cbn [bind]; [|auto].
  destruct (th_map_worker f l) as [rs [e|]]; rewrite IH; auto.
Qed.
Lemma mapM_concat_ok {E R} (f : E -> result R) ps : Forall (fun t => snd t = None) (map (th_map_worker f) ps) ->
  mapM f (concat ps) = Ok (concat (map fst (map (th_map_worker f) ps))).
Proof.
  induction ps as [|p ps IH]; cbn [map concat]; [auto|]. inversion 1 as [|? ? Q1 Q2]; subst. rewrite mapM_app.
  pose proof (th_map_worker_ok f p) as W. destruct (th_map_worker f p) as [rs [e|]]; [discriminate|]. rewrite W. cbn [bind].
  rewrite IH by auto. auto.
Qed.
Lemma mapM_concat_err {E R} (f : E -> result R) ps l1 t l2 e : map (th_map_worker f) ps = l1 ++ t :: l2 -> snd t = Some e ->
  Forall (fun t => snd t = None) l1 -> mapM f (concat ps) = Err e.
Proof.
  revert l1. induction ps as [|p ps IH]; intros l1; cbn [map concat]; [destruct l1; discriminate|]. rewrite mapM_app.
  pose proof (th_map_worker_ok f p) as W. destruct l1 as [|t1 l1]; cbn [app]; intros E1 Et F; injection E1 as <- E2.
  - destruct (th_map_worker f p) as [rs o]; cbn in Et; subst o. rewrite W. auto.
  - inversion F as [|? ? Q1 Q2]; subst. destruct (th_map_worker f p) as [rs [o|]]; [discriminate|]. rewrite W. cbn [bind].
    rewrite (IH l1 E2 Et Q2). auto.
Qed.
Lemma th_run_cases {E R} shared (w : list E -> list R * option error) ps sched res : ps <> [] -> th_run shared (map w ps) sched = Some res ->
  match res with
  | Ok ls => Forall (fun t => snd t = None) (map w ps) /\
      (if shared then Permutation (nth 0 ls []) (concat (map fst (map w ps))) else ls = map fst (map w ps))
  | Err e => exists l1 t l2, map w ps = l1 ++ t :: l2 /\ snd t = Some e /\ Forall (fun t => snd t = None) l1
  end.
Proof.
  intros Hne. unfold th_run. destruct (exec (th_step shared) sched (th_init shared (map w ps))) as [s|] eqn:Ex; [|discriminate].
  assert (Hn : map w ps <> []) by (destruct ps; [congruence|discriminate]).
  pose proof (tinv_exec shared (map w ps) Hn sched s Ex) as I. destruct (join_st s) as [|r] eqn:Ej; [discriminate|].
  intros Q; injection Q as <-. destruct r as [u|e]; cbn [bind].
  - apply (t_ok shared (map w ps) s u I Ej).
  - apply (t_err shared (map w ps) s e I Ej).
Qed.
Lemma fold_app {X} (ls : list (list X)) a : fold_left (@app X) ls a = a ++ concat ls.
Proof. revert a. induction ls as [|l ls IH]; intros a; cbn; [rewrite app_nil_r; auto|]. rewrite IH, app_assoc. auto. Qed.
(** also when the function raises *)
Lemma C54_threading : forall (E R : Type) (f : E -> result R) n l sched res, (1 <= n)%Z -> l <> [] ->
  th_map_ordered f n l sched = Some res -> res = local_map f l.
Proof.
  intros E R f n l sched res Hn Hl. unfold th_map_ordered. destruct (view_of_n_partitions l n) as [ps|e] eqn:Ep.
  2:{ destruct (view_of_n_partitions_ok l n Hl Hn) as (? & ? & ? & ? & Q & _). congruence. }
  destruct (partitions _ _ _ Ep) as (C & Hne & _).
  destruct (th_run false (map (th_map_worker f) ps) sched) as [r|] eqn:Er; [|discriminate]. cbn [option_map]. intros Q; injection Q as <-.
  apply th_run_cases in Er; [|auto]. unfold local_map. rewrite <- C. destruct r as [ls|e]; cbn [bind].
  - destruct Er as [F ->]. rewrite (mapM_concat_ok f ps F). destruct ps as [|p ps]; [congruence|]. cbn [map]. rewrite fold_app. auto.
  - destruct Er as (l1 & t & l2 & Q1 & Q2 & Q3). symmetry. eapply mapM_concat_err; eauto.
Qed.
(** the empty list is not mapped to the empty list *)
Lemma C54_empty_list : forall (E R : Type) (exc : R -> option error) (f : E -> result R) n,
  (forall sched, mp_map_ordered exc f n [] sched = Some (Err ZeroDivisionError)) /\
  (forall sched, th_map_ordered f n [] sched = Some (Err ZeroDivisionError)) /\ local_map f [] = Ok [].
Proof.
  intros E R exc f n. unfold mp_map_ordered, th_map_ordered. rewrite view_of_n_partitions_err by auto. auto.
Qed.
(** no schedule runs forever, and none gets stuck before the main program is done *)
Lemma C54_multiprocess_finishes : forall (E R : Type) (exc : R -> option error) (f : E -> result R) n l ps sched s,
  view_of_n_partitions l n = Ok ps ->
  exec (mpo_step exc) sched (mpo_init (map (mp_map_worker f) ps)) = Some s ->
  length sched <= 2 * (length l + length ps) /\
  ((exists r, main_o s = DoneO r) \/ exists a s', mpo_step exc a s = Some s').
Proof.
  intros E R exc f n l ps sched s Ep Ex. destruct (partitions _ _ _ Ep) as (C & Hne & _).
  change (map (mp_map_worker f) ps) with (map (fun p => map (map_msg f) p ++ [Raised StopIteration]) ps) in Ex. split.
  - apply o_len in Ex. etransitivity; [exact Ex|]. apply Nat.mul_le_mono_l. rewrite <- C. clear.
    induction ps as [|p ps IH]; cbn [map concat length]; [lia|]. rewrite !app_length, map_length. cbn [length]. lia.
  - eapply o_progress; [apply (ws_ended (map (map_msg f)) ps)|]. apply (oinv_exec exc _ (ws_ended (map (map_msg f)) ps) (ws_ne (map (map_msg f)) ps Hne) sched s Ex).
Qed.
Lemma C54_threading_finishes : forall (E R : Type) (f : E -> result R) n l ps sched s,
  view_of_n_partitions l n = Ok ps ->
  exec (th_step false) sched (th_init false (map (th_map_worker f) ps)) = Some s ->
  length sched <= length l + length ps /\
  ((exists r, join_st s = Joined r) \/ exists a s', th_step false a s = Some s').
Proof.
  intros E R f n l ps sched s Ep Ex. destruct (partitions _ _ _ Ep) as (C & Hne & _). split.
  - apply t_len in Ex; [|destruct ps; [congruence|discriminate]]. etransitivity; [exact Ex|]. rewrite map_length. apply Nat.add_le_mono_r. rewrite <- C. clear.
    induction ps as [|p ps IH]; cbn [map concat length]; [lia|]. rewrite !app_length.
    assert (length (fst (th_map_worker f p)) <= length p); [|lia].
    induction p as [|x p IHp]; cbn; [lia|]. destruct (f x); cbn; [|lia]. destruct (th_map_worker f p); cbn in *; lia.
  - assert (Hn : map (th_map_worker f) ps <> []) by (destruct ps; [congruence|discriminate]).
    eapply t_progress. apply (tinv_exec false _ Hn sched s Ex).
Qed.

(*P C55 Unordered parallel map, filter-map and reduce *)
Lemma C55_multiprocess_map : forall (E R : Type) (exc : R -> option error) (f : E -> result R) n l rs sched res,
  (1 <= n)%Z -> l <> [] -> local_map f l = Ok rs -> (forall r, In r rs -> exc r = None) ->
  mp_map_unordered exc f n l sched = Some res -> exists rs', res = Ok rs' /\ Permutation rs' rs.
Proof.
  intros E R exc f n l rs sched res Hn Hl M Hr. unfold mp_map_unordered. destruct (view_of_n_partitions l n) as [ps|e] eqn:Ep.
  2:{ destruct (view_of_n_partitions_ok l n Hl Hn) as (? & ? & ? & ? & Q & _). congruence. }
  destruct (partitions _ _ _ Ep) as (C & Hne & _). intros Hc.
  assert (Hb : forall p m, In p ps -> In m (map (map_msg f) p) -> kind exc m = None).
  { intros p m Hp Hm. apply in_map_iff in Hm. destruct Hm as (x & <- & Hx). unfold local_map in M. apply mapM_Ok in M.
    assert (Hxl : In x l) by (rewrite <- C; apply in_concat; eauto).
    destruct (Forall2_in_l _ _ _ _ M Hxl) as (r & Hin & Ef). unfold map_msg. rewrite Ef. cbn. auto. }
  apply (collect_cases exc (map (map_msg f)) ps Hne) in Hc; [|intros p m Hp Hm Q; rewrite (Hb p m Hp Hm) in Q; discriminate].
  destruct res as [acc|e].
  - destruct Hc as [P _]. exists acc. split; [auto|]. rewrite (concat_map_vals exc f ps rs) in P; [auto|rewrite C; auto|auto].
  - destruct Hc as (p & m & Hp & Hm & Ek). rewrite (Hb p m Hp Hm) in Ek. discriminate.
Qed.
(** filtered mapping of one element *)
Definition one {E R} (f : E -> result R) (g : R -> result bool) (x : E) : list R :=
  match f x with Ok r => match g r with Ok true => [r] | _ => [] end | Err _ => [] end.
Definition fine {E R} (f : E -> result R) (g : R -> result bool) (x : E) : Prop := exists r b, f x = Ok r /\ g r = Ok b.
Lemma local_filter_ok {E R} (f : E -> result R) g l rs : local_map_filter f g l = Ok rs -> Forall (fine f g) l /\ rs = flat_map (one f g) l.
Proof.
  unfold local_map_filter, local_map. destruct (mapM f l) as [ms|] eqn:M; cbn [bind]; [|discriminate]. apply mapM_Ok in M. intros Fm.
  revert rs Fm. induction M as [|x r l ms Ef M IH]; cbn [filterM flat_map]; intros rs Fm; [injection Fm as <-; auto|].
  destruct (g r) as [b|] eqn:Eg; cbn [bind] in Fm; [|discriminate]. destruct (filterM g ms) as [rs'|]; cbn [bind] in Fm; [|discriminate].
  injection Fm as <-. destruct (IH rs' eq_refl) as [I1 ->]. split; [constructor; [exists r, b; auto|auto]|].
  assert (Q : one f g x = if b then [r] else []) by (unfold one; rewrite Ef, Eg; destruct b; auto). rewrite Q. destruct b; auto.
Qed.
Lemma local_filter_err {E R} (f : E -> result R) g l e : local_map_filter f g l = Err e -> ~ Forall (fine f g) l.
Proof.
  unfold local_map_filter, local_map. intros H F. 
  assert (M : exists ms, mapM f l = Ok ms /\ exists rs, filterM g ms = Ok rs); [|destruct M as (ms & M1 & rs & M2); rewrite M1 in H; cbn [bind] in H; rewrite M2 in H; discriminate].
  clear H. induction F as [|x l (r & b & Ef & Eg) F (ms & IH1 & rs & IH2)]; cbn [mapM].
  - exists []. split; [auto|]. exists []. auto.
  - rewrite Ef, IH1. cbn [bind]. eexists. split; [reflexivity|]. cbn [filterM]. rewrite Eg, IH2. cbn [bind]. eauto.
Qed.
Definition filter_msg {E R} (f : E -> result R) (g : R -> result bool) (x : E) : list msg :=
  match f x with
  | Err e => [Raised e]
  | Ok r => match g r with Err e => [Raised e] | Ok true => [Val r] | Ok false => [] end
  end.
Lemma filter_vals {E R} exc (f : E -> result R) g l : Forall (fine f g) l -> (forall r, In r (flat_map (one f g) l) -> exc r = None) ->
  vals exc (flat_map (filter_msg f g) l) = flat_map (one f g) l /\
  forall m, In m (flat_map (filter_msg f g) l) -> kind exc m = None.
Proof.
  induction 1 as [|x l (r & b & Ef & Eg) F IH]; cbn [flat_map]; intros Hr; [cbn; tauto|]. rewrite vals_app.
  destruct IH as [IH1 IH2]; [intros; apply Hr, in_or_app; auto|]. rewrite IH1. unfold one, filter_msg in *. rewrite Ef, Eg in *.
  destruct b; cbn [app] in *; [|auto]. unfold vals at 1, val_of. cbn. rewrite Hr by (cbn; auto). split; [auto|].
  intros m [<-|Hm]; [apply Hr; cbn; auto|]. apply IH2. auto.
Qed.
Lemma flat_map_concat {X Y} (f : X -> list Y) (ps : list (list X)) : flat_map f (concat ps) = concat (map (flat_map f) ps).
Proof. induction ps as [|p ps IH]; cbn; [auto|]. rewrite flat_map_app, IH. auto. Qed.
Lemma C55_multiprocess_map_filter : forall (E R : Type) (exc : R -> option error) (f : E -> result R) g n l rs sched res,
  (1 <= n)%Z -> l <> [] -> local_map_filter f g l = Ok rs -> (forall r, In r rs -> exc r = None) ->
  mp_map_filter exc f g n l sched = Some res -> exists rs', res = Ok rs' /\ Permutation rs' rs.
Proof.
  intros E R exc f g n l rs sched res Hn Hl M Hr. unfold mp_map_filter. destruct (view_of_n_partitions l n) as [ps|e] eqn:Ep.
  2:{ destruct (view_of_n_partitions_ok l n Hl Hn) as (? & ? & ? & ? & Q & _). congruence. }
  destruct (partitions _ _ _ Ep) as (C & Hne & _). intros Hc. apply local_filter_ok in M. destruct M as [F ->].
  assert (Hp : forall p, In p ps -> vals exc (flat_map (filter_msg f g) p) = flat_map (one f g) p /\
     forall m, In m (flat_map (filter_msg f g) p) -> kind exc m = None).
  { intros p Hp. assert (Hi : incl p l) by (intros x Hx; rewrite <- C; apply in_concat; eauto). apply filter_vals.
    - rewrite Forall_forall in *. auto.
    - intros r Hin. apply Hr. apply in_flat_map in Hin. destruct Hin as (x & Hx & Hin). apply in_flat_map. exists x. auto. }
  apply (collect_cases exc (flat_map (filter_msg f g)) ps Hne) in Hc; [|intros p m Hip Hm Q; rewrite (proj2 (Hp p Hip) m Hm) in Q; discriminate].
  destruct res as [acc|e].
  - destruct Hc as [P _]. exists acc. split; [auto|]. rewrite P. rewrite <- C, flat_map_concat.
    rewrite (map_ext_in (fun p => vals exc (flat_map (filter_msg f g) p)) (flat_map (one f g))); [auto|]. intros p Hip. apply Hp; auto.
  - destruct Hc as (p & m & Hip & Hm & Ek). rewrite (proj2 (Hp p Hip) m Hm) in Ek. discriminate.
Qed.
Section Reduce.
Context {E R : Type}.
Variables (f : E -> result R) (op : R -> R -> R).
Hypothesis AC : assoc_comm op.
Let red (a b : R) : result R := Ok (op a b).
Definition fold1 (l : list R) : option R := match l with [] => None | a :: l' => Some (fold_left op l' a) end.
Definition join (a b : option R) : option R :=
  match a, b with Some x, Some y => Some (op x y) | Some x, None => Some x | None, y => y end.
Lemma fold_op l a b : fold_left op l (op a b) = op a (fold_left op l b).
Proof. revert b. induction l as [|c l IH]; intros b; cbn; [auto|]. rewrite <- IH. f_equal. symmetry. apply AC. Qed.
Lemma fold1_cons a l : fold1 (a :: l) = join (Some a) (fold1 l).
Proof. destruct l as [|b l]; cbn; [auto|]. rewrite fold_op. auto. Qed.
Lemma join_assoc a b c : join a (join b c) = join (join a b) c.
Proof. destruct a, b, c; cbn; auto. f_equal. apply AC. Qed.
Lemma join_comm a b : join a b = join b a.
Proof. destruct a, b; cbn; auto. f_equal. apply AC. Qed.
Lemma fold1_app l m : fold1 (l ++ m) = join (fold1 l) (fold1 m).
Proof.
  induction l as [|a l IH]; [reflexivity|]. cbn [app]. rewrite !fold1_cons, IH, join_assoc. auto.
Qed.
Lemma fold1_perm l m : Permutation l m -> fold1 l = fold1 m.
Proof.
  induction 1; auto; try congruence.
  - rewrite !fold1_cons. congruence.
  - rewrite !fold1_cons, !join_assoc, (join_comm (Some y) (Some x)). auto.
Qed.
Lemma reduce_fold1 l : reduce red l = match fold1 l with Some v => Ok v | None => Err TypeError end.
Proof.
  destruct l as [|a l]; cbn; [auto|]. revert a. induction l as [|b l IH]; intros a; cbn; [auto|]. apply IH.
Qed.
Lemma map_reduce_fold l rs a : Forall2 (fun x r => f x = Ok r) l rs ->
  foldM (fun a y => do b <- generate f y ; red a b) l a = Ok (fold_left op rs a).
Proof.
  intros M. revert a. induction M as [|y s l rs Es M IH]; intros a; cbn; [auto|]. unfold generate. rewrite Es. cbn [bind]. apply IH.
Qed.
Lemma map_reduce_ok l rs : mapM f l = Ok rs -> map_reduce f red l = match fold1 rs with Some v => Ok v | None => Err TypeError end.
Proof.
  intros M. apply mapM_Ok in M. destruct M as [|x r l rs Ef M]; cbn; [auto|]. unfold generate. rewrite Ef. cbn [bind].
  apply map_reduce_fold. auto.
Qed.
(** with a total reduce function the reduction of a list fails iff the mapping does *)
Lemma map_reduce_err l : l <> [] -> match map_reduce f red l with
  | Ok _ => exists rs, mapM f l = Ok rs
  | Err e => exists l1 x l2, l = l1 ++ x :: l2 /\ generate f x = Err e /\ exists rs, mapM f l1 = Ok rs
  end.
Proof.
  assert (G : forall l a, match foldM (fun a y => do b <- generate f y ; red a b) l a with
     | Ok _ => exists rs, mapM f l = Ok rs
     | Err e => exists l1 x l2, l = l1 ++ x :: l2 /\ generate f x = Err e /\ exists rs, mapM f l1 = Ok rs end).
  { clear l. induction l as [|y l IH]; intros a; cbn [foldM mapM]; [eauto|].
    destruct (generate f y) as [b|e] eqn:Eg; cbn [bind].
    - specialize (IH (op a b)). change (red a b) with (@Ok R (op a b)). cbn [bind].
      assert (Ef : f y = Ok b) by (unfold generate in Eg; destruct (f y) as [|[]]; congruence).
      destruct (foldM (fun a y => do b <- generate f y ; red a b) l (op a b)).
      + destruct IH as [rs ->]. rewrite Ef. cbn. eauto.
      + destruct IH as (l1 & x & l2 & -> & Q1 & rs & Q2). exists (y :: l1), x, l2. split; [auto|]. split; [auto|]. cbn. rewrite Ef, Q2. cbn. eauto.
    - exists [], y, l. split; [auto|]. split; [auto|]. exists []. auto. }
  intros Hl. destruct l as [|x l]; [congruence|]. cbn [map_reduce]. destruct (generate f x) as [b|e] eqn:Eg; cbn [bind].
  - assert (Ef : f x = Ok b) by (unfold generate in Eg; destruct (f x) as [|[]]; congruence). specialize (G l b).
    destruct (foldM (fun a y => do b <- generate f y ; red a b) l b).
    + destruct G as [rs Q]. cbn. rewrite Ef, Q. cbn. eauto.
    + destruct G as (l1 & y & l2 & -> & Q1 & rs & Q2). exists (x :: l1), y, l2. split; [auto|]. split; [auto|]. cbn. rewrite Ef, Q2. cbn. eauto.
  - exists [], x, l. split; [auto|]. split; [auto|]. exists []. auto.
Qed.
(** reductions of the partitions *)
Lemma parts_fold ps rs : mapM f (concat ps) = Ok rs -> (forall p, In p ps -> p <> []) ->
  exists vs, Forall2 (fun p v => map_reduce f red p = Ok v) ps vs /\ fold1 vs = fold1 rs.
Proof.
  revert rs. induction ps as [|p ps IH]; cbn [concat]; intros rs M Hp.
  - injection M as <-. exists []. split; [constructor|auto].
  - rewrite mapM_app in M. destruct (mapM f p) as [r1|] eqn:E1; cbn [bind] in M; [|discriminate].
    destruct (mapM f (concat ps)) as [r2|] eqn:E2; cbn [bind] in M; [|discriminate]. injection M as <-.
    destruct (IH r2 eq_refl) as (vs & F & Ev); [intros; apply Hp; cbn; auto|].
    pose proof (map_reduce_ok p r1 E1) as Q. destruct (fold1 r1) as [v|] eqn:Ef.
    + exists (v :: vs). split; [constructor; auto|]. rewrite fold1_cons, Ev, fold1_app, Ef. auto.
    + exfalso. apply (Hp p); [cbn; auto|]. apply mapM_Ok in E1. destruct E1; [auto|discriminate].
Qed.
(** no value of the reduction is an exception object *)
Lemma fold_exc (exc : R -> option error) rs v : (forall r, In r rs -> exc r = None) -> (forall a b, exc (op a b) = None) -> fold1 rs = Some v -> exc v = None.
Proof.
  intros Hr Ho. destruct rs as [|a rs]; [discriminate|]. rewrite fold1_cons. destruct (fold1 rs); cbn; intros Q; injection Q as <-; auto.
  apply Hr; cbn; auto.
Qed.
End Reduce.
Lemma C55_multiprocess_map_reduce : forall (E R : Type) (exc : R -> option error) (f : E -> result R) op n l rs v sched res,
  (1 <= n)%Z -> assoc_comm op -> local_map f l = Ok rs -> (forall r, In r rs -> exc r = None) -> (forall a b, exc (op a b) = None) ->
  local_map_reduce f (fun a b => Ok (op a b)) l = Ok v ->
  mp_map_reduce exc f (fun a b => Ok (op a b)) n l sched = Some res -> res = Ok v.
Proof.
  intros E R exc f op n l rs v sched res Hn AC M Hr Ho Hv. unfold mp_map_reduce. destruct (view_of_n_partitions l n) as [ps|e] eqn:Ep.
  2:{ assert (Hl : l <> []) by (intros ->; discriminate). destruct (view_of_n_partitions_ok l n Hl Hn) as (? & ? & ? & ? & Q & _). congruence. }
  destruct (partitions _ _ _ Ep) as (C & Hne & Hp & _). unfold local_map in M. rewrite <- C in M.
  destruct (parts_fold f op AC ps rs M Hp) as (vs & F & Ev).
  unfold local_map_reduce in Hv. rewrite C in M. rewrite (map_reduce_ok f op l rs M) in Hv. destruct (fold1 op rs) as [w|] eqn:Ew; [|discriminate].
  injection Hv as ->.
  set (b := fun p => [match map_reduce f (fun a b => Ok (op a b)) p with Ok r => Val r | Err e => Raised e end]).
  change (map (mp_map_reduce_worker f (fun a b => Ok (op a b))) ps) with (map (fun p => b p ++ [Raised StopIteration]) ps).
  destruct (mp_collect exc (map (fun p => b p ++ [Raised StopIteration]) ps) sched) as [r|] eqn:Hc; [|discriminate].
  cbn [option_map]. intros Q; injection Q as <-.
  assert (Pe : forall p u, In p ps -> map_reduce f (fun a b => Ok (op a b)) p = Ok u -> exc u = None).
  { intros p u Hip Hu. assert (Mp : exists rp, mapM f p = Ok rp /\ incl rp rs).
    { clear - M C Hip. apply mapM_Ok in M. rewrite <- C in M. clear C. apply in_split in Hip. destruct Hip as (a & c & ->). rewrite concat_app in M. cbn in M.
      apply Forall2_app_inv_l in M. destruct M as (r1 & r2 & _ & M & ->). apply Forall2_app_inv_l in M. destruct M as (r3 & r4 & M & _ & ->).
      exists r3. split; [apply mapM_Ok; auto|]. intros x Hx. apply in_or_app. right. apply in_or_app. auto. }
    destruct Mp as (rp & M1 & M2). rewrite (map_reduce_ok f op p rp M1) in Hu. destruct (fold1 op rp) as [w|] eqn:Ewp; [|discriminate].
    injection Hu as ->. eapply (fold_exc op AC exc rp); eauto. }
  assert (Hb : forall p m, In p ps -> In m (b p) -> kind exc m = None).
  { intros p m Hip [<-|[]]. destruct (Forall2_in_l _ _ _ _ F Hip) as (u & _ & Hu). rewrite Hu. cbn. eapply Pe; eauto. }
  apply (collect_cases exc b ps Hne) in Hc; [|intros p m Hip Hm Q; rewrite (Hb p m Hip Hm) in Q; discriminate].
  destruct r as [acc|e]; cbn [bind].
  - destruct Hc as [P _]. rewrite (reduce_fold1 op). 
    assert (Q : concat (map (fun p => vals exc (b p)) ps) = vs).
    { clear - F Pe. induction F as [|p u ps vs Hu F IH]; cbn [map concat]; [auto|].
      rewrite IH by (intros; eapply Pe; cbn; eauto). unfold vals, b, val_of. cbn. rewrite Hu. cbn. rewrite (Pe p u) by (cbn; auto). auto. }
    rewrite Q in P. rewrite (fold1_perm op AC _ _ P), Ev. auto.
  - destruct Hc as (p & m & Hip & Hm & Ek). rewrite (Hb p m Hip Hm) in Ek. discriminate.
Qed.
(** threads: also when the function raises, then with the exception of the
    sequential map *)
Lemma C55_threading_map : forall (E R : Type) (f : E -> result R) n l sched res, (1 <= n)%Z -> l <> [] ->
  th_map_unordered f n l sched = Some res ->
  match local_map f l with
  | Ok rs => exists rs', res = Ok rs' /\ Permutation rs' rs
  | Err e => res = Err e
  end.
Proof.
  intros E R f n l sched res Hn Hl. unfold th_map_unordered. destruct (view_of_n_partitions l n) as [ps|e] eqn:Ep.
  2:{ destruct (view_of_n_partitions_ok l n Hl Hn) as (? & ? & ? & ? & Q & _). congruence. }
  destruct (partitions _ _ _ Ep) as (C & Hne & _).
  destruct (th_run true (map (th_map_worker f) ps) sched) as [r|] eqn:Er; [|discriminate]. cbn [option_map]. intros Q; injection Q as <-.
  apply th_run_cases in Er; [|auto]. unfold local_map. rewrite <- C. destruct r as [ls|e]; cbn [bind].
  - destruct Er as [F P]. rewrite (mapM_concat_ok f ps F). eauto.
  - destruct Er as (l1 & t & l2 & Q1 & Q2 & Q3). rewrite (mapM_concat_err f ps l1 t l2 e); auto.
Qed.
Lemma th_filter_worker_ok {E R} (f : E -> result R) g l : match th_map_filter_worker f g l with
  | (rs, None) => Forall (fine f g) l /\ rs = flat_map (one f g) l
  | (_, Some e) => exists x, In x l /\ (f x = Err e \/ exists r, f x = Ok r /\ g r = Err e) end.
Proof.
  induction l as [|x l IH]; cbn [th_map_filter_worker flat_map]; [auto|].
  destruct (f x) as [r|e] eqn:Ef; [|exists x; cbn; auto]. destruct (g r) as [b|e] eqn:Eg; [|exists x; cbn; eauto 9].
  destruct (th_map_filter_worker f g l) as [rs [e|]].
  - destruct IH as (y & Hy & Q). exists y. cbn. auto.
  - destruct IH as [I1 ->]. split; [constructor; [exists r, b; auto|auto]|]. assert (Q : one f g x = if b then [r] else []) by (unfold one; rewrite Ef, Eg; destruct b; auto). rewrite Q. destruct b; auto.
Qed.
Lemma C55_threading_map_filter : forall (E R : Type) (f : E -> result R) g n l sched res, (1 <= n)%Z -> l <> [] ->
  th_map_filter f g n l sched = Some res ->
  match local_map_filter f g l with
  | Ok rs => exists rs', res = Ok rs' /\ Permutation rs' rs
  | Err _ => exists e x, res = Err e /\ In x l /\ (f x = Err e \/ exists r, f x = Ok r /\ g r = Err e)
  end.
Proof.
  intros E R f g n l sched res Hn Hl. unfold th_map_filter. destruct (view_of_n_partitions l n) as [ps|e] eqn:Ep.
  2:{ destruct (view_of_n_partitions_ok l n Hl Hn) as (? & ? & ? & ? & Q & _). congruence. }
  destruct (partitions _ _ _ Ep) as (C & Hne & _).
  destruct (th_run true (map (th_map_filter_worker f g) ps) sched) as [r|] eqn:Er; [|discriminate]. cbn [option_map]. intros Q; injection Q as <-.
  apply th_run_cases in Er; [|auto]. destruct r as [ls|e]; cbn [bind].
  - destruct Er as [F P].
    assert (A : Forall (fine f g) l /\ concat (map fst (map (th_map_filter_worker f g) ps)) = flat_map (one f g) l).
    { rewrite <- C. clear - F. induction ps as [|p ps IH]; cbn [map concat flat_map]; [auto|]. inversion F as [|? ? Q1 Q2]; subst.
      pose proof (th_filter_worker_ok f g p) as W. destruct (th_map_filter_worker f g p) as [rs [e|]]; [discriminate|]. destruct W as [W1 ->].
      destruct (IH Q2) as [I1 I2]. split; [apply Forall_app; auto|]. rewrite flat_map_app, <- I2. auto. }
    destruct A as [A1 A2]. destruct (local_map_filter f g l) as [rs|e] eqn:El.
    + apply local_filter_ok in El. destruct El as [_ ->]. rewrite A2 in P. eauto.
    + exfalso. eapply local_filter_err; eauto.
  - destruct Er as (l1 & t & l2 & Q1 & Q2 & Q3).
    assert (A : exists x, In x l /\ (f x = Err e \/ exists r, f x = Ok r /\ g r = Err e)).
    { assert (Ht : In t (map (th_map_filter_worker f g) ps)) by (rewrite Q1; apply in_or_app; cbn; auto).
      apply in_map_iff in Ht. destruct Ht as (p & <- & Hp). pose proof (th_filter_worker_ok f g p) as W.
      destruct (th_map_filter_worker f g p) as [rs o]. cbn in Q2. subst o. destruct W as (x & Hx & W). exists x. split; [|auto].
      rewrite <- C. apply in_concat. eauto. }
    destruct A as (x & Hx & A). destruct (local_map_filter f g l) as [rs|e'] eqn:El; [|eauto].
    exfalso. apply local_filter_ok in El. destruct El as [F _]. rewrite Forall_forall in F. destruct (F x Hx) as (r & b & Ef & Eg).
    destruct A as [A|(r' & A1 & A2)]; congruence.
Qed.
Lemma C55_threading_map_reduce : forall (E R : Type) (f : E -> result R) op n l sched res, (1 <= n)%Z -> l <> [] -> assoc_comm op ->
  th_map_reduce f (fun a b => Ok (op a b)) n l sched = Some res -> res = local_map_reduce f (fun a b => Ok (op a b)) l.
Proof.
  intros E R f op n l sched res Hn Hl AC. unfold th_map_reduce. destruct (view_of_n_partitions l n) as [ps|e] eqn:Ep.
  2:{ destruct (view_of_n_partitions_ok l n Hl Hn) as (? & ? & ? & ? & Q & _). congruence. }
  destruct (partitions _ _ _ Ep) as (C & Hne & Hp & _). set (red := fun a b => Ok (op a b)).
  destruct (th_run true (map (th_map_reduce_worker f red) ps) sched) as [r|] eqn:Er; [|discriminate]. cbn [option_map]. intros Q; injection Q as <-.
  apply th_run_cases in Er; [|auto]. unfold local_map_reduce. destruct r as [ls|e]; cbn [bind].
  - destruct Er as [F P].
    assert (A : exists rs, mapM f l = Ok rs).
    { rewrite <- C. clear - F Hp. induction ps as [|p ps IH]; cbn [concat]; [exists []; auto|]. cbn [map] in F. inversion F as [|? ? Q1 Q2]; subst.
      destruct IH as [r2 E2]; [intros; apply Hp; cbn; auto|exact Q2|]. 
      pose proof (map_reduce_err f op p (Hp p (or_introl eq_refl))) as W. unfold th_map_reduce_worker in Q1. fold red in W.
      destruct (map_reduce f red p); [|discriminate]. destruct W as [r1 E1]. rewrite mapM_app, E1, E2. cbn. eauto. }
    destruct A as [rs M]. rewrite (map_reduce_ok f op l rs M : map_reduce f red l = _).
    rewrite <- C in M. destruct (parts_fold f op AC ps rs M Hp) as (vs & F2 & Ev).
    assert (Q : concat (map fst (map (th_map_reduce_worker f red) ps)) = vs).
    { clear - F2. induction F2 as [|p u ps vs Hu F2 IH]; cbn [map concat]; [auto|]. rewrite IH. unfold th_map_reduce_worker.
      fold red in Hu. rewrite Hu. auto. }
    rewrite Q in P. rewrite (reduce_fold1 op _ : reduce red _ = _). rewrite (fold1_perm op AC _ _ P), Ev. auto.
  - destruct Er as (l1 & t & l2 & Q1 & Q2 & Q3). symmetry. 
    assert (A : exists a x b, concat ps = a ++ x :: b /\ generate f x = Err e /\ exists rs, mapM f a = Ok rs).
    { clear - Q1 Q2 Q3 Hp. revert l1 Q1 Q3. induction ps as [|p ps IH]; intros l1 Q1 Q3; [destruct l1; discriminate|]. cbn [map concat] in *.
      pose proof (map_reduce_err f op p (Hp p (or_introl eq_refl))) as W. fold red in W. destruct l1 as [|t1 l1]; cbn [app] in Q1; injection Q1 as E1 E2.
      - unfold th_map_reduce_worker in E1. destruct (map_reduce f red p) as [v|e']; subst t; cbn in Q2; [discriminate|]. injection Q2 as ->.
        destruct W as (a & x & b & -> & W1 & W2). exists a, x, (b ++ concat ps). rewrite <- app_assoc. auto.
      - inversion Q3 as [|? ? Q4 Q5]; subst t1. unfold th_map_reduce_worker in Q4. destruct (map_reduce f red p); [|discriminate].
        destruct W as [r1 E1']. destruct (IH ltac:(intros; apply Hp; cbn; auto) l1 E2 Q5) as (a1 & x1 & b1 & -> & W1 & r2 & W2).
        exists (p ++ a1), x1, b1. rewrite <- app_assoc. split; [auto|]. split; [auto|]. rewrite mapM_app, E1', W2. cbn. eauto. }
    rewrite C in A. destruct A as (a & x & b & -> & Eg & rs & M). pose proof (map_reduce_err f op (a ++ x :: b) Hl) as W. fold red in W.
    assert (Fx : forall r, f x <> Ok r) by (intros r Q; unfold generate in Eg; rewrite Q in Eg; discriminate).
    destruct (map_reduce f red (a ++ x :: b)) as [v|e'].
    + destruct W as [rs' W]. apply mapM_Ok in W. destruct (Forall2_in_l _ _ _ x W) as (r & _ & Q); [apply in_or_app; cbn; auto|]. exfalso. eapply Fx; eauto.
    + destruct W as (a' & x' & b' & Es & Eg' & rs' & M'). f_equal.
      assert (a = a' /\ x = x') as [_ <-]; [|congruence].
      assert (Fx' : forall r, f x' <> Ok r) by (intros r Q; unfold generate in Eg'; rewrite Q in Eg'; discriminate).
      apply mapM_Ok in M. apply mapM_Ok in M'. clear - Es M M' Fx Fx'. revert a' rs' Es M'.
      induction M as [|y s a rs Ey M IH]; intros [|y' a'] rs' Es M'; cbn in Es; injection Es as <- Es.
      * auto.
      * exfalso. inversion M'; subst. eapply Fx; eauto.
      * exfalso. eapply Fx'; eauto.
      * inversion M'; subst. destruct (IH a' l' Es); auto. subst. auto.
Qed.
Lemma C55_multiprocess_finishes : forall (E R : Type) (exc : R -> option error) (f : E -> result R) g red w n l ps sched s,
  In w [mp_map_worker f; mp_map_filter_worker f g; mp_map_reduce_worker f red] -> view_of_n_partitions l n = Ok ps ->
  exec (mp_step exc (length ps)) sched (mp_init (map w ps)) = Some s ->
  length sched <= 2 * (length l + length ps) /\
  ((exists r, main s = Done r) \/ exists a s', mp_step exc (length ps) a s = Some s').
Proof.
  intros E R exc f g red w n l ps sched s Hw Ep Ex. destruct (partitions _ _ _ Ep) as (C & Hne & Hp & _).
  assert (B : exists b, w = (fun p => b p ++ [Raised StopIteration]) /\ forall p, p <> [] -> length (b p) <= length p).
  { destruct Hw as [<-|[<-|[<-|[]]]].
    - exists (map (map_msg f)). split; [reflexivity|]. intros p _. rewrite map_length. auto.
    - exists (flat_map (filter_msg f g)). split; [reflexivity|]. intros p _. induction p as [|x p IH]; cbn [flat_map length]; [auto|].
      rewrite app_length. unfold filter_msg at 1. destruct (f x) as [r|]; [|cbn; lia]. destruct (g r) as [[]|]; cbn; lia.
    - exists (fun p => [match map_reduce f red p with Ok r => Val r | Err e => Raised e end]). split; [reflexivity|].
      intros [|x p]; [congruence|]. cbn. lia. }
  destruct B as (b & -> & Hb). rewrite <- (ws_len b ps) in *. split.
  - apply u_len in Ex. etransitivity; [exact Ex|]. apply Nat.mul_le_mono_l. rewrite <- C, map_length. clear - Hb Hp.
    induction ps as [|p ps IH]; cbn [map concat length]; [lia|]. rewrite !app_length. cbn [length].
    specialize (Hb p (Hp p (or_introl eq_refl))). specialize (IH ltac:(intros; apply Hp; cbn; auto)). lia.
  - eapply u_progress; [apply (ws_ended b ps)|]. apply (uinv_exec exc _ (ws_ended b ps) (ws_ne b ps Hne) sched s Ex).
Qed.
Lemma C55_threading_finishes : forall (E R : Type) (f : E -> result R) g red w n l ps sched s,
  In w [th_map_worker f; th_map_filter_worker f g; th_map_reduce_worker f red] -> view_of_n_partitions l n = Ok ps ->
  exec (th_step true) sched (th_init true (map w ps)) = Some s ->
  length sched <= length l + length ps /\
  ((exists r, join_st s = Joined r) \/ exists a s', th_step true a s = Some s').
Proof.
  intros E R f g red w n l ps sched s Hw Ep Ex. destruct (partitions _ _ _ Ep) as (C & Hne & Hp & _).
  assert (B : forall p, p <> [] -> length (fst (w p)) <= length p).
  { destruct Hw as [<-|[<-|[<-|[]]]]; intros p Hp0.
    - clear. induction p as [|x p IHp]; cbn; [lia|]. destruct (f x); cbn; [|lia]. destruct (th_map_worker f p); cbn in *; lia.
    - clear. induction p as [|x p IHp]; cbn; [lia|]. destruct (f x) as [r|]; cbn; [|lia]. destruct (g r) as [b|]; cbn; [|lia].
      destruct (th_map_filter_worker f g p); cbn in *. destruct b; cbn; lia.
    - unfold th_map_reduce_worker. destruct p; [congruence|]. destruct (map_reduce f red (e :: p)); cbn; lia. }
  split.
  - apply t_len in Ex; [|destruct ps; [congruence|discriminate]]. etransitivity; [exact Ex|]. rewrite map_length. apply Nat.add_le_mono_r. rewrite <- C. clear - B Hp.
    induction ps as [|p ps IH]; cbn [map concat length]; [lia|]. rewrite !app_length.
    specialize (B p (Hp p (or_introl eq_refl))). specialize (IH ltac:(intros; apply Hp; cbn; auto)). lia.
  - assert (Hn : map w ps <> []) by (destruct ps; [congruence|discriminate]).
    eapply t_progress. apply (tinv_exec true _ Hn sched s Ex).
Qed.

(*P C56 Failures of the mapped function surface *)
Lemma C56_multiprocess_map : forall (E R : Type) (exc : R -> option error) (f : E -> result R) n l x e, (1 <= n)%Z ->
  In x l -> yields exc f x e -> (forall y, In y l -> ~ yields exc f y StopIteration) ->
  (forall sched res, mp_map_ordered exc f n l sched = Some res -> exists y e', res = Err e' /\ In y l /\ yields exc f y e') /\
  (forall sched res, mp_map_unordered exc f n l sched = Some res -> exists y e', res = Err e' /\ In y l /\ yields exc f y e').
Proof.
  intros E R exc f n l x e Hn Hx Hy Hs. assert (Hl : l <> []) by (intros ->; destruct Hx).
  destruct (view_of_n_partitions_ok l n Hl Hn) as (ps & ? & ? & ? & Ep & _). destruct (partitions _ _ _ Ep) as (C & Hne & _).
  unfold mp_map_ordered, mp_map_unordered. rewrite Ep.
  assert (Hb : forall p m, In p ps -> In m (map (map_msg f) p) -> exists y, In y l /\ forall e, kind exc m = Some e -> yields exc f y e).
  { intros p m Hp Hm. apply in_map_iff in Hm. destruct Hm as (y & <- & Hy'). exists y. split; [rewrite <- C; apply in_concat; eauto|].
    intros e'. apply map_msg_kind. }
  assert (Hst : forall p m, In p ps -> In m (map (map_msg f) p) -> kind exc m <> Some StopIteration).
  { intros p m Hp Hm Q. destruct (Hb p m Hp Hm) as (y & Hyl & Hk). apply (Hs y Hyl). auto. }
  assert (Hxp : exists p, In p ps /\ In x p) by (rewrite <- C in Hx; apply in_concat in Hx; destruct Hx as (p & ? & ?); eauto).
  destruct Hxp as (p & Hp & Hxp). assert (Hm : In (map_msg f x) (map (map_msg f) p)) by (apply in_map; auto).
  assert (Hk : kind exc (map_msg f x) = Some e) by (apply map_msg_kind; auto).
  split; intros sched res Hc.
  - apply (collect_o_cases exc (map (map_msg f)) ps Hne Hst) in Hc. destruct res as [acc|e'].
    + destruct Hc as [_ Hc]. rewrite (Hc p _ Hp Hm) in Hk. discriminate.
    + destruct Hc as (p' & m & Hp' & Hm' & Ek). destruct (Hb p' m Hp' Hm') as (y & Hyl & Hk'). exists y, e'. auto.
  - apply (collect_cases exc (map (map_msg f)) ps Hne Hst) in Hc. destruct res as [acc|e'].
    + destruct Hc as [_ Hc]. rewrite (Hc p _ Hp Hm) in Hk. discriminate.
    + destruct Hc as (p' & m & Hp' & Hm' & Ek). destruct (Hb p' m Hp' Hm') as (y & Hyl & Hk'). exists y, e'. auto.
Qed.
(** exceptions of the filter function are treated alike *)
Lemma C56_multiprocess_map_filter : forall (E R : Type) (exc : R -> option error) (f : E -> result R) g n l x e, (1 <= n)%Z ->
  let raises y e := f y = Err e \/ exists r, f y = Ok r /\ g r = Err e in
  In x l -> raises x e -> (forall y, In y l -> ~ raises y StopIteration) -> (forall r, exc r = None) ->
  forall sched res, mp_map_filter exc f g n l sched = Some res -> exists y e', res = Err e' /\ In y l /\ raises y e'.
Proof.
  intros E R exc f g n l x e Hn raises Hx Hy Hs Hexc sched res Hc. assert (Hl : l <> []) by (intros ->; destruct Hx).
  destruct (view_of_n_partitions_ok l n Hl Hn) as (ps & ? & ? & ? & Ep & _). destruct (partitions _ _ _ Ep) as (C & Hne & _).
  unfold mp_map_filter in Hc. rewrite Ep in Hc.
  assert (Hb : forall p m, In p ps -> In m (flat_map (filter_msg f g) p) -> exists y, In y l /\ forall e, kind exc m = Some e -> raises y e).
  { intros p m Hp Hm. apply in_flat_map in Hm. destruct Hm as (y & Hy' & Hm). exists y. split; [rewrite <- C; apply in_concat; eauto|].
    intros e' Ek. unfold filter_msg in Hm. unfold raises. destruct (f y) as [r|e1] eqn:Ef.
    - destruct (g r) as [[]|e1] eqn:Eg; [destruct Hm as [<-|[]]|destruct Hm|destruct Hm as [<-|[]]]; cbn in Ek.
      + rewrite Hexc in Ek. discriminate.
      + injection Ek as ->. eauto.
    - destruct Hm as [<-|[]]. cbn in Ek. injection Ek as ->. auto. }
  assert (Hst : forall p m, In p ps -> In m (flat_map (filter_msg f g) p) -> kind exc m <> Some StopIteration).
  { intros p m Hp Hm Q. destruct (Hb p m Hp Hm) as (y & Hyl & Hk). apply (Hs y Hyl). auto. }
  assert (Hxp : exists p, In p ps /\ In x p) by (rewrite <- C in Hx; apply in_concat in Hx; destruct Hx as (p & ? & ?); eauto).
  destruct Hxp as (p & Hp & Hxp). 
  assert (Hm : In (Raised e) (flat_map (filter_msg f g) p)).
  { apply in_flat_map. exists x. split; [auto|]. unfold filter_msg. destruct Hy as [->|(r & -> & ->)]; cbn; auto. }
  apply (collect_cases exc (flat_map (filter_msg f g)) ps Hne Hst) in Hc. destruct res as [acc|e'].
  - destruct Hc as [_ Hc]. specialize (Hc p _ Hp Hm). discriminate.
  - destruct Hc as (p' & m & Hp' & Hm' & Ek). destruct (Hb p' m Hp' Hm') as (y & Hyl & Hk'). exists y, e'. auto.
Qed.
(** in a reduction even StopIteration surfaces, as RuntimeError *)
Lemma C56_multiprocess_map_reduce : forall (E R : Type) (exc : R -> option error) (f : E -> result R) op n l x e, (1 <= n)%Z ->
  In x l -> f x = Err e -> (forall r, exc r = None) ->
  forall sched res, mp_map_reduce exc f (fun a b => Ok (op a b)) n l sched = Some res ->
  exists y e', res = Err e' /\ In y l /\ (f y = Err e' \/ (f y = Err StopIteration /\ e' = RuntimeError)).
Proof.
  intros E R exc f op n l x e Hn Hx Hy Hexc sched res Hc. assert (Hl : l <> []) by (intros ->; destruct Hx).
  destruct (view_of_n_partitions_ok l n Hl Hn) as (ps & ? & ? & ? & Ep & _). destruct (partitions _ _ _ Ep) as (C & Hne & Hp0 & _).
  unfold mp_map_reduce in Hc. rewrite Ep in Hc.
  set (b := fun p => [match map_reduce f (fun a b => Ok (op a b)) p with Ok r => Val r | Err e => Raised e end]).
  change (map (mp_map_reduce_worker f (fun a b => Ok (op a b))) ps) with (map (fun p => b p ++ [Raised StopIteration]) ps) in Hc.
  destruct (mp_collect exc (map (fun p => b p ++ [Raised StopIteration]) ps) sched) as [r|] eqn:Hc'; [|discriminate].
  cbn [option_map] in Hc. injection Hc as <-.
  assert (Hb : forall p m, In p ps -> In m (b p) -> exists y, In y l /\ forall e, kind exc m = Some e -> generate f y = Err e).
  { intros p m Hp [<-|[]]. pose proof (map_reduce_err f op p (Hp0 p Hp)) as W.
    destruct (map_reduce f (fun a b => Ok (op a b)) p) as [v|e1]; cbn.
    - exists x. split; [auto|]. intros e'. rewrite Hexc. discriminate.
    - destruct W as (a & y & c & Ea & Eg & _). exists y. split; [rewrite <- C; apply in_concat; exists p; split; [auto|rewrite Ea; apply in_or_app; cbn; auto]|].
      intros e' Q; injection Q as ->. auto. }
  assert (Hg : forall y, generate f y <> Err StopIteration) by (intros y; unfold generate; destruct (f y) as [|[]]; discriminate).
  assert (Hst : forall p m, In p ps -> In m (b p) -> kind exc m <> Some StopIteration).
  { intros p m Hp Hm Q. destruct (Hb p m Hp Hm) as (y & Hyl & Hk). apply (Hg y). auto. }
  assert (Hxp : exists p, In p ps /\ In x p) by (rewrite <- C in Hx; apply in_concat in Hx; destruct Hx as (p & ? & ?); eauto).
  destruct Hxp as (p & Hp & Hxp). apply (collect_cases exc b ps Hne Hst) in Hc'. destruct r as [acc|e']; cbn [bind].
  - exfalso. destruct Hc' as [_ Hc']. specialize (Hc' p). unfold b in Hc'. pose proof (map_reduce_err f op p (Hp0 p Hp)) as W.
    destruct (map_reduce f (fun a b => Ok (op a b)) p) as [v|e1].
    + destruct W as [rs W]. apply mapM_Ok in W. destruct (Forall2_in_l _ _ _ x W Hxp) as (r & _ & Q). congruence.
    + specialize (Hc' _ Hp (or_introl eq_refl)). discriminate.
  - destruct Hc' as (p' & m & Hp' & Hm' & Ek). destruct (Hb p' m Hp' Hm') as (y & Hyl & Hk'). exists y, e'. split; [auto|]. split; [auto|].
    specialize (Hk' _ Ek). unfold generate in Hk'. destruct (f y) as [|e1]; [discriminate|]. destruct e1; auto; right; split; congruence.
Qed.
(** in a map StopIteration does not surface: it ends the results of its worker *)
Lemma C56_stop_iteration_truncates : forall (E R : Type) (exc : R -> option error) (f : E -> result R) n l ps,
  view_of_n_partitions l n = Ok ps -> (forall r, exc r = None) ->
  (forall x e, In x l -> f x = Err e -> e = StopIteration) ->
  forall sched res, mp_map_ordered exc f n l sched = Some res -> res = Ok (concat (map (before_stop_iteration f) ps)).
Proof.
  intros E R exc f n l ps Ep Hexc Hf sched res. unfold mp_map_ordered. rewrite Ep. destruct (partitions _ _ _ Ep) as (C & Hne & _).
  change (map (mp_map_worker f) ps) with (map (fun p => map (map_msg f) p ++ [Raised StopIteration]) ps).
  unfold mpo_collect. set (ws := map _ ps). destruct (exec (mpo_step exc) sched (mpo_init ws)) as [s|] eqn:Ex; [|discriminate].
  pose proof (oinv_exec exc ws (ws_ended (map (map_msg f)) ps) (ws_ne (map (map_msg f)) ps Hne) sched s Ex) as I. destruct (main_o s) as [|r] eqn:Em; [discriminate|].
  intros Q; injection Q as <-. destruct r as [acc|e].
  - destruct (o_ok exc ws s acc I Em) as [P _]. rewrite P. do 2 f_equal. unfold ws. rewrite map_map. apply map_ext_in. intros p Hp.
    assert (Hi : incl p l) by (intros x Hx; rewrite <- C; apply in_concat; eauto).
    clear - Hexc Hf Hi. induction p as [|x p IH]; [reflexivity|]. cbn [map app before_stop before_stop_iteration]. unfold map_msg at 1.
    destruct (f x) as [r|e] eqn:Ef.
    + unfold is_stop at 1. cbn [kind]. rewrite Hexc. unfold map_msg at 1. rewrite Ef. unfold vals. cbn [flat_map]. unfold val_of at 1. cbn [kind].
      rewrite Hexc. cbn [app]. f_equal. apply IH. intros y Hy; apply Hi; cbn; auto.
    + rewrite (Hf x e (Hi x (or_introl eq_refl)) Ef). auto.
  - exfalso. destruct (o_err exc ws s e I Em) as (He & m & Hm & Ek). apply (ws_in (map (map_msg f)) ps) in Hm.
    destruct Hm as [[_ ->]|(p & Hp & Hm)]; [cbn in Ek; congruence|]. apply in_map_iff in Hm. destruct Hm as (x & <- & Hx).
    apply map_msg_kind in Ek. destruct Ek as [Ek|(r & _ & Q)]; [|rewrite Hexc in Q; discriminate].
    apply He. apply (Hf x); [rewrite <- C; apply in_concat; eauto|auto].
Qed.
