From Coq Require Import List Arith Lia.
From Verif.Model Require Import Base Parallel Ray.
From Verif.Proofs Require Import ParallelA.
Import ListNotations.

Section RayProofs.
  Context {E R : Type} (f : E -> result R) (g : R -> result bool) (filt : bool) (l : list E).
  Local Notation n := (length l).
  Local Notation st := (list (option (result (object R)))).

  Definition den (t : task E) : result (object R) :=
    match t with
    | MapTask x => do r <- f x ; Ok (Mapped r)
    | FilterTask i => match nth_error l i with Some x => do r <- f x ; do b <- g r ; Ok (Kept b) | None => Err TypeError end
    end.
  Definition fine (x : E) : Prop := exists r b, f x = Ok r /\ g r = Ok b.
  Definition keepb (j : nat) : bool :=
    match nth_error l j with Some x => match f x with Ok r => match g r with Ok b => b | _ => false end | _ => false end | None => false end.
  Definition good (i : nat) (kept : list nat) : Prop := (forall x, In x (firstn i l) -> fine x) /\ kept = List.filter keepb (seq 0 i).
  Definition claim (r : result (list R)) : Prop :=
    if filt then
      (exists rs, local_map_filter f g l = Ok rs /\ r = Ok rs) \/
      (exists pre x post e, l = pre ++ x :: post /\ (forall y, In y pre -> fine y) /\ (f x = Err e \/ exists v, f x = Ok v /\ g v = Err e) /\ r = Err e)
    else
      (exists rs, local_map f l = Ok rs /\ r = Ok rs) \/ (exists x e, In x l /\ f x = Err e /\ r = Err e).
  Definition phase (ts : list (task E)) (m : ray_main E R) : Prop :=
    match m with
    | Submitting todo => exists done, l = done ++ todo /\ ts = map (@MapTask E) done
    | Asking i kept => filt = true /\ i <= n /\ ts = map (@MapTask E) l ++ map (@FilterTask E) (seq 0 i) /\ good i kept
    | Waiting ref i kept => filt = true /\ i < n /\ ref = n + i /\ ts = map (@MapTask E) l ++ map (@FilterTask E) (seq 0 (i + 1)) /\ good i kept
    | Getting refs => (filt = false /\ refs = seq 0 n /\ ts = map (@MapTask E) l) \/
                      (filt = true /\ good n refs /\ ts = map (@MapTask E) l ++ map (@FilterTask E) (seq 0 n))
    | Returned r => claim r
    end.
  Definition inv (s : ray_state E R) : Prop :=
    length (store s) = length (tasks s) /\
    (forall i t v, nth_error (tasks s) i = Some t -> nth_error (store s) i = Some (Some v) -> v = den t) /\
    (forall i j, nth_error (tasks s) i = Some (FilterTask j) -> exists x, nth_error l j = Some x /\ nth_error (tasks s) j = Some (MapTask x)) /\
    phase (tasks s) (program s).

  Lemma nth_upd_eq {A} (q : list A) i v : i < length q -> nth_error (upd q i v) i = Some v.
  Proof. revert i. induction q as [|a q IH]; intros [|i] H; cbn in *; try lia; auto. apply IH. lia. Qed.
  Lemma nth_upd_neq {A} (q : list A) i j v : i <> j -> nth_error (upd q i v) j = nth_error q j.
  Proof. revert i j. induction q as [|a q IH]; intros [|i] [|j] H; cbn; try congruence; auto. Qed.

  Lemma outcome_den s i t v : inv s -> nth_error (tasks s) i = Some t -> outcome f g (store s) t = Some v -> v = den t.
  Proof.
    intros (L & S & F & _) T O. destruct t as [x|j]; cbn [outcome den] in *; [congruence|].
    destruct (F _ _ T) as (x & Ex & Tx). rewrite Ex. destruct (nth_error (store s) j) as [[w|]|] eqn:Es; try discriminate.
    specialize (S _ _ _ Tx Es). cbn [den] in S. destruct (f x) as [r|e] eqn:Ef; cbn [bind] in *; subst w; congruence.
  Qed.

  Lemma first_error_in (q : st) refs e : first_error q refs = Some e -> exists i, In i refs /\ nth_error q i = Some (Some (Err e)).
  Proof.
    induction refs as [|i refs IH]; cbn [first_error]; [discriminate|]. intros H.
    destruct (nth_error q i) as [[[o|e']|]|] eqn:En; try (destruct (IH H) as (j & J1 & J2); exists j; split; [right|]; auto; fail).
    injection H as ->. exists i. split; [left|]; auto.
  Qed.
  Lemma all_there_ok (q : st) (h : nat -> result R) refs rs : (forall i r, In i refs -> nth_error q i = Some (Some (Ok (Mapped r))) -> h i = Ok r) ->
    all_there q refs = Some rs -> mapM h refs = Ok rs.
  Proof.
    revert rs. induction refs as [|i refs IH]; intros rs H A; cbn [all_there mapM] in *; [congruence|].
    destruct (nth_error q i) as [[[[r|b]|e]|]|] eqn:En; try discriminate. destruct (all_there q refs) as [rs'|]; [|discriminate]. injection A as <-.
    rewrite (H i r) by (auto; left; auto). cbn [bind]. rewrite (IH rs'); auto. intros j r' J. apply H. right. auto.
  Qed.
  Definition fat (i : nat) : result R := match nth_error l i with Some x => f x | None => Err IndexError end.
  Lemma mapM_fat (l' l0 : list E) : l = l0 ++ l' -> mapM fat (seq (length l0) (length l')) = mapM f l'.
  Proof.
    revert l0. induction l' as [|x l' IH]; intros l0 H; [auto|]. cbn [length seq mapM].
    assert (X : fat (length l0) = f x) by (unfold fat; rewrite H, nth_error_app2, Nat.sub_diag by lia; auto).
    rewrite X. specialize (IH (l0 ++ [x])). rewrite app_length in IH. cbn [length] in IH. replace (length l0 + 1) with (Datatypes.S (length l0)) in IH by lia.
    rewrite IH by (rewrite <- app_assoc; auto). auto.
  Qed.
  Lemma mapM_filtered (l' l0 : list E) : l = l0 ++ l' -> (forall x, In x l' -> fine x) ->
    exists rs, local_map_filter f g l' = Ok rs /\ mapM fat (List.filter keepb (seq (length l0) (length l'))) = Ok rs.
  Proof.
    revert l0. induction l' as [|x l' IH]; intros l0 H F; [exists []; auto|]. cbn [length seq].
    destruct (IH (l0 ++ [x])) as (rs & E1 & E2); [rewrite <- app_assoc; auto|intros y Hy; apply F; right; auto|].
    rewrite app_length in E2. cbn [length] in E2. replace (length l0 + 1) with (Datatypes.S (length l0)) in E2 by lia.
    destruct (F x) as (r & b & Ef & Eg); [left; auto|]. assert (N : nth_error l (length l0) = Some x) by (rewrite H, nth_error_app2, Nat.sub_diag by lia; auto).
    assert (K : keepb (length l0) = b) by (unfold keepb; rewrite N, Ef, Eg; auto). assert (X : fat (length l0) = Ok r) by (unfold fat; rewrite N; auto).
    unfold local_map_filter, local_map in *. cbn [mapM List.filter]. rewrite Ef, K. cbn [bind].
    destruct (mapM f l') as [ms|e]; cbn [bind] in *; [|discriminate]. cbn [filterM]. rewrite Eg. cbn [bind]. rewrite E1. cbn [bind].
    destruct b; [|eauto]. cbn [mapM]. rewrite X. cbn [bind]. rewrite E2. cbn [bind]. eauto.
  Qed.

  Lemma nth_map_tasks rest i x : nth_error l i = Some x -> nth_error (map (@MapTask E) l ++ rest) i = Some (MapTask x).
  Proof. intros H. assert (i < n) by (apply nth_error_Some; congruence). rewrite nth_error_app1 by (rewrite map_length; auto). apply map_nth_error. auto. Qed.
  Lemma nth_filter_task i : i < n -> nth_error (map (@MapTask E) l ++ map (@FilterTask E) (seq 0 (i + 1))) (n + i) = Some (FilterTask i).
  Proof.
    intros H. rewrite nth_error_app2, map_length by (rewrite map_length; lia). replace (n + i - n) with i by lia. apply map_nth_error.
    rewrite (nth_error_nth' _ 0) by (rewrite seq_length; lia). rewrite seq_nth by lia. auto.
  Qed.
  Lemma in_nth (rest : list (task E)) i (x : E) : In i (seq 0 n) -> exists x, nth_error l i = Some x.
  Proof. rewrite in_seq. intros H. destruct (nth_error l i) eqn:En; [eauto|]. apply nth_error_None in En. lia. Qed.

  Lemma step_inv a s s' : inv s -> ray_step f g filt n a s = Some s' -> inv s'.
  Proof.
    intros I H. pose proof I as (L & S & F & P). destruct a as [i|]; cbn [ray_step] in H.
    - destruct (nth_error (store s) i) as [[|]|] eqn:Es; try discriminate. destruct (nth_error (tasks s) i) as [t|] eqn:Et; [|discriminate].
      destruct (outcome f g (store s) t) as [v|] eqn:O; [|discriminate]. injection H as <-. assert (D := outcome_den s i t v I Et O).
      unfold inv. cbn [tasks store program]. split; [rewrite upd_length; auto|]. split; [|split; auto].
      intros j t' w T W. destruct (Nat.eq_dec i j) as [<-|Ne].
      + rewrite nth_upd_eq in W by (apply nth_error_Some; congruence). congruence.
      + rewrite nth_upd_neq in W by auto. eapply S; eauto.
    - assert (SUB : forall t m, (match t with FilterTask j => exists x, nth_error l j = Some x /\ nth_error (tasks s) j = Some (MapTask x) | _ => True end) ->
        phase (tasks s ++ [t]) m -> inv (submit t m s)).
      { intros t m Ht Hp. unfold inv, submit. cbn [tasks store program]. split; [rewrite !app_length; cbn; lia|]. split; [|split; [|auto]].
        - intros i t' v T V. destruct (Nat.lt_ge_cases i (length (store s))) as [Li|Li].
          + rewrite nth_error_app1 in V by auto. rewrite nth_error_app1 in T by lia. eapply S; eauto.
          + rewrite nth_error_app2 in V by auto. destruct (i - length (store s)) as [|[|]]; discriminate.
        - intros i j T. assert (X : exists x, nth_error l j = Some x /\ nth_error (tasks s) j = Some (MapTask x)).
          { destruct (Nat.lt_ge_cases i (length (tasks s))) as [Li|Li]; [rewrite nth_error_app1 in T by auto; eauto|].
            rewrite nth_error_app2 in T by auto. destruct (i - length (tasks s)) as [|[|]]; try discriminate. injection T as ->. auto. }
          destruct X as (x & X1 & X2). exists x. split; [auto|]. rewrite nth_error_app1; [auto|]. apply nth_error_Some. congruence. }
      assert (SAME : forall m, phase (tasks s) m -> inv (RS (tasks s) (store s) m)) by (intros m Hm; unfold inv; auto).
      destruct (program s) as [[|x todo]|i kept|ref i kept|refs|r] eqn:Ep; cbn [phase] in P.
      + injection H as <-. apply SAME. destruct P as (d & El & Et). rewrite app_nil_r in El. subst d. destruct filt eqn:Ef; cbn [phase].
        * rewrite Et. split; [auto|]. split; [lia|]. split; [cbn; rewrite app_nil_r; auto|]. split; [intros x []|auto].
        * left. auto.
      + injection H as <-. apply SUB; [auto|]. destruct P as (d & El & Et). exists (d ++ [x]). rewrite <- app_assoc. split; [auto|]. rewrite Et, map_app. auto.
      + destruct P as (Pf & Pi & Pt & Pg). destruct (Nat.ltb_spec i n) as [Li|Li]; injection H as <-.
        * assert (Hx : exists x, nth_error l i = Some x) by (destruct (nth_error l i) eqn:En; [eauto|apply nth_error_None in En; lia]). destruct Hx as [x Hx].
          apply SUB; [exists x; split; [auto|]; rewrite Pt; apply nth_map_tasks; auto|]. cbn [phase]. rewrite Pt, app_length, !map_length, seq_length, seq_app, map_app, app_assoc.
          split; [auto|]. split; [auto|]. split; [lia|]. split; [auto|]. auto.
        * apply SAME. cbn [phase]. assert (i = n) by lia. subst i. right. auto.
      + destruct P as (Pf & Pi & -> & Pt & Pg & Pk). assert (T : nth_error (tasks s) (n + i) = Some (FilterTask i)) by (rewrite Pt; apply nth_filter_task; auto).
        assert (Hx : exists x, nth_error l i = Some x) by (destruct (nth_error l i) eqn:En; [eauto|apply nth_error_None in En; lia]). destruct Hx as [x Hx].
        assert (FN : firstn (i + 1) l = firstn i l ++ [x]).
        { clear - Hx. revert i Hx. induction l as [|y q IH]; intros [|i] Hx; cbn in *; try discriminate; [congruence|]. f_equal. apply IH. auto. }
        destruct (nth_error (store s) (n + i)) as [[[[r|b]|e]|]|] eqn:Es; try discriminate; injection H as <-; specialize (S _ _ _ T Es); cbn [den] in S; rewrite Hx in S; apply SAME; cbn [phase].
        * assert (X : exists r, f x = Ok r /\ g r = Ok b) by (destruct (f x) as [r|] eqn:Ef; cbn [bind] in S; [|discriminate]; destruct (g r) as [b'|] eqn:Eg; cbn [bind] in S; [|discriminate]; exists r; split; [auto|congruence]).
          destruct X as (r & Ef & Eg).
          split; [auto|]. split; [lia|]. split; [auto|]. split.
          -- intros y Hy. rewrite FN in Hy. apply in_app_iff in Hy. destruct Hy as [Hy|[<-|[]]]; [auto|]. exists r, b. auto.
          -- rewrite seq_app, filter_app, <- Pk. cbn [seq List.filter]. assert (K : keepb (0 + i) = b) by (unfold keepb; cbn [Nat.add]; rewrite Hx, Ef, Eg; auto). rewrite K. destruct b; [auto|rewrite app_nil_r; auto].
        * unfold claim. rewrite Pf. right. exists (firstn i l), x, (skipn (i + 1) l), e.
          split; [rewrite <- (firstn_skipn (i + 1) l) at 1; rewrite FN, <- app_assoc; auto|]. split; [auto|]. split; [|auto].
          destruct (f x) as [r|e'] eqn:Ef; cbn [bind] in S; [|left; congruence]. right. exists r. split; [auto|]. destruct (g r); cbn [bind] in S; congruence.
      + destruct (ray_get (store s) refs) as [r|] eqn:G; [|discriminate]. injection H as <-. apply SAME. cbn [phase]. unfold ray_get in G.
        assert (ERR : forall rest i e, tasks s = map (@MapTask E) l ++ rest -> In i (seq 0 n) -> nth_error (store s) i = Some (Some (Err e)) -> exists x, nth_error l i = Some x /\ f x = Err e).
        { intros rest i e T Hi Hs. assert (Hx : exists x, nth_error l i = Some x) by (apply in_seq in Hi; destruct (nth_error l i) eqn:En; [eauto|apply nth_error_None in En; lia]).
          destruct Hx as [x Hx]. exists x. split; [auto|]. assert (Tx : nth_error (tasks s) i = Some (MapTask x)) by (rewrite T; apply nth_map_tasks; auto).
          specialize (S _ _ _ Tx Hs). cbn [den] in S. destruct (f x); cbn [bind] in S; congruence. }
        assert (OKS : forall rest i v, tasks s = map (@MapTask E) l ++ rest -> In i (seq 0 n) -> nth_error (store s) i = Some (Some (Ok (Mapped v))) -> fat i = Ok v).
        { intros rest i v T Hi Hs. assert (Hx : exists x, nth_error l i = Some x) by (apply in_seq in Hi; destruct (nth_error l i) eqn:En; [eauto|apply nth_error_None in En; lia]).
          destruct Hx as [x Hx]. unfold fat. rewrite Hx. assert (Tx : nth_error (tasks s) i = Some (MapTask x)) by (rewrite T; apply nth_map_tasks; auto).
          specialize (S _ _ _ Tx Hs). cbn [den] in S. destruct (f x); cbn [bind] in S; congruence. }
        unfold claim. destruct P as [(Pf & -> & Pt)|(Pf & (Pg & Pk) & Pt)]; rewrite Pf.
        * assert (Pt' : tasks s = map (@MapTask E) l ++ []) by (rewrite app_nil_r; auto). destruct (first_error (store s) (seq 0 n)) as [e|] eqn:Fe.
          -- injection G as <-. right. apply first_error_in in Fe. destruct Fe as (i & Hi & Hs). destruct (ERR _ _ _ Pt' Hi Hs) as (x & X1 & X2). exists x, e. split; [eapply nth_error_In; eauto|auto].
          -- left. destruct (all_there (store s) (seq 0 n)) as [rs|] eqn:A; cbn [option_map] in G; [|discriminate]. injection G as <-. exists rs. split; [|auto].
             apply (all_there_ok _ fat) in A; [|intros i v Hi; eapply OKS; eauto]. unfold local_map. rewrite <- A. symmetry. apply (mapM_fat l []). auto.
        * rewrite firstn_all in Pg. assert (IN : forall i, In i refs -> In i (seq 0 n)) by (intros i Hi; rewrite Pk in Hi; apply filter_In in Hi; tauto).
          destruct (first_error (store s) refs) as [e|] eqn:Fe.
          -- apply first_error_in in Fe. destruct Fe as (i & Hi & Hs). destruct (ERR _ _ _ Pt (IN _ Hi) Hs) as (x & X1 & X2). destruct (Pg x) as (v & b & Ev & _); [eapply nth_error_In; eauto|]. congruence.
          -- left. destruct (all_there (store s) refs) as [rs|] eqn:A; cbn [option_map] in G; [|discriminate]. injection G as <-.
             apply (all_there_ok _ fat) in A; [|intros i v Hi; eapply OKS; eauto]. destruct (mapM_filtered l []) as (rs' & E1 & E2); [auto|auto|]. cbn [length] in E2. rewrite <- Pk in E2. exists rs. split; [|auto]. congruence.
      + discriminate.
  Qed.
  Lemma inv_init : inv (ray_init l).
  Proof. unfold inv, ray_init. cbn. split; [auto|]. split; [intros [|i] t v H; discriminate|]. split; [intros [|i] j H; discriminate|]. exists []. auto. Qed.
  Lemma exec_inv sched : forall s s', inv s -> exec (ray_step f g filt n) sched s = Some s' -> inv s'.
  Proof.
    induction sched as [|a sched IH]; intros s s' I H; cbn [exec] in H; [injection H as <-; auto|].
    destruct (ray_step f g filt n a s) as [s1|] eqn:Es; [|discriminate]. eapply IH; [|eauto]. eapply step_inv; eauto.
  Qed.
  Lemma run_claim sched r : ray_run f g filt l sched = Some r -> claim r.
  Proof.
    unfold ray_run. destruct (exec _ sched (ray_init l)) as [s|] eqn:Ex; [|discriminate]. apply (exec_inv _ _ _ inv_init) in Ex. destruct Ex as (_ & _ & _ & P).
    destruct (program s); try discriminate. intros H. injection H as <-. auto.
  Qed.

  (** progress *)
  Lemma progress s : inv s -> (exists r, program s = Returned r) \/ exists a s', ray_step f g filt n a s = Some s'.
  Proof.
    intros (L & S & F & P).
    assert (RUN : forall i x, nth_error (tasks s) i = Some (MapTask x) -> nth_error (store s) i = Some None -> exists a s', ray_step f g filt n a s = Some s').
    { intros i x T N. exists (Run i). cbn [ray_step]. rewrite N, T. cbn [outcome]. eauto. }
    assert (LEN : forall i t, nth_error (tasks s) i = Some t -> exists o, nth_error (store s) i = Some o).
    { intros i t T. destruct (nth_error (store s) i) eqn:En; [eauto|]. apply nth_error_None in En. assert (i < length (tasks s)) by (apply nth_error_Some; congruence). lia. }
    destruct (program s) as [[|x todo]|i kept|ref i kept|refs|r] eqn:Ep; cbn [phase] in P; [| | | | |left; eauto]; right.
    - exists Step. cbn [ray_step]. rewrite Ep. eauto.
    - exists Step. cbn [ray_step]. rewrite Ep. eauto.
    - exists Step. cbn [ray_step]. rewrite Ep. destruct (i <? n); eauto.
    - destruct P as (Pf & Pi & -> & Pt & Pg). assert (T : nth_error (tasks s) (n + i) = Some (FilterTask i)) by (rewrite Pt; apply nth_filter_task; auto).
      destruct (LEN _ _ T) as [[v|] Hs].
      + exists Step. cbn [ray_step]. rewrite Ep, Hs. assert (D := S _ _ _ T Hs). destruct (F _ _ T) as (x & Hx & _). cbn [den] in D. rewrite Hx in D.
        destruct (f x) as [r|]; cbn [bind] in D; [|subst v; eauto]. destruct (g r); cbn [bind] in D; subst v; eauto.
      + destruct (F _ _ T) as (x & Hx & Tx). destruct (LEN _ _ Tx) as [[w|] Hw]; [|eapply RUN; eauto].
        exists (Run (n + i)). cbn [ray_step]. rewrite Hs, T. cbn [outcome]. rewrite Hw. assert (D := S _ _ _ Tx Hw). cbn [den] in D. destruct (f x); cbn [bind] in D; subst w; eauto.
    - assert (Q : exists rest, tasks s = map (@MapTask E) l ++ rest /\ forall i, In i refs -> In i (seq 0 n)).
      { destruct P as [(_ & -> & Pt)|(_ & (_ & ->) & Pt)]; [exists []; rewrite app_nil_r; auto|]. eexists. split; [exact Pt|]. intros i Hi. apply filter_In in Hi. tauto. }
      destruct Q as (rest & T & IN).
      assert (X : (exists r, ray_get (store s) refs = Some r) \/ exists i x, nth_error (tasks s) i = Some (MapTask x) /\ nth_error (store s) i = Some None).
      { unfold ray_get. destruct (first_error (store s) refs) eqn:Fe; [left; eauto|]. clear P. induction refs as [|i refs IH]; [left; cbn; eauto|].
        cbn [first_error all_there] in *. assert (Hx : exists x, nth_error l i = Some x) by (specialize (IN i (or_introl eq_refl)); apply in_seq in IN; destruct (nth_error l i) eqn:En; [eauto|apply nth_error_None in En; lia]).
        destruct Hx as [x Hx]. assert (Tx : nth_error (tasks s) i = Some (MapTask x)) by (rewrite T; apply nth_map_tasks; auto). destruct (LEN _ _ Tx) as [[w|] Hw]; [|right; eauto]. rewrite Hw in *.
        assert (D := S _ _ _ Tx Hw). cbn [den] in D. destruct (f x) as [r|e]; cbn [bind] in D; subst w; [|discriminate].
        assert (Fe' : first_error (store s) refs = None) by exact Fe.
        assert (IHX : (exists r, match first_error (store s) refs with Some e => Some (Err e) | None => option_map (@Ok (list R)) (all_there (store s) refs) end = Some r) \/ exists i x, nth_error (tasks s) i = Some (MapTask x) /\ nth_error (store s) i = Some None).
        { rewrite Fe'. clear - LEN T S IN Fe'. induction refs as [|k refs IH]; [left; cbn; eauto|].
          cbn [first_error all_there] in *. assert (Hx : exists x, nth_error l k = Some x) by (specialize (IN k (or_intror (or_introl eq_refl))); apply in_seq in IN; destruct (nth_error l k) eqn:En; [eauto|apply nth_error_None in En; lia]).
          destruct Hx as [x Hx]. assert (Tx : nth_error (tasks s) k = Some (MapTask x)) by (rewrite T; apply nth_map_tasks; auto). destruct (LEN _ _ Tx) as [[w|] Hw]; [|right; eauto]. rewrite Hw in *.
          assert (D := S _ _ _ Tx Hw). cbn [den] in D. destruct (f x) as [r|e]; cbn [bind] in D; subst w; [|discriminate].
          destruct IH as [[r' Hr]|H]; [intros j [J|J]; apply IN; [left|right; right]; auto|auto| |right; auto]. left. destruct (all_there (store s) refs); cbn in *; [eauto|discriminate]. }
        rewrite Fe' in IHX. destruct IHX as [[r' Hr]|H]; [|right; auto]. left. destruct (all_there (store s) refs); cbn in *; [eauto|discriminate]. }
      destruct X as [[r Hr]|(i & x & Tx & Hs)]; [|eapply RUN; eauto]. exists Step. cbn [ray_step]. rewrite Ep, Hr. eauto.
  Qed.

  Definition missing (q : st) : nat := length (List.filter (fun o => match o with None => true | _ => false end) q).
  Definition left_over (m : ray_main E R) : nat :=
    match m with
    | Submitting todo => 2 * length todo + (if filt then 3 * n + 3 else 2)
    | Asking i _ => 3 * (n - i) + 2
    | Waiting _ i _ => 3 * (n - i)
    | Getting _ => 1
    | Returned _ => 0
    end.
  Definition mu (s : ray_state E R) : nat := missing (store s) + left_over (program s).
  Lemma missing_upd (q : st) i v : nth_error q i = Some None -> missing q = Datatypes.S (missing (upd q i (Some v))).
  Proof.
    unfold missing. revert i. induction q as [|o q IH]; intros [|i] H; cbn in *; try discriminate; [injection H as ->; auto|].
    destruct o; cbn [length]; rewrite (IH _ H); auto.
  Qed.
  Lemma step_mu a s s' : inv s -> ray_step f g filt n a s = Some s' -> mu s' < mu s.
  Proof.
    intros (_ & _ & _ & P) H. unfold mu. destruct a as [i|]; cbn [ray_step] in H.
    - destruct (nth_error (store s) i) as [[|]|] eqn:Es; try discriminate. destruct (nth_error (tasks s) i) as [t|]; [|discriminate].
      destruct (outcome f g (store s) t) as [v|]; [|discriminate]. injection H as <-. cbn [store program]. rewrite (missing_upd _ _ v Es). lia.
    - assert (M : missing (store s ++ [None]) = missing (store s) + 1) by (unfold missing; rewrite filter_app, app_length; auto).
      destruct (program s) as [[|x todo]|i kept|ref i kept|refs|r] eqn:Ep; cbn [left_over phase] in *.
      + injection H as <-. cbn [store program]. destruct filt; cbn [left_over length]; lia.
      + injection H as <-. cbn [submit store program left_over length]. rewrite M. lia.
      + destruct (Nat.ltb_spec i n); injection H as <-; cbn [submit store program left_over]; [rewrite M|]; lia.
      + destruct P as (_ & Pi & _). destruct (nth_error (store s) ref) as [[[[r|b]|e]|]|]; try discriminate; injection H as <-; cbn [store program left_over]; lia.
      + destruct (ray_get (store s) refs); [|discriminate]. injection H as <-. cbn [store program left_over]. lia.
      + discriminate.
  Qed.
  Lemma exec_mu sched : forall s s', inv s -> exec (ray_step f g filt n) sched s = Some s' -> length sched + mu s' <= mu s.
  Proof.
    induction sched as [|a sched IH]; intros s s' I H; cbn [exec] in H; [injection H as <-; auto|].
    destruct (ray_step f g filt n a s) as [s1|] eqn:Es; [|discriminate]. specialize (IH _ _ (step_inv _ _ _ I Es) H). apply step_mu in Es; [|auto]. cbn [length]. lia.
  Qed.
End RayProofs.

(*P C129 Lists of the ray engine *)
(** the result is that of the sequential map, in the order of the list *)
Lemma C129_map : forall (E R : Type) (f : E -> result R) l sched res, ray_map f l sched = Some res ->
  match local_map f l with
  | Ok rs => res = Ok rs
  | Err _ => exists x e, In x l /\ f x = Err e /\ res = Err e
  end.
Proof.
  intros E R f l sched res H. apply run_claim in H. cbn in H. destruct H as [(rs & H & ->)|(x & e & Hx & Ef & ->)]; [rewrite H; auto|].
  destruct (local_map f l) as [rs|e'] eqn:M; [|eauto]. exfalso. clear sched. revert rs M. unfold local_map. induction l as [|y l IH]; [destruct Hx|]. intros rs M. cbn [mapM] in M.
  destruct Hx as [->|Hx]; [rewrite Ef in M; discriminate|]. destruct (f y); [|discriminate]. cbn [bind] in M. destruct (mapM f l) eqn:M'; [|discriminate]. eapply IH; eauto.
Qed.
(** in the order of the list; otherwise the exception of the first element for
    which the mapped or the filter function raises one *)
Lemma C129_map_filter : forall (E R : Type) (f : E -> result R) g l sched res, ray_map_filter f g l sched = Some res ->
  (exists rs, local_map_filter f g l = Ok rs /\ res = Ok rs) \/
  (exists pre x post e, l = pre ++ x :: post /\ (forall y, In y pre -> exists r b, f y = Ok r /\ g r = Ok b) /\
     (f x = Err e \/ exists r, f x = Ok r /\ g r = Err e) /\ res = Err e).
Proof. intros E R f g l sched res H. apply run_claim in H. exact H. Qed.
(** from left to right, so that the reducing function need not be commutative or
    associative *)
Lemma C129_map_reduce : forall (E R : Type) (f : E -> result R) red l sched res, ray_map_reduce f red l sched = Some res ->
  match local_map f l with
  | Ok _ => res = local_map_reduce f red l
  | Err _ => exists x e, In x l /\ f x = Err e /\ res = Err e
  end.
Proof.
  intros E R f red l sched res H. unfold ray_map_reduce in H. destruct (ray_map f l sched) as [r|] eqn:M; [|discriminate]. cbn [option_map] in H. injection H as <-. apply C129_map in M.
  destruct (local_map f l) as [rs|e] eqn:L; [|destruct M as (x & e' & Hx & Ef & ->); eauto]. subst r. cbn [bind]. clear sched.
  unfold local_map_reduce, reduce, map_reduce, local_map in *. destruct l as [|x l]; cbn [mapM] in L; [injection L as <-; auto|].
  unfold generate at 1. destruct (f x) as [a|]; [|discriminate]. cbn [bind] in *. destruct (mapM f l) as [rs'|] eqn:L'; [|discriminate]. injection L as <-.
  revert a rs' L'. induction l as [|y l IH]; intros a rs' L'; cbn [mapM] in L'; [injection L' as <-; auto|].
  destruct (f y) as [b|] eqn:Ef; [|discriminate]. cbn [bind] in *. destruct (mapM f l) as [rs''|]; [|discriminate]. injection L' as <-.
  assert (G : generate f y = Ok b) by (unfold generate; rewrite Ef; auto). cbn [foldM]. rewrite G. cbn [bind]. destruct (red a b); cbn [bind]; auto.
Qed.
(** no schedule runs forever, and none gets stuck before the main program is done *)
Lemma C129_finishes : forall (E R : Type) (f : E -> result R) g (filter : bool) l sched s,
  exec (ray_step f g filter (length l)) sched (ray_init l) = Some s ->
  length sched <= (if filter then 5 * length l + 3 else 2 * length l + 2) /\
  ((exists r, program s = Returned r) \/ exists a s', ray_step f g filter (length l) a s = Some s').
Proof.
  intros E R f g filter l sched s H. split; [|apply progress; eapply exec_inv; [apply inv_init|eauto]].
  apply exec_mu in H; [|apply inv_init]. unfold mu, missing, left_over, ray_init in H. cbn [store program List.filter length] in H. destruct filter; lia.
Qed.
