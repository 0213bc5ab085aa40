(** Plot contexts *)
From Coq Require Import String.
From Verif.Model Require Import Base Plots.
From Verif.Spec Require Import PlotSpec.
From Verif.Lib Require Import ListLib.
Open Scope list_scope.
Open Scope nat_scope.

Lemma change_length {A} (g : A -> A) : forall l n, length (change n g l) = length l.
Proof. induction l as [|a l IH]; intros [|n]; cbn; auto. Qed.
Lemma change_nth {A} (g : A -> A) : forall l n i, nth_error (change n g l) i = if i =? n then option_map g (nth_error l i) else nth_error l i.
Proof.
  induction l as [|a l IH]; intros n i; [destruct i, n; cbn; try destruct (_ =? _); auto|]. destruct n as [|n], i as [|i]; cbn; auto.
Qed.
Section P.
  Variable inner : call -> list call.
  Variable can_save : string -> bool.
  Variable keep : bool.
  Notation run := (run inner can_save keep).
  Notation lines := (lines inner).
  Notation result_of := (result_of inner).
  Definition hid (h : happening) : nat := match h with On i _ | Begin i _ | End i _ => i end.
  Lemma trace_scope : forall p s env t n r, trace s env p = (t, n, r) -> s <= n /\
    forall h, In h t -> (In (hid h) env /\ exists c, h = On (hid h) c) \/ s <= hid h < n.
  Proof.
    clear. induction p as [k c| | | |p IHp q IHq|p IHp q IHq|x p IHp]; intros s env t n r E; cbn [trace] in E.
    - destruct (nth_error env k) as [id|] eqn:K; injection E as <- <- _; (split; [lia|]); intros h Hh; [|destruct Hh].
      destruct Hh as [<-|[]]. left. cbn. split; [eapply nth_error_In; eauto|eauto].
    - injection E as <- <- _. split; [lia|]. intros h [].
    - injection E as <- <- _. split; [lia|]. intros h [].
    - injection E as <- <- _. split; [lia|]. intros h [].
    - destruct (trace s env p) as [[t1 n1] r1] eqn:E1. destruct (IHp _ _ _ _ _ E1) as [L1 S1]. destruct r1; [injection E as <- <- _; auto|].
      destruct (trace n1 env q) as [[t2 n2] r2] eqn:E2. injection E as <- <- _. destruct (IHq _ _ _ _ _ E2) as [L2 S2]. split; [lia|].
      intros h Hh. apply in_app_or in Hh. destruct Hh as [Hh|Hh]; [destruct (S1 h Hh)|destruct (S2 h Hh)]; auto; right; lia.
    - destruct (trace s env p) as [[t1 n1] r1] eqn:E1. destruct (IHp _ _ _ _ _ E1) as [L1 S1]. destruct r1; [|injection E as <- <- _; auto].
      destruct (trace n1 env q) as [[t2 n2] r2] eqn:E2. injection E as <- <- _. destruct (IHq _ _ _ _ _ E2) as [L2 S2]. split; [lia|].
      intros h Hh. apply in_app_or in Hh. destruct Hh as [Hh|Hh]; [destruct (S1 h Hh)|destruct (S2 h Hh)]; auto; right; lia.
    - destruct (trace (S s) (s :: env) p) as [[t1 n1] r1] eqn:E1. injection E as <- <- _. destruct (IHp _ _ _ _ _ E1) as [L1 S1]. split; [lia|].
      intros h [<-|Hh]; [right; cbn; lia|]. apply in_app_or in Hh. destruct Hh as [Hh|[<-|[]]]; [|right; cbn; lia].
      destruct (S1 h Hh) as [[[Q|Q] C]|Q]; auto; right; lia.
  Qed.
  Lemma drawn_app i t u : drawn i (t ++ u) = drawn i t ++ drawn i u.
  Proof. apply flat_map_app. Qed.
  Lemma lines_app i t u : lines i (t ++ u) = lines i t ++ lines i u.
  Proof. apply flat_map_app. Qed.
  Lemma drawn_none i t : (forall h, In h t -> hid h <> i) -> drawn i t = [].
  Proof.
    induction t as [|h t IH]; intros H; [auto|]. unfold drawn in *. cbn [flat_map]. rewrite IH by (intros; apply H; right; auto). specialize (H h (or_introl eq_refl)).
    destruct h; auto. cbn in H. destruct (Nat.eqb_spec id i); [congruence|auto].
  Qed.
  Lemma lines_none i t : (forall h, In h t -> hid h <> i) -> lines i t = [].
  Proof.
    induction t as [|h t IH]; intros H; [auto|]. unfold PlotSpec.lines in *. cbn [flat_map]. rewrite IH by (intros; apply H; right; auto). specialize (H h (or_introl eq_refl)).
    destruct h; auto. cbn in H. destruct (Nat.eqb_spec id i); [congruence|auto].
  Qed.
  Lemma result_same i x b t u : drawn i t = drawn i u -> lines i t = lines i u -> result_of i x b t = result_of i x b u.
  Proof. intros D L. unfold PlotSpec.result_of. rewrite D, L. auto. Qed.
  Definition files_in (whole t : list happening) : list (string * figure) :=
    flat_map (fun h => match h with End id x => match x_file x with Some p => [(p, result_of id x false whole)] | None => [] end | _ => [] end) t.
  Lemma files_is t : files inner t = files_in t t.
  Proof. auto. Qed.
  Lemma files_in_app w t u : files_in w (t ++ u) = files_in w t ++ files_in w u.
  Proof. apply flat_map_app. Qed.
  Lemma files_in_same w w' t : (forall i x, In (End i x) t -> drawn i w = drawn i w' /\ lines i w = lines i w') -> files_in w t = files_in w' t.
  Proof.
    induction t as [|h t IH]; intros H; [auto|]. unfold files_in in *. cbn [flat_map]. rewrite IH by (intros; apply (H i x); right; auto). f_equal.
    destruct h; auto. destruct (H id x (or_introl eq_refl)). destruct (x_file x); [|auto]. rewrite (result_same id x false w w'); auto.
  Qed.
  Definition extend (t : list happening) (i : nat) (f : figure) : figure :=
    Figure (f_title f) (f_calls f ++ drawn i t) (option_map (add_lines (lines i t)) (f_log f)).
  Lemma extend_nil i f : extend [] i f = f.
  Proof. destruct f as [a b [[p l c]|]]; unfold extend, add_lines; cbn; rewrite ?app_nil_r; auto. Qed.
  Lemma extend_app t u i f : extend (t ++ u) i f = extend u i (extend t i f).
  Proof. destruct f as [a b [[p l c]|]]; unfold extend, add_lines; cbn; rewrite drawn_app, ?lines_app, ?app_assoc; auto. Qed.
  Lemma extend_open t i f : log_closed (extend t i f) = log_closed f.
  Proof. destruct f as [a b [[p l c]|]]; auto. Qed.
  Record after (w : world) (t : list happening) (n : nat) (w' : world) : Prop := {
    a_len : length (heap w') = n;
    a_old : forall i f, nth_error (heap w) i = Some f -> nth_error (heap w') i = Some (extend t i f);
    a_new : forall i x, In (Begin i x) t -> nth_error (heap w') i = Some (result_of i x true t);
    a_known : known w' = known w;
    a_shown : shown w' = shown w;
    a_saved : saved w' = saved w ++ files inner t;
    a_tight : tight w' = tight w ++ ends_tight t
  }.
  Lemma after_nil w : after w [] (length (heap w)) w.
  Proof. constructor; auto; cbn; rewrite ?app_nil_r; auto; [intros; rewrite extend_nil; auto|intros i x []]. Qed.
  Definition env_ok (env : list nat) (w : world) : Prop := forall i, In i env -> exists f, nth_error (heap w) i = Some f /\ log_closed f = false.
  Lemma env_after env w t n w' : env_ok env w -> after w t n w' -> env_ok env w'.
  Proof. intros E A i Hi. destruct (E i Hi) as (f & N & C). exists (extend t i f). split; [apply (a_old _ _ _ _ A); auto|rewrite extend_open; auto]. Qed.
  Lemma after_seq w t1 n1 w1 t2 n2 w2 env p q r1 r2 : env_ok env w -> trace (length (heap w)) env p = (t1, n1, r1) -> trace n1 env q = (t2, n2, r2) ->
    after w t1 n1 w1 -> after w1 t2 n2 w2 -> after w (t1 ++ t2) n2 w2.
  Proof.
    intros EO T1 T2 A B. destruct (trace_scope _ _ _ _ _ _ T1) as [L1 S1]. destruct (trace_scope _ _ _ _ _ _ T2) as [L2 S2].
    assert (EL : forall i, In i env -> i < length (heap w)) by (intros i Hi; destruct (EO i Hi) as (f & N & _); apply nth_error_Some; congruence).
    assert (D12 : forall i, length (heap w) <= i < n1 -> drawn i t2 = [] /\ lines i t2 = []).
    { intros i Hi. assert (Q : forall h, In h t2 -> hid h <> i) by (intros h Hh; destruct (S2 h Hh) as [[Q _]|Q]; [apply EL in Q; lia|lia]). split; [apply drawn_none|apply lines_none]; auto. }
    assert (D21 : forall i, n1 <= i -> drawn i t1 = [] /\ lines i t1 = []).
    { intros i Hi. assert (Q : forall h, In h t1 -> hid h <> i) by (intros h Hh; destruct (S1 h Hh) as [[Q _]|Q]; [apply EL in Q; lia|lia]). split; [apply drawn_none|apply lines_none]; auto. }
    constructor.
    - apply B.
    - intros i f N. rewrite extend_app. apply B, A, N.
    - intros i x Hi. apply in_app_or in Hi. destruct Hi as [Hi|Hi].
      + destruct (S1 _ Hi) as [[_ [c Q]]|Q]; [discriminate|]. cbn in Q. destruct (D12 i Q) as [Dd Dl]. rewrite (a_old _ _ _ _ B i _ (a_new _ _ _ _ A i x Hi)). f_equal.
        unfold extend, PlotSpec.result_of. cbn. rewrite drawn_app, lines_app, Dd, Dl, !app_nil_r. f_equal. destruct (x_log x); cbn; [|auto]. unfold add_lines. cbn. rewrite app_nil_r. auto.
      + destruct (S2 _ Hi) as [[_ [c Q]]|Q]; [discriminate|]. cbn in Q. destruct (D21 i ltac:(lia)) as [Dd Dl]. rewrite (a_new _ _ _ _ B i x Hi). f_equal. apply result_same; rewrite ?drawn_app, ?lines_app, ?Dd, ?Dl; auto.
    - rewrite (a_known _ _ _ _ B). apply A.
    - rewrite (a_shown _ _ _ _ B). apply A.
    - rewrite (a_saved _ _ _ _ B), (a_saved _ _ _ _ A), <- app_assoc. f_equal. rewrite !files_is, files_in_app. f_equal; apply files_in_same; intros i x Hi.
      + destruct (S1 _ Hi) as [[_ [c Q]]|Q]; [discriminate|]. cbn in Q. destruct (D12 i Q) as [Dd Dl]. rewrite drawn_app, lines_app, Dd, Dl, !app_nil_r. auto.
      + destruct (S2 _ Hi) as [[_ [c Q]]|Q]; [discriminate|]. cbn in Q. destruct (D21 i ltac:(lia)) as [Dd Dl]. rewrite drawn_app, lines_app, Dd, Dl. auto.
    - rewrite (a_tight _ _ _ _ B), (a_tight _ _ _ _ A), <- app_assoc. f_equal. unfold ends_tight. rewrite flat_map_app. auto.
  Qed.
  Lemma call_after w id c f : nth_error (heap w) id = Some f -> log_closed f = false ->
    exists w', call_on inner id c w = (w', c_fails c) /\ after w [On id c] (length (heap w)) w'.
  Proof.
    intros N C. unfold call_on. rewrite N, C, andb_false_r.
    assert (EX : forall i g, nth_error (heap w) i = Some g -> i <> id -> extend [On id c] i g = g).
    { intros i g _ Q. destruct g as [a b [[p l k]|]]; unfold extend, add_lines; cbn; destruct (Nat.eqb_spec id i); try congruence; cbn; rewrite ?app_nil_r; auto. }
    destruct (logged c) eqn:L; destruct (c_fails c) eqn:F; eexists; (split; [reflexivity|]); (constructor; cbn; rewrite ?change_length, ?app_nil_r; auto; [|intros i x [Q|[]]; discriminate]).
    - intros i g Hg. rewrite change_nth, Hg. destruct (Nat.eqb_spec i id) as [->|Q]; cbn; [|rewrite EX; auto]. f_equal. unfold write_log, extend. cbn. rewrite Nat.eqb_refl, L, F. cbn. rewrite app_nil_r. auto.
    - intros i g Hg. rewrite !change_nth, Hg. destruct (Nat.eqb_spec i id) as [->|Q]; cbn; [|rewrite EX; auto]. f_equal. unfold write_log, draw, extend. cbn. rewrite Nat.eqb_refl, L, F. cbn. f_equal.
      destruct (f_log g); cbn; [|auto]. unfold add_lines. cbn. rewrite app_nil_r, <- app_assoc. auto.
    - intros i g Hg. destruct (Nat.eqb_spec i id) as [->|Q]; cbn; [|rewrite EX; auto]. rewrite Hg. f_equal. destruct g as [a b [[p l k]|]]; unfold extend, add_lines; cbn; rewrite Nat.eqb_refl, ?L, F; cbn; rewrite !app_nil_r; auto.
    - intros i g Hg. rewrite change_nth, Hg. destruct (Nat.eqb_spec i id) as [->|Q]; cbn; [|rewrite EX; auto]. f_equal. unfold write_log, draw, extend. cbn. rewrite Nat.eqb_refl, L, F. cbn. f_equal.
      destruct (f_log g); cbn; [|auto]. unfold add_lines. cbn. rewrite app_nil_r. auto.
  Qed.
  Lemma leave_after x w2 n k t : nth_error (heap w2) n = Some (result_of n x false t) -> known w2 = k ++ [n] -> x_show x = false ->
    match x_file x with Some f => can_save f | None => true end = true ->
    leave can_save keep n x w2 = (World (change n (fun f => Figure (f_title f) (f_calls f) (option_map close_log (f_log f))) (heap w2)) k
      (saved w2 ++ match x_file x with Some p => [(p, result_of n x false t)] | None => [] end) (shown w2) (tight w2 ++ if x_tight x then [n] else []), false).
  Proof.
    intros N K S F. unfold leave.
    assert (T : (if x_tight x then tight_layout w2 else w2) = World (heap w2) (known w2) (saved w2) (shown w2) (tight w2 ++ if x_tight x then [n] else [])).
    { destruct (x_tight x); [|destruct w2; cbn; rewrite app_nil_r; auto]. unfold tight_layout.
      assert (Q : match known w2 with [] => new_figure (Figure None [] None) w2 | _ => w2 end = w2) by (rewrite K; destruct k; auto). rewrite Q, K, last_last. auto. }
    rewrite T. cbn [heap]. rewrite N. unfold show_or_close. rewrite S. destruct (x_file x) as [p|]; [rewrite F|]; unfold close_current, on_heap; cbn [heap known saved shown tight]; rewrite K, removelast_last, ?app_nil_r; auto.
  Qed.
  Lemma run_after : forall p env w t n r, plain can_save p = true -> env_ok env w -> trace (length (heap w)) env p = (t, n, r) ->
    exists w', run env p w = (w', r) /\ after w t n w'.
  Proof.
    induction p as [k c| | | |p IHp q IHq|p IHp q IHq|x p IHp]; intros env w t n r P EO E; cbn [plain] in P; try discriminate; cbn [trace] in E; cbn [Plots.run].
    - destruct (nth_error env k) as [id|] eqn:K; injection E as <- <- <-; [|exists w; split; [auto|apply after_nil]].
      destruct (EO id (nth_error_In _ _ K)) as (f & N & C). apply (call_after w id c f N C).
    - injection E as <- <- <-. exists w. split; [auto|apply after_nil].
    - apply andb_true_iff in P. destruct P as [P1 P2]. destruct (trace (length (heap w)) env p) as [[t1 n1] r1] eqn:E1. destruct (IHp _ _ _ _ _ P1 EO E1) as (w1 & R1 & A1). rewrite R1. destruct r1; [injection E as <- <- <-; eauto|].
      destruct (trace n1 env q) as [[t2 n2] r2] eqn:E2. injection E as <- <- <-. destruct (IHq env w1 t2 n2 r2 P2) as (w2 & R2 & A2); [eapply env_after; eauto|rewrite (a_len _ _ _ _ A1); auto|]. exists w2. split; [auto|]. eapply after_seq; eauto.
    - apply andb_true_iff in P. destruct P as [P1 P2]. destruct (trace (length (heap w)) env p) as [[t1 n1] r1] eqn:E1. destruct (IHp _ _ _ _ _ P1 EO E1) as (w1 & R1 & A1). rewrite R1. destruct r1; [|injection E as <- <- <-; eauto].
      destruct (trace n1 env q) as [[t2 n2] r2] eqn:E2. injection E as <- <- <-. destruct (IHq env w1 t2 n2 r2 P2) as (w2 & R2 & A2); [eapply env_after; eauto|rewrite (a_len _ _ _ _ A1); auto|]. exists w2. split; [auto|]. eapply after_seq; eauto.
    - apply andb_true_iff in P. destruct P as [P P2]. apply andb_true_iff in P. destruct P as [P1 P3]. apply negb_true_iff in P1.
      set (s := length (heap w)) in *. destruct (trace (S s) (s :: env) p) as [[t1 n1] r1] eqn:E1. injection E as <- <- <-.
      assert (LE : length (heap (enter x w)) = S s) by (cbn; rewrite app_length; cbn; unfold s; lia).
      assert (NE : nth_error (heap (enter x w)) s = Some (Figure (x_title x) [] (option_map (fun p => Logfile p [] false) (x_log x)))) by (cbn; rewrite nth_error_app2 by (unfold s; lia); unfold s; rewrite Nat.sub_diag; auto).
      assert (NO : forall i f, nth_error (heap w) i = Some f -> nth_error (heap (enter x w)) i = Some f) by (intros i f Hf; cbn; rewrite nth_error_app1; [auto|apply nth_error_Some; congruence]).
      destruct (IHp (s :: env) (enter x w) t1 n1 r1 P2) as (w2 & R2 & A2).
      { intros i [<-|Hi]; [eexists; split; [exact NE|]; destruct (x_log x); auto|]. destruct (EO i Hi) as (f & N & C). eauto. }
      { rewrite LE. auto. }
      rewrite R2. destruct (trace_scope _ _ _ _ _ _ E1) as [L1 S1].
      assert (NF : nth_error (heap w2) s = Some (result_of s x false t1)).
      { rewrite (a_old _ _ _ _ A2 s _ NE). f_equal. unfold extend, PlotSpec.result_of. cbn. destruct (x_log x); auto. }
      rewrite (leave_after x w2 s (known w) t1 NF); [|rewrite (a_known _ _ _ _ A2); auto|auto|auto].
      exists (World (change s (fun f => Figure (f_title f) (f_calls f) (option_map close_log (f_log f))) (heap w2)) (known w)
        (saved w2 ++ match x_file x with Some p => [(p, result_of s x false t1)] | None => [] end) (shown w2) (tight w2 ++ if x_tight x then [s] else [])).
      rewrite orb_false_r. split; [auto|].
      assert (DW : forall i, drawn i (Begin s x :: t1 ++ [End s x]) = drawn i t1) by (intros i; change (Begin s x :: t1 ++ [End s x]) with ([Begin s x] ++ t1 ++ [End s x]); rewrite !drawn_app; cbn; apply app_nil_r).
      assert (LW : forall i, lines i (Begin s x :: t1 ++ [End s x]) = lines i t1) by (intros i; change (Begin s x :: t1 ++ [End s x]) with ([Begin s x] ++ t1 ++ [End s x]); rewrite !lines_app; cbn; apply app_nil_r).
      constructor.
      + cbn. rewrite change_length. apply A2.
      + intros i f Hf. assert (i < s) by (unfold s; apply nth_error_Some; congruence). cbn [heap]. rewrite change_nth. destruct (Nat.eqb_spec i s); [lia|]. rewrite (a_old _ _ _ _ A2 i f (NO i f Hf)). unfold extend. rewrite DW, LW. auto.
      + intros i y Hi. cbn [heap]. rewrite change_nth. rewrite (result_same i y true _ t1 (DW i) (LW i)). destruct Hi as [Q|Hi].
        * injection Q as <- <-. rewrite Nat.eqb_refl, NF. cbn. unfold PlotSpec.result_of. cbn. destruct (x_log x); auto.
        * apply in_app_or in Hi. destruct Hi as [Hi|[Q|[]]]; [|discriminate]. destruct (S1 _ Hi) as [[_ [c Q]]|Q]; [discriminate|]. cbn in Q. destruct (Nat.eqb_spec i s); [lia|]. apply A2. auto.
      + auto.
      + cbn. rewrite (a_shown _ _ _ _ A2). auto.
      + cbn [saved]. rewrite (a_saved _ _ _ _ A2). cbn [enter new_figure saved]. rewrite <- app_assoc. f_equal. rewrite !files_is. change (Begin s x :: t1 ++ [End s x]) with ([Begin s x] ++ t1 ++ [End s x]) at 2. rewrite !files_in_app. cbn [files_in flat_map app]. f_equal.
        * apply files_in_same. intros i y _. rewrite DW, LW. auto.
        * rewrite app_nil_r. destruct (x_file x); [|auto]. rewrite (result_same s x false t1 _ (eq_sym (DW s)) (eq_sym (LW s))). auto.
      + cbn [tight]. rewrite (a_tight _ _ _ _ A2). cbn [enter new_figure tight]. rewrite <- app_assoc. f_equal. unfold ends_tight. cbn [flat_map]. rewrite flat_map_app. cbn [flat_map app]. rewrite app_nil_r. auto.
  Qed.
End P.

(*P C116 Plot contexts save, log and close *)
(** every figure is saved with what was drawn in its context, its log file is
    complete and closed, and pyplot is left as it was, also after exceptions *)
Lemma C116_blocks : forall inner can_save keep p w t n r, plain can_save p = true -> trace (length (heap w)) [] p = (t, n, r) ->
  exists w', run inner can_save keep [] p w = (w', r) /\ saved w' = saved w ++ files inner t /\ known w' = known w /\ shown w' = shown w /\
    tight w' = tight w ++ ends_tight t /\
    (forall i x, In (Begin i x) t -> nth_error (heap w') i = Some (result_of inner i x true t)) /\
    (forall i, i < length (heap w) -> nth_error (heap w') i = nth_error (heap w) i).
Proof.
  intros inner can_save keep p w t n r P E. destruct (run_after inner can_save keep p [] w t n r P) as (w' & R & A); [intros i []|auto|]. exists w'. split; [auto|].
  do 4 (split; [apply A|]). split; [apply A|]. intros i Hi. destruct (nth_error (heap w) i) as [f|] eqn:N; [|apply nth_error_None in N; lia].
  rewrite (a_old _ _ _ _ _ A i f N). f_equal. assert (Q : forall h, In h t -> hid h <> i) by (intros h Hh; destruct (trace_scope _ _ _ _ _ _ E) as [_ S]; destruct (S h Hh) as [[[] _]|Q]; lia).
  unfold extend. rewrite drawn_none, lines_none by auto. destruct f as [a b [[x l c]|]]; unfold add_lines; cbn; rewrite ?app_nil_r; auto.
Qed.
(** a single context that shows its figure shows this one, if pyplot has no other *)
Lemma C116_show : forall inner can_save keep x p w t n r, known w = [] -> x_show x = true -> plain can_save p = true -> match x_file x with Some f => can_save f | None => true end = true ->
  trace (S (length (heap w))) [length (heap w)] p = (t, n, r) ->
  exists w', run inner can_save keep [] (With x p) w = (w', r) /\ shown w' = shown w ++ [[length (heap w)]] /\
    nth_error (heap w') (length (heap w)) = Some (result_of inner (length (heap w)) x true t).
Proof.
  intros inner can_save keep x p w t n r K S P F E. cbn [run]. set (s := length (heap w)) in *.
  assert (LE : length (heap (enter x w)) = Datatypes.S s) by (cbn; rewrite app_length; cbn; unfold s; lia).
  assert (NE : nth_error (heap (enter x w)) s = Some (Figure (x_title x) [] (option_map (fun p => Logfile p [] false) (x_log x)))) by (cbn; rewrite nth_error_app2 by (unfold s; lia); unfold s; rewrite Nat.sub_diag; auto).
  destruct (run_after inner can_save keep p [s] (enter x w) t n r P) as (w2 & R & A); [intros i [<-|[]]; eexists; split; [exact NE|]; destruct (x_log x); auto|rewrite LE; auto|].
  rewrite R. assert (NF : nth_error (heap w2) s = Some (result_of inner s x false t)).
  { rewrite (a_old _ _ _ _ _ A s _ NE). f_equal. unfold extend, result_of. cbn. destruct (x_log x); auto. }
  assert (KN : known w2 = [s]) by (rewrite (a_known _ _ _ _ _ A); cbn; rewrite K; auto).
  assert (SH : shown w2 = shown w) by (rewrite (a_shown _ _ _ _ _ A); auto).
  assert (T : heap (if x_tight x then tight_layout w2 else w2) = heap w2 /\ known (if x_tight x then tight_layout w2 else w2) = [s] /\ shown (if x_tight x then tight_layout w2 else w2) = shown w).
  { destruct (x_tight x); [|auto]. unfold tight_layout. rewrite KN. cbn. auto. }
  unfold leave. destruct T as (T1 & T2 & T3). rewrite T1, NF. unfold show_or_close. rewrite S.
  destruct (x_file x) as [f|]; [rewrite F|]; eexists; (split; [rewrite orb_false_r; reflexivity|]); cbn [shown heap on_heap]; rewrite ?T1, ?T2, ?T3; (split; [auto|]); rewrite change_nth, Nat.eqb_refl, NF; cbn; unfold result_of; cbn; destruct (x_log x); auto.
Qed.
(** inside of a context another figure can be shown, closed or left open in place of its own *)
Lemma C116_other_figure_witness : forall inner can_save c, c_fails c = false ->
  let x show := Context None show None None false in
  let w0 := World [] [] [] [] [] in
  (let w := fst (run inner can_save true [] (With (x false) (With (x true) (CallOn 0 c))) w0) in shown w = [[0; 1]] /\ known w = [0]) /\
  (let w := fst (run inner can_save true [] (With (x false) NewFigure) w0) in known w = [0]) /\
  (let w := fst (run inner can_save true [] (Seq NewFigure (With (x false) CloseFigure)) w0) in known w = []).
Proof.
  intros inner can_save c F. cbn. unfold call_on. cbn. rewrite andb_false_r, F. destruct (logged c); cbn; auto.
Qed.
(** if the figure cannot be saved, the log file is not closed and the figure not removed *)
Lemma C116_save_witness : forall inner can_save keep file log, can_save file = false ->
  run inner can_save keep [] (With (Context None false (Some file) (Some log) false) (CallOn 0 (Call Plot log true))) (World [] [] [] [] []) =
  (World [Figure None [] (Some (Logfile log [(Plot, log)] false))] [0] [] [] [], true).
Proof.
  intros inner can_save keep file log F. cbn [run nth_error]. unfold call_on. cbn [enter new_figure heap app length nth_error x_title x_log option_map]. cbn [log_closed f_log l_closed]. rewrite andb_false_r.
  cbn [logged c_kind c_fails]. unfold leave. cbn [x_tight x_file on_heap heap change nth_error]. rewrite F. reflexivity.
Qed.

(*P C117 Grids of subplots *)
Lemma range_nth n : forall i, nth_error (range n) i = if (Z.of_nat i <? n)%Z then Some (Z.of_nat i) else None.
Proof.
  intros i. unfold range. rewrite nth_error_map. destruct (Z.ltb_spec (Z.of_nat i) n).
  - rewrite (nth_error_nth' _ 0) by (rewrite seq_length; lia). rewrite seq_nth by lia. auto.
  - rewrite (proj2 (nth_error_None _ _)); [auto|]. rewrite seq_length. lia.
Qed.
Lemma range_length n : length (range n) = Z.to_nat n.
Proof. unfold range. rewrite map_length, seq_length. auto. Qed.
Lemma item_map_range {A} (g : Z -> A) n i : (0 <= n)%Z -> item (map g (range n)) i =
  if (i <? - n)%Z || (n <=? i)%Z then Err IndexError else Ok (g (if (i <? 0)%Z then i + n else i)%Z).
Proof.
  intros H. unfold item. rewrite map_length, range_length, Z2Nat.id by auto. set (i' := (if (i <? 0)%Z then i + n else i)%Z).
  destruct (Z.ltb_spec i' 0).
  - assert (i < - n)%Z by (unfold i' in *; destruct (Z.ltb_spec i 0); lia). destruct (Z.ltb_spec i (- n)); [auto|lia].
  - rewrite nth_error_map, range_nth, Z2Nat.id by auto. assert (- n <= i)%Z by (unfold i' in *; destruct (Z.ltb_spec i 0); lia). destruct (Z.ltb_spec i (- n)); [lia|]. cbn [orb].
    destruct (Z.ltb_spec i' n); destruct (Z.leb_spec n i); cbn; auto; unfold i' in *; destruct (Z.ltb_spec i 0); lia.
Qed.
Lemma grid_is r c : (0 < r)%Z -> (0 < c)%Z -> grid r c = Ok (Matrix (map (fun i => map (fun j => (i, j)) (range c)) (range r))).
Proof.
  intros R C. unfold grid, subplots. destruct (Z.leb_spec r 0); [lia|]. destruct (Z.leb_spec c 0); [lia|]. cbn [orb bind].
  destruct (Z.eqb_spec r 1) as [->|Nr]; destruct (Z.eqb_spec c 1) as [->|Nc]; cbn [andb orb]; auto.
  - change (range 1) with [0%Z]. cbn [map concat boxed]. rewrite app_nil_r. auto.
  - change (range 1) with [0%Z]. cbn [map]. f_equal. unfold boxed, transposed. f_equal. induction (range r) as [|i l IH]; [auto|]. cbn. f_equal. auto.
Qed.
Lemma C117_get_axes : forall rows columns, (0 < rows)%Z -> (0 < columns)%Z -> exists a, grid rows columns = Ok a /\
  forall i j, ((- rows <= i < rows)%Z -> (- columns <= j < columns)%Z -> get_axes a i j = Ok ((if (i <? 0)%Z then i + rows else i)%Z, (if (j <? 0)%Z then j + columns else j)%Z)) /\
    (~ (- rows <= i < rows)%Z \/ ~ (- columns <= j < columns)%Z -> get_axes a i j = Err IndexError).
Proof.
  intros r c R C. eexists. split; [apply grid_is; auto|]. intros i j. cbn [get_axes]. rewrite item_map_range by lia.
  destruct (Z.ltb_spec i (- r)); destruct (Z.leb_spec r i); cbn [orb bind]; (split; [intros; try lia|intros; auto]); rewrite item_map_range by lia; destruct (Z.ltb_spec j (- c)); destruct (Z.leb_spec c j); cbn [orb]; auto; lia.
Qed.
(** every subplot once, row by row *)
Lemma C117_list : forall rows columns, (0 < rows)%Z -> (0 < columns)%Z -> exists a, grid rows columns = Ok a /\
  length (get_list_of_axes a) = Z.to_nat (rows * columns) /\
  forall i j, (0 <= i < rows)%Z -> (0 <= j < columns)%Z -> nth_error (get_list_of_axes a) (Z.to_nat (i * columns + j)) = Some (i, j).
Proof.
  intros r c R C. eexists. split; [apply grid_is; auto|]. cbn [get_list_of_axes]. split.
  - assert (Q : forall l : list Z, length (concat (map (fun i => map (fun j => (i, j)) (range c)) l)) = length l * Z.to_nat c).
    { induction l as [|i l IH]; [auto|]. cbn. rewrite app_length, map_length, range_length, IH. auto. }
    rewrite Q, range_length. rewrite Z2Nat.inj_mul by lia. auto.
  - intros i j Hi Hj. assert (Q : forall (l : list Z) k x, nth_error l k = Some x -> nth_error (concat (map (fun i => map (fun j => (i, j)) (range c)) l)) (k * Z.to_nat c + Z.to_nat j) = Some (x, j)).
    { induction l as [|y l IH]; intros k x E; [destruct k; discriminate|]. cbn [map concat]. destruct k as [|k].
      - injection E as ->. cbn [Nat.mul Nat.add]. rewrite nth_error_app1 by (rewrite map_length, range_length; lia). rewrite nth_error_map, range_nth, Z2Nat.id by lia. destruct (Z.ltb_spec j c); [auto|lia].
      - rewrite nth_error_app2 by (rewrite map_length, range_length; lia). rewrite map_length, range_length. replace (S k * Z.to_nat c + Z.to_nat j - Z.to_nat c) with (k * Z.to_nat c + Z.to_nat j) by lia. apply IH. auto. }
    specialize (Q (range r) (Z.to_nat i) i). rewrite range_nth, Z2Nat.id in Q by lia. destruct (Z.ltb_spec i r); [|lia]. specialize (Q eq_refl).
    rewrite Z2Nat.inj_add, Z2Nat.inj_mul by nia. auto.
Qed.
Lemma C117_errors : forall rows columns, (rows <= 0)%Z \/ (columns <= 0)%Z -> grid rows columns = Err ValueError.
Proof. intros r c H. unfold grid, subplots. destruct (Z.leb_spec r 0); destruct (Z.leb_spec c 0); auto; lia. Qed.
