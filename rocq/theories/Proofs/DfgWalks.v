(** Which logs can be generated, and when generating one fails (C72) *)
From Coq Require Import String Permutation QArith Relations.
From Verif.Model Require Import Base Sort EventLog Dfg.
From Verif.Lib Require Import ListLib DictLib.
From Verif.Spec Require Import Lists Logs Graphs EventLogSpec DfgSpec DfgBuilt.
From Verif.Proofs Require Import Selection EventLogA DfgA DfgB DfgC DfgD DfgE DfgF DfgG DfgH DfgI DfgJ.
Open Scope list_scope.
Open Scope nat_scope.

Section W.
  Variables (g : graph) (N : string -> Prop) (C : string -> string -> option Z).
  Hypothesis S0 : shows g N C.
  Variable choice : nat -> list string -> string.
  Notation E := (edge_of C).
  (** the choices spell the walk [w] *)
  Lemma walk_spelled ends : forall w i possible done fuel b l,
    (forall k x s, nth_error w k = Some x -> In x s -> choice (i + k) s = x) -> (forall x, is_first x w -> In x possible) ->
    w = l ++ [b] -> In b ends -> (forall y, In y l -> ~ In y ends) -> chained E w -> Forall N w -> length w <= fuel ->
    walk fuel choice g i possible ends done = Ok (done ++ w, i + length w).
  Proof.
    induction w as [|x w IH]; intros i possible done fuel b l Hc Hp Ew Hb Hl Hch Hn Hf; [destruct l; discriminate|].
    cbn [length] in Hf. destruct fuel as [|fuel]; [lia|]. cbn [walk].
    assert (Hx : In x possible) by (apply Hp; now exists w). destruct possible as [|p0 ps] eqn:Ep; [destruct Hx|]. rewrite <- Ep in *.
    assert (Ex : choice i possible = x) by (rewrite <- (Nat.add_0_r i); apply Hc; [reflexivity|auto]). rewrite Ex.
    pose proof (Forall_inv Hn) as Nx. pose proof (Forall_inv_tail Hn) as Nw. destruct (sh_following _ _ _ S0 x Nx) as (nx & En & _ & Hnx). rewrite En. cbn [bind].
    destruct l as [|x0 l]; cbn [app] in Ew.
    - injection Ew as -> ->. rewrite (proj2 (mem_In b ends) Hb). cbn [length]. f_equal. f_equal. lia.
    - injection Ew as <- ->. destruct (mem x ends) eqn:Em; [apply mem_In in Em; exfalso; apply (Hl x); cbn; auto|].
      rewrite (IH (S i) nx (done ++ [x]) fuel b l).
      + rewrite <- app_assoc. cbn [app length]. f_equal. f_equal. lia.
      + intros k y s Hk Hy. replace (S i + k) with (i + S k) by lia. apply Hc; auto.
      + intros y Hy. apply Hnx. destruct Hy as [r Er]. rewrite Er in Hch. cbn in Hch. tauto.
      + auto.
      + auto.
      + intros y Hy. apply Hl. now right.
      + destruct (l ++ [b]); cbn in *; tauto.
      + auto.
      + cbn [length] in *; lia.
  Qed.
  Definition a_walk (starts ends : list string) (w : list string) : Prop :=
    exists a b l, In a starts /\ In b ends /\ path E a b w /\ Forall N w /\ w = l ++ [b] /\ (forall y, In y l -> ~ In y ends).
  Lemma walks_spelled starts ends fuel : forall ws i,
    (forall k x s, nth_error (concat ws) k = Some x -> In x s -> choice (i + k) s = x) -> Forall (a_walk starts ends) ws ->
    (forall w, In w ws -> length w <= fuel) ->
    walks fuel choice g i starts ends (length ws) = Ok ws.
  Proof.
    induction ws as [|w ws IH]; intros i Hc Hw Hf; cbn [length walks]; [auto|].
    inversion Hw as [|? ? (a & b & l & Ha & Hb & (Hp1 & Hp2 & Hp3) & Hn & El & Hl) Hws]; subst.
    rewrite (walk_spelled ends (l ++ [b]) i starts [] fuel b l); auto.
    - cbn [bind]. rewrite IH; auto.
      + intros k x s Hk Hx. rewrite <- Nat.add_assoc. apply Hc; auto. cbn [concat]. rewrite nth_error_app2 by lia.
        replace (length (l ++ [b]) + k - length (l ++ [b])) with k by lia. auto.
      + intros w Hin. apply Hf. now right.
    - intros k x s Hk Hx. apply Hc; auto. cbn [concat]. rewrite nth_error_app1; auto. apply nth_error_Some. congruence.
    - intros x Hx. destruct Hx as [r Er], Hp1 as [r' Er']. congruence.
    - apply Hf. now left.
  Qed.
  (** failing *)
  Hypothesis Hchoice : forall i l, l <> [] -> In (choice i l) l.
  Lemma walk_fails ends fuel : forall i possible done e, walk fuel choice g i possible ends done = Err e ->
    e = OutOfFuel \/
    (e = IndexError /\ possible = []) \/
    (e = KeyError /\ exists a, In a possible /\ ~ N a) \/
    (e = IndexError /\ exists a b l, In a possible /\ path E a b l /\ Forall N l /\ (forall y, In y l -> ~ In y ends) /\ forall y, ~ E b y).
  Proof.
    induction fuel as [|fuel IH]; intros i possible done e Hw; cbn [walk] in Hw; [injection Hw as <-; auto|].
    destruct possible as [|p0 ps] eqn:Ep; [injection Hw as <-; auto|]. rewrite <- Ep in *.
    set (cur := choice i possible) in *.
    assert (Hcur : In cur possible) by (apply Hchoice; rewrite Ep; discriminate).
    destruct (get_following g cur) as [next|e'] eqn:En; cbn [bind] in Hw.
    - assert (Nc : N cur). { destruct (sh_nodes _ _ _ S0) as [_ Hm]. destruct (in_dec string_dec cur (activities g)) as [Hi|Hi]; [now apply Hm|].
        destruct (sh_unknown _ _ _ S0 cur) as [X _]; [|congruence]. intros X; apply Hi; now apply Hm. }
      destruct (sh_following _ _ _ S0 cur Nc) as (nx & En' & _ & Hnx). rewrite En in En'. injection En' as <-.
      destruct (mem cur ends) eqn:Em; [discriminate|]. assert (Hne : ~ In cur ends) by (intros X; apply mem_In in X; congruence).
      assert (Here : path E cur cur [cur]). { split; [now exists []|]. split; [now exists []|]. cbn. auto. }
      apply IH in Hw as [->|[[-> ->]|[[-> (a & Ha & Hn)]|[-> (a & b & l & Ha & (P1 & P2 & P3) & Hn & Hl & Hb)]]]].
      + auto.
      + right. right. right. split; [auto|]. exists cur, cur, [cur]. split; [auto|]. split; [auto|]. split; [auto|].
        split; [intros y [<-|[]]; auto|]. intros y Hy. apply Hnx in Hy. destruct Hy.
      + apply Hnx in Ha. apply (sh_ends _ _ _ S0) in Ha. tauto.
      + right. right. right. split; [auto|]. exists cur, b, (cur :: l). split; [auto|]. split; [|split; [|split; [|auto]]].
        * split; [now exists l|]. split; [destruct P2 as [r ->]; now exists (cur :: r)|]. apply chained_cons; [|auto].
          intros z [r Ez]. destruct P1 as [r' Ez']. assert (z = a) by congruence. subst z. now apply Hnx.
        * constructor; auto.
        * intros y [<-|Hy]; auto.
    - injection Hw as <-. right. right. left.
      assert (Nc : ~ N cur). { intros Nc. destruct (sh_following _ _ _ S0 cur Nc) as (nx & En' & _). congruence. }
      destruct (sh_unknown _ _ _ S0 cur Nc) as [X _]. split; [congruence|]. eauto.
  Qed.
  Lemma walks_fail starts ends fuel nr : forall i e, starts <> [] -> walks fuel choice g i starts ends nr = Err e ->
    e = OutOfFuel \/
    (e = KeyError /\ exists a, In a starts /\ ~ N a) \/
    (e = IndexError /\ exists a b l, In a starts /\ path E a b l /\ Forall N l /\ (forall y, In y l -> ~ In y ends) /\ forall y, ~ E b y).
  Proof.
    induction nr as [|nr IH]; intros i e Hs Hw; cbn [walks] in Hw; [discriminate|].
    destruct (walk fuel choice g i starts ends []) as [[w i']|e'] eqn:E1; cbn [bind] in Hw.
    - destruct (walks fuel choice g i' starts ends nr) as [ws'|] eqn:E2; cbn [bind] in Hw; [discriminate|]. injection Hw as <-. eauto.
    - injection Hw as <-. apply walk_fails in E1 as [X|[[_ X]|[X|X]]]; auto. contradiction.
  Qed.
End W.
Lemma start_list g N C starts : built g -> shows g N C -> forall x,
  In x (match starts with Some s => s | None => get_source_activities g end) <->
  match starts with Some s => In x s | None => N x /\ forall p, edge_of C p x -> p = x end.
Proof.
  intros B S x. open B S W HN HC. destruct starts; [tauto|]. rewrite (proj2 (sources_ok g W) x), HN. unfold edge_of.
  split; intros [H1 H2]; (split; [auto|]); intros p; [rewrite HC|rewrite <- HC]; auto.
Qed.
Lemma end_list g N C ends : built g -> shows g N C -> forall x,
  In x (match ends with Some s => s | None => get_sink_activities g end) <->
  match ends with Some s => In x s | None => N x /\ forall s, edge_of C x s -> s = x end.
Proof.
  intros B S x. open B S W HN HC. destruct ends; [tauto|]. rewrite (proj2 (sinks_ok g W) x), HN. unfold edge_of.
  split; intros [H1 H2]; (split; [auto|]); intros p; [rewrite HC|rewrite <- HC]; auto.
Qed.

(** Every list of such walks is generated, for some outcomes of the random
    choices; the traces are numbered from 0. *)
Lemma C72_every_walk : forall {V} g N C starts ends (ws : list (list string)), built g -> shows g N C ->
  let is_start x := match starts with Some s => In x s | None => N x /\ forall p, edge_of C p x -> p = x end in
  let is_end x := match ends with Some s => In x s | None => N x /\ forall s, edge_of C x s -> s = x end in
  ws <> [] ->
  Forall (fun t => exists a b w, is_start a /\ is_end b /\ t = w ++ [b] /\ path (edge_of C) a b t /\
      Forall N t /\ forall y, In y w -> ~ is_end y) ws ->
  exists fuel choice (l : log string V nat), (forall i s, s <> [] -> In (choice i s) s) /\
    generate_log fuel choice g (length ws) starts ends = Ok l /\
    map (fun t => map activity (events t)) l = ws /\ map tid l = seq 0 (length ws).
Proof.
  intros V g N C starts ends ws B S is_start is_end Hne Hws.
  assert (Hs := start_list g N C starts B S). assert (He := end_list g N C ends B S).
  set (choice := fun i (s : list string) => match nth_error (concat ws) i with
      | Some x => if mem x s then x else hd ""%string s | None => hd ""%string s end).
  assert (Hch : forall i s, s <> [] -> In (choice i s) s).
  { intros i s Hn. assert (In (hd ""%string s) s) by (destruct s; [contradiction|now left]).
    unfold choice. destruct (nth_error (concat ws) i); auto. destruct (mem s0 s) eqn:Em; auto. now apply mem_In. }
  exists (length (concat ws)), choice.
  set (s := match starts with Some s => s | None => get_source_activities g end) in *.
  set (e := match ends with Some e => e | None => get_sink_activities g end) in *.
  assert (Hw : Forall (a_walk N C s e) ws).
  { eapply Forall_impl; [|exact Hws]. intros t (a & b & w & Ha & Hb & Et & Hp & Hn & Hl). exists a, b, w.
    split; [now apply Hs|]. split; [now apply He|]. split; [auto|]. split; [auto|]. split; [auto|].
    intros y Hy Hn'. apply (Hl y Hy). now apply He. }
  assert (Ew : walks (length (concat ws)) choice g 0 s e (length ws) = Ok ws).
  { apply (walks_spelled g N C S choice s e); auto.
    - intros k x q Hk Hx. unfold choice. cbn [Nat.add]. rewrite Hk, (proj2 (mem_In x q) Hx). auto.
    - clear. induction ws as [|u ws IH]; intros w []; cbn [concat]; rewrite app_length; [subst; lia|]. apply IH in H. lia. }
  destruct (create_from_simple_ok (V:=V) ws) as (l & El & Ha & Ht & _).
  { eapply Forall_impl; [|exact Hw]. intros w (a & b & u & _ & _ & _ & _ & -> & _). now destruct u. }
  exists l. split; [auto|]. split; [|split; [exact Ha|]].
  - unfold generate_log. fold s e. destruct ws as [|w0 ws]; [contradiction|]. inversion Hw as [|? ? (a & b & u & Ia & Ib & _) _]; subst.
    destruct s as [|s0 s']; [destruct Ia|]. destruct e as [|e0 e']; [destruct Ib|]. rewrite Ew. exact El.
  - exact Ht.
Qed.
(** Generating fails only if there are no start or end activities, if a start
    activity is unknown, or if a walk runs into a dead end before it has seen an
    end activity (or it goes on for ever). *)
Lemma C72_failures : forall {V} fuel choice g N C nr starts ends, 
  (forall i s, s <> [] -> In (choice i s) s) -> built g -> shows g N C ->
  let is_start x := match starts with Some s => In x s | None => N x /\ forall p, edge_of C p x -> p = x end in
  let is_end x := match ends with Some s => In x s | None => N x /\ forall s, edge_of C x s -> s = x end in
  (((forall x, ~ is_start x) \/ (forall x, ~ is_end x)) -> generate_log (V := V) fuel choice g nr starts ends = Err ValueError) /\
  forall e, generate_log (V := V) fuel choice g nr starts ends = Err e -> e <> OutOfFuel ->
    (e = ValueError /\ ((forall x, ~ is_start x) \/ (forall x, ~ is_end x))) \/
    (e = KeyError /\ exists a, is_start a /\ ~ N a) \/
    (e = IndexError /\ exists a b w, is_start a /\ path (edge_of C) a b w /\ Forall N w /\ (forall y, In y w -> ~ is_end y) /\ forall y, ~ edge_of C b y).
Proof.
  intros V fuel choice g N C nr starts ends Hch B S is_start is_end.
  assert (Hs := start_list g N C starts B S). assert (He := end_list g N C ends B S). unfold generate_log.
  set (s := match starts with Some s => s | None => get_source_activities g end) in *.
  set (e := match ends with Some e => e | None => get_sink_activities g end) in *.
  split.
  - intros [Hn|Hn].
    + destruct s as [|x s]; [auto|]. exfalso. apply (Hn x). apply Hs. now left.
    + destruct s; [auto|]. destruct e as [|x e]; [auto|]. exfalso. apply (Hn x). apply He. now left.
  - intros er Hg Hf. destruct s as [|s0 s'] eqn:Es.
    { injection Hg as <-. left. split; [auto|]. left. intros x Hx. apply Hs in Hx. destruct Hx. }
    destruct e as [|e0 e'] eqn:Ee.
    { injection Hg as <-. left. split; [auto|]. right. intros x Hx. apply He in Hx. destruct Hx. }
    destruct (walks fuel choice g 0 (s0 :: s') (e0 :: e') nr) as [ws|e1] eqn:Ew; cbn [bind] in Hg.
    + open B S W HN HC. apply (walks_ok choice Hch g W) in Ew as [Hl Hw]. destruct (create_from_simple_ok (V:=V) ws) as (l & El & _).
      { eapply Forall_impl; [|exact Hw]. intros w (a & b & u & _ & _ & _ & _ & -> & _). now destruct u. }
      congruence.
    + injection Hg as <-. apply (walks_fail g N C S choice Hch) in Ew; [|discriminate].
      destruct Ew as [->|[[-> (a & Ha & Hn)]|[-> (a & b & w & Ha & Hp & Hn & Hl & Hb)]]]; [contradiction| |].
      * right. left. split; [auto|]. exists a. split; [now apply Hs|auto].
      * right. right. split; [auto|]. exists a, b, w. split; [now apply Hs|]. split; [auto|]. split; [auto|]. split; [|auto].
        intros y Hy Hn'. apply (Hl y Hy). now apply He.
Qed.
