(** Local filter, renaming, allowed start activities, random walks *)
From Coq Require Import Permutation QArith.
From Verif.Model Require Import Base Sort EventLog Dfg.
From Verif.Lib Require Import ListLib DictLib.
From Verif.Spec Require Import Lists Logs Graphs EventLogSpec DfgSpec.
From Verif.Proofs Require Import Selection EventLogA DfgA DfgB DfgC DfgD DfgE.
Open Scope nat_scope.

(** *** filter by local frequency *)
Lemma add_node_has a g : has g a -> add_node a g = g.
Proof. intros Ha. unfold add_node. apply dict_has_In in Ha. now rewrite Ha. Qed.
Lemma add_count_nodes a b c g g' : has g a -> has g b -> add_count a b c g = Ok g' -> nodes g' = nodes g.
Proof.
  intros Ha Hb. unfold add_count. rewrite (add_node_has a g Ha), (add_node_has b g Hb).
  apply has_get in Ha as [s Es]. apply has_get in Hb as [t Et].
  destruct (dict_has (a, b) (edges g)) eqn:E; cbn [bind].
  - unfold dict_has in E. destruct (dict_get (a, b) (edges g)); [|discriminate]. cbn. intros [= <-]. auto.
  - unfold node_id. rewrite Es, Et. cbn [of_option bind].
    unfold set_in, set_out, set_nh, set_eh. cbn [edges nodes]. rewrite dict_get_set, eqb_refl.
    cbn [of_option bind]. intros [= <-]. auto.
Qed.
Lemma NoDup_flat_map {X Y} (f : X -> list Y) l : NoDup l -> (forall x, In x l -> NoDup (f x)) ->
  (forall x x' y, In x l -> In x' l -> In y (f x) -> In y (f x') -> x = x') -> NoDup (flat_map f l).
Proof.
  induction l as [|x l IH]; intros Hd Hf Hu; cbn [flat_map]; [constructor|].
  inversion Hd as [|? ? Hx Hd']; subst. apply NoDup_app_disjoint.
  - apply Hf. now left.
  - apply IH; auto. { intros; apply Hf; now right. } intros; eapply Hu; eauto; now right.
  - intros y Hy Hin. apply in_flat_map in Hin as (x' & Hx' & Hy'). apply Hx.
    rewrite (Hu x x' y); auto; [now left|now right].
Qed.
Lemma NoDup_map_inj {X Y} (f : X -> Y) l : NoDup l -> (forall x y, In x l -> In y l -> f x = f y -> x = y) -> NoDup (map f l).
Proof.
  induction l as [|x l IH]; intros Hd Hf; cbn; constructor; inversion Hd as [|? ? Hx Hd']; subst.
  - intros Hin. apply in_map_iff in Hin as (y & E & Hy). apply Hx. rewrite (Hf x y); auto; [now left|now right].
  - apply IH; auto. intros; apply Hf; auto; now right.
Qed.

Section Local.
  Variable g : graph.
  Hypothesis W : wf g.
  Definition outs a : list nat := match dict_get a (nodes g) with Some n => n_out (nh g n) | None => [] end.
  Definition total (es : list nat) : Z := fold_left (fun c e => c + e_count (eh g e))%Z es 0%Z.
  Lemma outs_In a e : In e (outs a) <-> exists b, dict_get (a, b) (edges g) = Some e.
  Proof.
    unfold outs. destruct (dict_get a (nodes g)) as [n|] eqn:E.
    - apply (w_out _ W a n E).
    - split; [contradiction|]. intros [b Hb]. apply (w_e _ W) in Hb as (_ & H1 & _). congruence.
  Qed.
  Lemma outs_NoDup a : NoDup (outs a).
  Proof. unfold outs. destruct (dict_get a (nodes g)) as [n|] eqn:E; [apply (w_out _ W a n E)|constructor]. Qed.
  Lemma total_ok a : out_total (cnt g) a (total (outs a)).
  Proof.
    exists (map (end_act g) (outs a)). split; [|split].
    - apply NoDup_map_inj; [apply outs_NoDup|]. intros e f He Hf E.
      apply outs_In in He as [b Hb]. apply outs_In in Hf as [b' Hb'].
      destruct (acts_of g W _ _ _ Hb) as [_ E1]. destruct (acts_of g W _ _ _ Hb') as [_ E2]. congruence.
    - intros b. rewrite in_map_iff. unfold edge_of. rewrite cnt_None. split.
      + intros (e & <- & He). apply outs_In in He as [b Hb]. destruct (acts_of g W _ _ _ Hb) as [_ ->]. congruence.
      + intros Hn. destruct (dict_get (a, b) (edges g)) as [e|] eqn:E; [|congruence]. exists e.
        split; [apply (acts_of g W _ _ _ E)|]. apply outs_In. eauto.
    - unfold total.
      assert (Hs : forall es z, (forall e, In e es -> In e (outs a)) ->
         fold_left (fun c e => c + e_count (eh g e))%Z es z =
         (z + fold_right Z.add 0 (map (fun b => match cnt g a b with Some c => c | None => 0 end) (map (end_act g) es)))%Z).
      { induction es as [|e es IH]; intros z He; cbn [fold_left map fold_right]; [lia|].
        rewrite IH by (intros; apply He; now right).
        assert (Ee : In e (outs a)) by (apply He; now left). apply outs_In in Ee as [b Hb].
        destruct (acts_of g W _ _ _ Hb) as [_ ->]. unfold cnt at 2. rewrite Hb. cbn [option_map]. lia. }
      rewrite Hs by auto. lia.
  Qed.
  Lemma max_edge_ok es : (forall e, In e es -> 0 < e_count (eh g e))%Z -> es <> [] ->
    exists e, max_edge g es = Some e /\ In e es /\ forall f, In f es -> (e_count (eh g f) <= e_count (eh g e))%Z.
  Proof.
    unfold max_edge.
    assert (G : forall es m, (forall e, In e es -> 0 < e_count (eh g e))%Z ->
      match fold_left (fun m e => let c := match m with Some x => e_count (eh g x) | None => 0%Z end in
               if (c <? e_count (eh g e))%Z then Some e else m) es m with
      | Some e => (In e es \/ m = Some e) /\ (forall f, In f es \/ m = Some f -> (e_count (eh g f) <= e_count (eh g e))%Z)
      | None => es = [] /\ m = None
      end).
    { induction es0 as [|e es0 IH]; intros m Hp; cbn [fold_left].
      - destruct m as [x|]; [|auto]. split; [auto|]. intros f [[]|[= <-]]. lia.
      - set (c := match m with Some x => e_count (eh g x) | None => 0%Z end).
        pose proof (Hp e (or_introl eq_refl)) as Pe.
        cbv zeta. destruct (Z.ltb_spec c (e_count (eh g e))) as [L|L].
        + specialize (IH (Some e) (fun f Hf => Hp f (or_intror Hf))).
          destruct (fold_left _ es0 (Some e)) as [r|]; [|destruct IH; discriminate].
          destruct IH as [I1 I2]. split.
          * left. destruct I1 as [I1|[= <-]]; [now right|now left].
          * intros f [[<-|Hf]|Hf]; [apply I2; auto|apply I2; auto|].
            pose proof (I2 e (or_intror eq_refl)). subst m. unfold c in L. lia.
        + specialize (IH m (fun f Hf => Hp f (or_intror Hf))).
          destruct (fold_left _ es0 m) as [r|].
          * destruct IH as [I1 I2]. split; [destruct I1; auto; left; now right|].
            intros f [[<-|Hf]|Hf]; [|apply I2; auto|apply I2; auto].
            destruct m as [x|]; [pose proof (I2 x (or_intror eq_refl)); unfold c in L; lia|unfold c in L; lia].
          * destruct IH as [_ ->]. unfold c in L. lia. }
    intros Hp Hn. specialize (G es None Hp). destruct (fold_left _ es None) as [e|].
    - destruct G as [[G1|G1] G2]; [|discriminate]. exists e. split; [auto|]. split; [auto|]. intros; apply G2; auto.
    - destruct G; contradiction.
  Qed.

  (** loop over the nodes: edges with a sufficient share *)
  Variable q : Q.
  Definition frequentb (es : list nat) e : bool :=
    (0 <? total es)%Z && Qle_bool q (inject_Z (e_count (eh g e)) / inject_Z (total es))%Q.
  Definition tri e := (start_act g e, end_act g e, e_count (eh g e)).
  Lemma loop2 ns f : foldM (fun f n =>
    let total := fold_left (fun c e => c + e_count (eh g e))%Z (n_out (nh g n)) 0%Z in
    foldM (fun f e =>
      if (0 <? total)%Z &&
         Qle_bool q (inject_Z (e_count (eh g e)) / inject_Z total)%Q
      then add_count (start_act g e) (end_act g e) (e_count (eh g e)) f else Ok f)
      (n_out (nh g n)) f) ns f
    = adds (flat_map (fun n => map tri (filter (frequentb (n_out (nh g n))) (n_out (nh g n)))) ns) f.
  Proof.
    revert f. induction ns as [|n ns IH]; intros f; cbn [foldM flat_map]; [auto|].
    cbv zeta. pose proof (foldM_if_adds (frequentb (n_out (nh g n))) tri (n_out (nh g n)) f) as E.
    rewrite adds_app. rewrite <- E. unfold frequentb at 1, tri at 1 2 3, total. cbn [fst snd].
    destruct (foldM _ (n_out (nh g n)) f); cbn [bind]; [apply IH|auto].
  Qed.
  Definition chosen := flat_map (fun n => map tri (filter (frequentb (n_out (nh g n))) (n_out (nh g n)))) (values (nodes g)).
  Lemma chosen_In x y c : In (x, y, c) chosen <->
    exists e, dict_get (x, y) (edges g) = Some e /\ c = e_count (eh g e) /\ frequentb (outs x) e = true.
  Proof.
    unfold chosen. rewrite in_flat_map. split.
    - intros (n & Hn & Hin). apply in_map_iff in Hin as (e & E & He). apply filter_In in He as [He Hf].
      apply in_map_iff in Hn as ([a m] & Em & Ha). cbn in Em. subst m. apply dict_In_get in Ha; [|apply W].
      pose proof (proj1 (proj2 (w_out _ W a n Ha) e) He) as [b Hb].
      destruct (acts_of g W _ _ _ Hb) as [E1 E2]. unfold tri in E. injection E as <- <- <-.
      exists e. rewrite E1, E2. split; [auto|]. split; [auto|]. unfold outs. now rewrite Ha.
    - intros (e & He & -> & Hf). destruct (w_e _ W _ _ _ He) as (_ & Hx & _).
      exists (e_start (eh g e)). split; [apply dict_get_In in Hx; apply (in_map snd) in Hx; auto|].
      unfold outs in Hf. rewrite Hx in Hf. apply in_map_iff. exists e. split.
      + unfold tri. destruct (acts_of g W _ _ _ He) as [-> ->]. auto.
      + apply filter_In. split; [|auto]. apply (w_out _ W x _ Hx). eauto.
  Qed.
  Lemma chosen_NoDup : NoDup (map fst chosen).
  Proof.
    assert (Hv : NoDup (values (nodes g))).
    { apply NoDup_map_inj; [apply (NoDup_map_inv fst), W|].
      intros [a n] [b m] Ha Hb. cbn. intros <-. apply dict_In_get in Ha, Hb; try apply W.
      now rewrite (node_unique g W _ _ _ Ha Hb). }
    assert (Hnode : forall n, In n (values (nodes g)) -> exists a, dict_get a (nodes g) = Some n).
    { intros n Hn. apply in_map_iff in Hn as ([a m] & Em & Ha). cbn in Em. subst m. apply dict_In_get in Ha; [|apply W]. eauto. }
    assert (E : map fst chosen = map (fun e => (start_act g e, end_act g e))
        (flat_map (fun n => filter (frequentb (n_out (nh g n))) (n_out (nh g n))) (values (nodes g)))).
    { unfold chosen. generalize (values (nodes g)). induction l as [|n l IH]; cbn [flat_map]; [auto|].
      rewrite !map_app, IH, map_map. auto. }
    rewrite E. apply NoDup_map_inj.
    - apply NoDup_flat_map; [auto| |].
      + intros n Hn. apply NoDup_filter. destruct (Hnode n Hn) as [a Ea]. apply (w_out _ W a n Ea).
      + intros n n' e Hn Hn' He He'. apply filter_In in He as [He _]. apply filter_In in He' as [He' _].
        destruct (Hnode n Hn) as [a Ea]. destruct (Hnode n' Hn') as [a' Ea'].
        apply (w_out _ W a n Ea) in He as [b Hb]. apply (w_out _ W a' n' Ea') in He' as [b' Hb'].
        destruct (key_unique g W _ _ _ _ _ Hb Hb'). congruence.
    - assert (He : forall e, In e (flat_map (fun n => filter (frequentb (n_out (nh g n))) (n_out (nh g n))) (values (nodes g))) ->
         dict_get (start_act g e, end_act g e) (edges g) = Some e).
      { intros e He. apply in_flat_map in He as (n & Hn & He). apply filter_In in He as [He _].
        destruct (Hnode n Hn) as [a Ea]. apply (w_out _ W a n Ea) in He. destruct He as [b Hb].
        destruct (acts_of g W _ _ _ Hb) as [-> ->]. auto. }
      intros e f H1 H2 Ef. apply He in H1, H2. congruence.
  Qed.

  (** loop over the nodes without kept edges *)
  Definition extra x : option (string * Z) :=
    option_map (fun e => (end_act g e, e_count (eh g e))) (max_edge g (outs x)).
  Lemma max_edge_In es e : max_edge g es = Some e -> In e es.
  Proof.
    unfold max_edge.
    assert (G : forall m, fold_left (fun m e => let c := match m with Some x => e_count (eh g x) | None => 0%Z end in
               if (c <? e_count (eh g e))%Z then Some e else m) es m = Some e -> In e es \/ m = Some e).
    { induction es as [|x es IH]; intros m; cbn [fold_left]; [auto|].
      cbv zeta. intros E. apply IH in E as [E|E]; [left; now right|].
      destruct (_ <? _)%Z; [injection E as ->; left; now left|auto]. }
    intros E. apply G in E as [E|E]; [auto|discriminate].
  Qed.
  Lemma extra_edge x b c : extra x = Some (b, c) -> cnt g x b = Some c.
  Proof.
    unfold extra. destruct (max_edge g (outs x)) as [e|] eqn:E; [|discriminate]. cbn. intros [= <- <-].
    apply max_edge_In, outs_In in E as [b Hb]. destruct (acts_of g W _ _ _ Hb) as [_ ->]. unfold cnt. now rewrite Hb.
  Qed.
  Definition body3 := fun (f : graph) (n : nat) =>
    match n_out (nh f n) with
    | [] =>
        do u <- node_id g (n_act (nh f n)) ;
        match n_out (nh g u) with
        | [] => Ok f
        | es =>
          do e <- of_option AttributeError (max_edge g es) ;
          add_count (start_act g e) (end_act g e) (e_count (eh g e)) f
        end
    | _ => Ok f
    end.
  Hypothesis Hpos : forall a b c, cnt g a b = Some c -> (0 < c)%Z.
  Lemma loop3 (L : list (string * nat)) : forall f, wf f -> (forall x, has f x <-> has g x) -> NoDup (map fst L) ->
    (forall a n, In (a, n) L -> dict_get a (nodes f) = Some n) ->
    exists f', foldM body3 (map snd L) f = Ok f' /\ wf f' /\ nodes f' = nodes f /\
      (forall x y, (~ In x (map fst L) \/ exists z, cnt f x z <> None) -> cnt f' x y = cnt f x y) /\
      (forall x, In x (map fst L) -> (forall z, cnt f x z = None) ->
         forall y, cnt f' x y = match extra x with Some (b, c) => if eqb y b then Some c else None | None => None end).
  Proof.
    induction L as [|[a n] L IH]; intros f Wf Hh Hd Hn; cbn [map foldM fst snd] in *.
    - exists f. split; [auto|]. split; [auto|]. split; [auto|]. split; [auto|]. intros x [].
    - inversion Hd as [|? ? Ha Hd']; subst. assert (En : dict_get a (nodes f) = Some n) by (apply Hn; now left).
      assert (Hstep : exists f1, body3 f n = Ok f1 /\ wf f1 /\ nodes f1 = nodes f /\
        (forall x y, x <> a \/ (exists z, cnt f a z <> None) -> cnt f1 x y = cnt f x y) /\
        ((forall z, cnt f a z = None) -> forall y, cnt f1 a y =
           match extra a with Some (b, c) => if eqb y b then Some c else None | None => None end)).
      { unfold body3. destruct (n_out (nh f n)) as [|e0 r0] eqn:Eo.
        - rewrite (proj2 (w_n _ Wf _ _ En)).
          assert (Hga : has g a) by (apply Hh, has_get; eauto). apply has_get in Hga as [u Eu].
          unfold node_id. rewrite Eu. cbn [of_option bind]. unfold extra, outs. rewrite Eu.
          assert (Hz : forall z, cnt f a z = None).
          { intros z. apply cnt_None. destruct (dict_get (a, z) (edges f)) as [e|] eqn:E; [|auto]. exfalso.
            assert (Hin : In e (n_out (nh f n))) by (apply (w_out _ Wf a n En); eauto). rewrite Eo in Hin. auto. }
          destruct (n_out (nh g u)) as [|e1 r1] eqn:Eg.
          + exists f. split; [auto|]. split; [auto|]. split; [auto|]. split; [auto|]. intros _ y. now rewrite Hz.
          + destruct (max_edge_ok (e1 :: r1)) as (e & Em & He & _); [|discriminate|].
            { intros e He. rewrite <- Eg in He. apply (w_out _ W a u Eu) in He as [b Hb].
              apply (Hpos a b). unfold cnt. now rewrite Hb. }
            rewrite Em. cbn [of_option bind option_map].
            assert (He' := He). rewrite <- Eg in He'. apply (w_out _ W a u Eu) in He' as [b Hb].
            destruct (acts_of g W _ _ _ Hb) as [Es Et]. rewrite Es, Et.
            destruct (add_count_ok a b (e_count (eh g e)) f Wf) as (f1 & E1 & W1 & H1 & C1).
            destruct (edge_has g W a b) as [Ha' Hb']; [unfold cnt; rewrite Hb; discriminate|].
            exists f1. split; [auto|]. split; [auto|].
            split; [eapply add_count_nodes; [| |exact E1]; apply Hh; auto|]. split.
            * intros x y [Hx|[z Hx]]; [|now rewrite Hz in Hx]. rewrite C1.
              destruct (eqb_ok (x, y) (a, b)) as [E|E]; [injection E; congruence|auto].
            * intros _ y. rewrite C1, !Hz. destruct (eqb_ok (a, y) (a, b)) as [E|E].
              -- injection E as ->. now rewrite eqb_refl.
              -- rewrite (proj2 (eqb_neq y b)) by congruence. auto.
        - exists f. split; [auto|]. split; [auto|]. split; [auto|]. split; [auto|].
          intros Hz. exfalso.
          assert (Hin : In e0 (n_out (nh f n))) by (rewrite Eo; now left).
          apply (w_out _ Wf a n En) in Hin as [b Hb]. specialize (Hz b). apply cnt_None in Hz. congruence. }
      destruct Hstep as (f1 & E1 & W1 & N1 & C1 & D1). rewrite E1. cbn [bind].
      destruct (IH f1 W1) as (f2 & E2 & W2 & N2 & C2 & D2); auto.
      { intros x. unfold has. rewrite N1. apply Hh. }
      { intros b m Hb. rewrite N1. apply Hn. now right. }
      exists f2. split; [auto|]. split; [auto|]. split; [congruence|]. split.
      + intros x y Hx. destruct (eqb_ok x a) as [->|Hxa].
        * rewrite C2 by auto. destruct Hx as [Hx|Hx]; [exfalso; apply Hx; now left|]. apply C1. auto.
        * rewrite C2, C1; auto. destruct Hx as [Hx|[z Hx]]; [left; intros Hin; apply Hx; now right|].
          right. exists z. rewrite C1; auto.
      + intros x Hx Hz y. destruct (eqb_ok x a) as [->|Hxa].
        * rewrite C2 by auto. apply D1. auto.
        * apply D2; [destruct Hx; [congruence|auto]|]. intros z. rewrite C1; auto.
  Qed.
End Local.

(** an edge is frequent if it has at least the share [q] of what leaves its
    start *)
Definition frequent (C : string -> string -> option Z) (q : Q) a b : Prop :=
  exists c n, C a b = Some c /\ out_total C a n /\ (0 < n)%Z /\ (q <= inject_Z c / inject_Z n)%Q.
Lemma out_total_unique {X} (C : X -> X -> option Z) a n m : out_total C a n -> out_total C a m -> n = m.
Proof.
  intros (l & Hl & Il & ->) (l' & Hl' & Il' & ->).
  assert (Hp : Permutation l l') by (apply NoDup_Permutation; auto; intros; rewrite Il, Il'; tauto).
  clear -Hp. induction Hp; cbn; lia.
Qed.
Lemma frequentb_ok g q a b e : wf g -> dict_get (a, b) (edges g) = Some e ->
  frequentb g q (outs g a) e = true <-> frequent (cnt g) q a b.
Proof.
  intros W E. unfold frequentb, frequent. rewrite andb_true_iff, Z.ltb_lt, Qle_bool_iff. split.
  - intros [H1 H2]. exists (e_count (eh g e)), (total g (outs g a)). split; [unfold cnt; now rewrite E|].
    split; [now apply total_ok|auto].
  - intros (c & n & Ec & Ht & Hn & Hq). unfold cnt in Ec. rewrite E in Ec. cbn in Ec. injection Ec as <-.
    rewrite (out_total_unique _ _ _ _ (total_ok g W a) Ht). auto.
Qed.
Lemma frequent_dec g q a b : wf g -> {frequent (cnt g) q a b} + {~ frequent (cnt g) q a b}.
Proof.
  intros W. destruct (dict_get (a, b) (edges g)) as [e|] eqn:E.
  - destruct (frequentb g q (outs g a) e) eqn:F.
    + left. now apply (frequentb_ok g q a b e W E).
    + right. intros Hf. apply (frequentb_ok g q a b e W E) in Hf. congruence.
  - right. intros (c & n & Ec & _). apply cnt_None in E. congruence.
Qed.
Lemma filter_local_ok q keep g : wf g -> (keep = true -> forall a b c, cnt g a b = Some c -> (0 < c)%Z) ->
  exists g', filter_local q keep g = Ok g' /\ wf g' /\ (forall a, has g' a <-> has g a) /\
    (forall a b c, cnt g' a b = Some c -> cnt g a b = Some c) /\
    (forall a b, frequent (cnt g) q a b -> cnt g' a b = cnt g a b) /\
    (forall a b, keep = false \/ (exists b', frequent (cnt g) q a b') -> cnt g' a b <> None -> frequent (cnt g) q a b) /\
    (forall a, keep = true -> (forall b, ~ frequent (cnt g) q a b) -> (exists b, cnt g a b <> None) ->
       exists b c, cnt g' a b = Some c /\ (forall b' c', cnt g a b' = Some c' -> (c' <= c)%Z) /\
         forall b', cnt g' a b' <> None -> b' = b).
Proof.
  intros W Hpos. unfold filter_local. destruct (copy_nodes_ok g W) as (f0 & E0 & W0 & H0 & C0).
  rewrite E0. cbn [bind]. rewrite (loop2 g q). fold (chosen g q).
  destruct (adds_fresh (chosen g q) f0 W0 (chosen_NoDup g W q)) as (f1 & E1 & W1 & H1 & C1 & D1).
  rewrite E1. cbn [bind].
  assert (Hf1 : forall a b c, cnt f1 a b = Some c <-> cnt g a b = Some c /\ frequent (cnt g) q a b).
  { intros a b c. split.
    - intros Ec. destruct (dict_get (a, b) (edges g)) as [e|] eqn:E.
      + destruct (frequentb g q (outs g a) e) eqn:F.
        * assert (Hin : In (a, b, e_count (eh g e)) (chosen g q)) by (apply (chosen_In g W); eauto).
          rewrite (C1 _ _ _ Hin), C0 in Ec. injection Ec as <-. split; [unfold cnt; now rewrite E|].
          now apply (frequentb_ok g q a b e W E).
        * rewrite D1, C0 in Ec; [discriminate|]. intros c' Hin. apply (chosen_In g W) in Hin as (e' & E' & _ & F').
          congruence.
      + rewrite D1, C0 in Ec; [discriminate|]. intros c' Hin. apply (chosen_In g W) in Hin as (e' & E' & _). congruence.
    - intros [Ec Hf]. assert (Ee := Ec). unfold cnt in Ee. destruct (dict_get (a, b) (edges g)) as [e|] eqn:E; [|discriminate].
      cbn in Ee. injection Ee as <-. apply (frequentb_ok g q a b e W E) in Hf.
      assert (Hin : In (a, b, e_count (eh g e)) (chosen g q)) by (apply (chosen_In g W); eauto).
      now rewrite (C1 _ _ _ Hin), C0. }
  assert (Hh1 : forall x, has f1 x <-> has g x).
  { intros x. rewrite H1, H0. split; [|auto]. intros [|(a & b & c & Hin & Hx)]; [auto|].
    apply (chosen_In g W) in Hin as (e & E & _). destruct (edge_has g W a b) as [Ha Hb]; [unfold cnt; rewrite E; discriminate|].
    destruct Hx; subst; auto. }
  destruct keep.
  - match goal with |- context [foldM ?f (values (nodes f1)) f1] => change f with (body3 g) end.
    change (values (nodes f1)) with (map snd (nodes f1)).
    destruct (loop3 g W (Hpos eq_refl) (nodes f1) f1 W1 Hh1) as (g' & E' & W' & N' & C' & D').
    { apply W1. } { intros a n Hin. apply dict_In_get; auto. apply W1. }
    exists g'. split; [auto|]. split; [auto|]. split; [intros a; unfold has; rewrite N'; apply Hh1|].
    assert (Hcase : forall a, (exists b, cnt f1 a b <> None) \/ forall b, cnt f1 a b = None).
    { intros a. destruct (outs f1 a) as [|e r] eqn:Eo.
      - right. intros b. apply cnt_None. destruct (dict_get (a, b) (edges f1)) as [e|] eqn:E; [|auto].
        assert (Hin : In e (outs f1 a)) by (apply outs_In; eauto). rewrite Eo in Hin. contradiction.
      - left. assert (Hin : In e (outs f1 a)) by (rewrite Eo; now left). apply outs_In in Hin as [b Hb]; [|auto].
        exists b. rewrite cnt_None. congruence. }
    assert (Hnf : forall a b, frequent (cnt g) q a b -> exists b, cnt f1 a b <> None).
    { intros a b Hf. exists b. destruct Hf as (c & n & Ec & Hr). assert (E : cnt f1 a b = Some c).
      { apply Hf1. split; [auto|]. exists c, n. auto. } congruence. }
    split; [|split; [|split]].
    + intros a b c Ec. destruct (Hcase a) as [Ha|Ha].
      * rewrite C' in Ec by auto. now apply Hf1 in Ec.
      * destruct (has_dec f1 a) as [Hk|Hk].
        -- rewrite (D' a Hk Ha) in Ec. destruct (extra g a) as [[b' c']|] eqn:Ex; [|discriminate].
           destruct (eqb_ok b b') as [->|]; [|discriminate]. injection Ec as <-. now apply extra_edge.
        -- rewrite C', Ha in Ec by auto. discriminate.
    + intros a b Hf. rewrite C' by (right; eapply Hnf; eauto). destruct (cnt g a b) as [c|] eqn:Ec.
      * now apply Hf1. * destruct Hf as (c & n & E & _). congruence.
    + intros a b [Hk|(b' & Hb')] Hn; [discriminate|]. rewrite C' in Hn by (right; eapply Hnf; eauto).
      destruct (cnt f1 a b) as [c|] eqn:Ec; [|congruence]. now apply Hf1 in Ec.
    + intros a _ Hno (b & Hb).
      assert (Ha : forall b, cnt f1 a b = None).
      { intros y. destruct (cnt f1 a y) as [c|] eqn:Ec; [|auto]. apply Hf1 in Ec as [_ Hf]. now apply Hno in Hf. }
      assert (Hk : has f1 a) by (apply Hh1; apply (edge_has g W a b Hb)).
      rewrite cnt_None in Hb. destruct (dict_get (a, b) (edges g)) as [e|] eqn:Ee; [|congruence].
      destruct (max_edge_ok g (outs g a)) as (m & Em & Him & Hmax).
      { intros f Hf. apply outs_In in Hf as [y Hy]; [|auto]. apply (Hpos eq_refl a y). unfold cnt. now rewrite Hy. }
      { intros Eo. assert (Hin : In e (outs g a)) by (apply outs_In; eauto). rewrite Eo in Hin. contradiction. }
      assert (Ex : extra g a = Some (end_act g m, e_count (eh g m))) by (unfold extra; now rewrite Em).
      exists (end_act g m), (e_count (eh g m)). split.
      * rewrite (D' a Hk Ha), Ex, eqb_refl. auto.
      * split.
        -- intros b' c' Ec. unfold cnt in Ec. destruct (dict_get (a, b') (edges g)) as [e'|] eqn:E2; [|discriminate].
           cbn in Ec. injection Ec as <-. apply Hmax. apply outs_In; eauto.
        -- intros b'. rewrite (D' a Hk Ha), Ex. destruct (eqb_ok b' (end_act g m)); congruence.
  - assert (E3 : forall ns, foldM (fun f n => match n_out (nh f n) with [] => Ok f | _ => Ok f end) ns f1 = Ok f1).
    { induction ns as [|n ns IH]; cbn [foldM]; [auto|]. destruct (n_out (nh f1 n)); cbn [bind]; auto. }
    rewrite E3. exists f1. split; [auto|]. split; [auto|]. split; [auto|].
    split; [intros a b c Ec; now apply Hf1 in Ec|]. split; [|split].
    + intros a b Hf. destruct (cnt g a b) as [c|] eqn:Ec; [now apply Hf1|]. destruct Hf as (c & n & E & _). congruence.
    + intros a b _ Hn. destruct (cnt f1 a b) as [c|] eqn:Ec; [|congruence]. now apply Hf1 in Ec.
    + discriminate.
Qed.
