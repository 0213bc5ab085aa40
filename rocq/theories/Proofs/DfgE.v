(** Filters, selection, sources and sinks, eventually-follows graphs *)
From Coq Require Import Permutation QArith.
From Verif.Model Require Import Base Sort EventLog Dfg.
From Verif.Lib Require Import ListLib DictLib.
From Verif.Spec Require Import Lists Logs Graphs EventLogSpec DfgSpec.
From Verif.Proofs Require Import Selection EventLogA DfgA DfgB DfgC DfgD.
Open Scope nat_scope.

Lemma asc_nth l i j x y : ascending l -> nth_error l i = Some x -> nth_error l j = Some y -> i < j -> x < y.
Proof.
  revert i j. induction l as [|z l IH]; intros i j Ha Hi Hj Hij; [now destruct i|].
  apply ascending_cons_iff in Ha as [Hz Ha]. destruct j as [|j]; [lia|]. cbn in Hj. destruct i as [|i]; cbn in Hi.
  - injection Hi as <-. apply Hz. eapply nth_error_In; eauto.
  - apply (IH i j); auto. lia.
Qed.
Lemma sel_nth {X} (l r : list X) P : selection l r P -> exists js, ascending js /\
  (forall i, nth_error r i = match nth_error js i with Some j => nth_error l j | None => None end) /\
  forall j, In j js <-> exists x, nth_error l j = Some x /\ P j x.
Proof.
  intros (js & Ha & E & Hj). exists js. split; [auto|]. split; [|auto]. intros i.
  assert (En : nth_error (map Some r) i = nth_error (map (nth_error l) js) i) by now rewrite E.
  rewrite !nth_error_map in En. destruct (nth_error r i), (nth_error js i); cbn in En; congruence.
Qed.

(** *** eventually-follows graph *)
Section Logs.
  Context {V I : Type}.
  Notation event := (event string V).
  Notation trace := (trace string V I).
  Notation log := (log string V I).
  (** the first [a] stands before the first [b] *)
  Definition first_before (es : list event) (a b : string) : Prop :=
    exists i j, i < j /\ act es i = Some a /\ act es j = Some b /\
      (forall k, k < i -> act es k <> Some a) /\ (forall k, k < j -> act es k <> Some b).
  Definition firsts (es es' : list event) : Prop :=
    selection es es' (fun j e => forall i e', i < j -> nth_error es i = Some e' -> activity e' <> activity e).

  Lemma firsts_act es es' : firsts es es' ->
    exists js, ascending js /\
     (forall i a, act es' i = Some a <-> exists j, nth_error js i = Some j /\ act es j = Some a) /\
     (forall j a, act es j = Some a -> (forall k, k < j -> act es k <> Some a) <-> In j js).
  Proof.
    intros Hs. apply sel_nth in Hs as (js & Ha & Hn & Hj). exists js. split; [auto|]. split.
    - intros i a. unfold act. rewrite Hn. destruct (nth_error js i) as [j|].
      + split; [eauto|]. intros (j' & [= <-] & E). auto.
      + split; [discriminate|]. intros (j' & E & _). discriminate.
    - intros j a E. rewrite Hj. unfold act in E. destruct (nth_error es j) as [e|] eqn:Ee; [|discriminate].
      cbn in E. injection E as Ea. split.
      + intros Hk. exists e. split; [auto|]. intros i e' Hi E' Eq. apply (Hk i Hi). unfold act. rewrite E'. cbn. congruence.
      + intros (x & [= <-] & Hx) k Hk Eq. unfold act in Eq. destruct (nth_error es k) as [e'|] eqn:E'; [|discriminate].
        cbn in Eq. injection Eq as Eq. apply (Hx k e' Hk E'). congruence.
  Qed.
  Lemma firsts_unique es es' i i' a : firsts es es' -> act es' i = Some a -> act es' i' = Some a -> i = i'.
  Proof.
    intros Hs Hi Hi'. destruct (firsts_act es es' Hs) as (js & Ha & Hn & Hj).
    apply Hn in Hi as (j & Ej & Ea). apply Hn in Hi' as (j' & Ej' & Ea').
    assert (E : j = j').
    { pose proof (proj2 (Hj _ _ Ea) (nth_error_In _ _ Ej)) as H1.
      pose proof (proj2 (Hj _ _ Ea') (nth_error_In _ _ Ej')) as H2.
      destruct (lt_eq_lt_dec j j') as [[L|L]|L]; [exfalso|auto|exfalso].
      - now apply (H2 j L). - now apply (H1 j' L). }
    subst j'. apply ascending_NoDup in Ha. rewrite NoDup_nth_error in Ha. apply Ha; [|congruence].
    eapply nth_error_Some_lt; eauto.
  Qed.
  Lemma firsts_before es es' a b : firsts es es' -> first_before es a b <-> exists p, is_later es' a b p.
  Proof.
    intros Hs. destruct (firsts_act es es' Hs) as (js & Ha & Hn & Hj). split.
    - intros (i & j & Hij & Ei & Ej & Fi & Fj).
      apply (Hj _ _ Ei) in Fi. apply (Hj _ _ Ej) in Fj.
      apply In_nth_error in Fi as [p Ep]. apply In_nth_error in Fj as [q Eq]. exists (p, q).
      split; [|split; apply Hn; eauto].
      destruct (lt_eq_lt_dec p q) as [[L|L]|L]; [auto| |].
      + subst. rewrite Ep in Eq. injection Eq as ->. lia.
      + pose proof (asc_nth _ _ _ _ _ Ha Eq Ep L). lia.
    - intros ([p q] & Hpq & Ep & Eq). apply Hn in Ep as (i & Ei & Ai). apply Hn in Eq as (j & Ej & Aj).
      exists i, j. split; [eapply asc_nth; eauto|]. split; [auto|]. split; [auto|].
      split; [apply (Hj _ _ Ai)|apply (Hj _ _ Aj)]; eapply nth_error_In; eauto.
  Qed.

  Lemma later_acts (es : list event) a b c : In (a, b, c) (later es) ->
    exists i j, is_later es a b (i, j).
  Proof.
    induction es as [|e es IH]; [contradiction|]. cbn [later]. intros Hin. apply in_app_or in Hin as [Hin|Hin].
    - apply in_map_iff in Hin as (f & E & Hf). injection E as <- <- _. apply In_nth_error in Hf as [j Ej].
      exists 0, (S j). split; [lia|]. split; [auto|]. unfold act. cbn. now rewrite Ej.
    - destruct (IH Hin) as (i & j & Hij & Hi & Hj). exists (S i), (S j). split; [lia|auto].
  Qed.
  Lemma later_In (es : list event) a b i j : is_later es a b (i, j) -> In (a, b, 1%Z) (later es).
  Proof.
    revert i j. induction es as [|e es IH]; intros i j (Hij & Hi & Hj); [unfold act in Hi; now destruct i|].
    destruct j as [|j]; [lia|]. cbn [later]. apply in_or_app. destruct i as [|i].
    - left. unfold act in Hi, Hj. cbn in Hi, Hj. injection Hi as <-.
      destruct (nth_error es j) as [f|] eqn:E; [|discriminate]. cbn in Hj. injection Hj as <-.
      apply in_map_iff. exists f. split; [auto|]. eapply nth_error_In; eauto.
    - right. apply (IH i j). split; [lia|auto].
  Qed.

  Lemma eventually_ok (l : log) : forallb non_empty l = true -> exists g, eventually_follows_graph l = Ok g /\ wf g /\
    (forall x, has g x <-> exists t, In t l /\ exists y, first_before (events t) x y \/ first_before (events t) y x) /\
    (forall x y, exists n, has_size (fun k => exists t, nth_error l k = Some t /\ first_before (events t) x y) n /\
       cnt g x y = match n with 0 => None | _ => Some (Z.of_nat n) end).
  Proof.
    intros Hne. unfold eventually_follows_graph. rewrite Hne. pose proof (keep_first_ok l) as HF.
    set (l' := keep_first_occurence l) in *.
    assert (HF' : Forall2 (fun t t' => firsts (events t) (events t')) l l').
    { clear -HF. induction HF as [|t u l m (_ & _ & Htu) HF IH]; constructor; auto. }
    clear HF. clearbody l'.
    assert (G : forall m g, wf g -> exists g', foldM (fun g t => eventually_events (events t) g) m g = Ok g' /\ wf g' /\
      (forall x, has g' x <-> has g x \/ exists t a b c, In t m /\ In (a, b, c) (later (events t)) /\ (x = a \/ x = b)) /\
      (forall x y, cnt g' x y = bump (cnt g x y) (flat_map (fun t : trace => tally (later (events t)) x y) m))).
    { clear. induction m as [|t m IH]; intros g W; cbn [foldM].
      - exists g. split; [auto|]. split; [auto|]. split; [|auto]. intros x. split; [auto|].
        intros [|(? & ? & ? & ? & [] & _)]; auto.
      - rewrite eventually_adds. destruct (adds_ok (later (events t)) g W) as (g1 & E1 & W1 & H1 & C1).
        rewrite E1. cbn [bind]. destruct (IH g1 W1) as (g2 & E2 & W2 & H2 & C2). exists g2.
        split; [auto|]. split; [auto|]. split.
        + intros x. rewrite H2, H1. split.
          * intros [[Hx|(a & b & c & Hin & Hx)]|(u & a & b & c & Hu & Hin & Hx)].
            -- auto. -- right. exists t, a, b, c. cbn. auto. -- right. exists u, a, b, c. cbn. auto.
          * intros [Hx|(u & a & b & c & [<-|Hu] & Hin & Hx)].
            -- auto. -- left. right. eauto. -- right. exists u, a, b, c. auto.
        + intros x y. rewrite C2, C1, bump_app. reflexivity. }
    destruct (G l' empty wf_empty) as (g & E & W & Hh & Hc). exists g. split; [auto|]. split; [auto|]. split.
    - intros x. rewrite Hh. clear -HF'. split.
      + intros [Hx|(t' & a & b & c & Ht & Hin & Hx)]; [destruct Hx|].
        apply later_acts in Hin as (i & j & Hij).
        assert (Ht0 : exists t, In t l /\ firsts (events t) (events t')).
        { clear -HF' Ht. induction HF' as [|t u l l' Htu HF IH]; [contradiction|].
          destruct Ht as [->|Ht]; [exists t; split; [now left|auto]|].
          destruct (IH Ht) as (v & Hv & Hf). exists v. split; [now right|auto]. }
        destruct Ht0 as (t & Ht0 & Hf). exists t. split; [auto|].
        assert (Hb : first_before (events t) a b) by (apply (firsts_before _ _ _ _ Hf); eauto).
        destruct Hx; subst; eauto.
      + intros (t & Ht & y & Hy). right.
        assert (Ht0 : exists t', In t' l' /\ firsts (events t) (events t')).
        { clear -HF' Ht. induction HF' as [|v u l l' Htu HF IH]; [contradiction|].
          destruct Ht as [->|Ht]; [exists u; split; [now left|auto]|].
          destruct (IH Ht) as (u' & Hu & Hf). exists u'. split; [now right|auto]. }
        destruct Ht0 as (t' & Ht0 & Hf). exists t'.
        destruct Hy as [Hy|Hy]; apply (firsts_before _ _ _ _ Hf) in Hy; destruct Hy as ([i j] & Hp); apply later_In in Hp; eauto 10.
    - intros x y. exists (list_sum (map (fun t => length (tally (later (events t)) x y)) l')).
      assert (Hs := has_size_nested l' (fun t => is_later (events t) x y) (fun t => length (tally (later (events t)) x y))
                      (fun t _ => proj1 (later_size (events t) x y))).
      assert (Hnth : forall k, match nth_error l k, nth_error l' k with
        | Some t, Some t' => firsts (events t) (events t') | None, None => True | _, _ => False end).
      { clear -HF'. induction HF' as [|t u l l' Htu HF IH]; intros [|k]; cbn; auto. apply IH. }
      split.
      + eapply has_size_image with (f := fst); [exact Hs| |].
        * intros [k [i j]] [k' [i' j']] (t & Et & Hij & Hi & Hj) (t' & Et' & Hij' & Hi' & Hj') Ek. cbn in Ek. subst k'.
          rewrite Et in Et'. injection Et' as <-. specialize (Hnth k). rewrite Et in Hnth.
          destruct (nth_error l k) as [u|]; [|contradiction].
          f_equal. f_equal; eapply firsts_unique; eauto.
        * intros k. specialize (Hnth k). split.
          -- intros (t & Et & Hb). rewrite Et in Hnth. destruct (nth_error l' k) as [t'|] eqn:Et'; [|contradiction].
             apply (firsts_before _ _ _ _ Hnth) in Hb as (p & Hp). exists (k, p). split; [|auto]. cbn. eauto.
          -- intros ([k' p] & (t' & Et' & Hp) & Ek). cbn in Ek. subst k'. rewrite Et' in Hnth.
             destruct (nth_error l k) as [t|] eqn:Et; [|contradiction]. exists t. split; [auto|].
             apply (firsts_before _ _ _ _ Hnth). eauto.
      + rewrite Hc, bump_ones.
        * assert (El : length (flat_map (fun t : trace => tally (later (events t)) x y) l') =
                       list_sum (map (fun t => length (tally (later (events t)) x y)) l')).
          { clear. induction l' as [|t l IH]; [auto|]. cbn [flat_map map]. rewrite app_length, IH. auto. }
          rewrite El. destruct (list_sum _); reflexivity.
        * clear. induction l' as [|t l IH]; cbn [flat_map]; [constructor|]. apply Forall_app. split; [apply later_size|auto].
  Qed.
End Logs.

(** *** filter by absolute count *)
Lemma NoDup_map_filter {X Y} (f : X -> Y) p l : NoDup (map f l) -> NoDup (map f (filter p l)).
Proof.
  induction l as [|x l IH]; cbn; [auto|]. intros Hd. inversion Hd as [|? ? Hx Hd']; subst.
  destruct (p x); [|auto]. cbn. constructor; [|auto]. intros Hin. apply Hx.
  apply in_map_iff in Hin as (y & <- & Hy). apply filter_In in Hy as [Hy _]. now apply in_map.
Qed.
Lemma filter_map_comm {X Y} (f : X -> Y) (p : Y -> bool) l : map f (filter (fun x => p (f x)) l) = filter p (map f l).
Proof. induction l as [|x l IH]; cbn; [auto|]. destruct (p (f x)); cbn; now rewrite IH. Qed.

Lemma filter_absolute_ok m g : wf g -> exists g', filter_absolute m g = Ok g' /\ wf g' /\
  (forall a, has g' a <-> has g a) /\
  forall a b c, cnt g' a b = Some c <-> cnt g a b = Some c /\ (m <= c)%Z.
Proof.
  intros W. unfold filter_absolute. destruct (copy_nodes_ok g W) as (f0 & E0 & W0 & H0 & C0).
  rewrite E0. cbn [bind].
  set (f := fun e => (start_act g e, end_act g e, e_count (eh g e))).
  change (fun f1 e => if (m <=? e_count (eh g e))%Z
     then add_count (start_act g e) (end_act g e) (e_count (eh g e)) f1 else Ok f1)
    with (fun f1 e => if (fun '(_, c) => (m <=? c)%Z) (f e)
     then add_count (fst (fst (f e))) (snd (fst (f e))) (snd (f e)) f1 else Ok f1).
  rewrite (foldM_if_adds (fun e => (fun '(_, c) => (m <=? c)%Z) (f e)) f),
    (filter_map_comm f (fun '(_, c) => (m <=? c)%Z)).
  change (map f (values (edges g))) with (edge_list g).
  destruct (adds_fresh (filter (fun '(_, c) => (m <=? c)%Z) (edge_list g)) f0 W0) as (g' & E & W' & H' & C1 & C2).
  { apply NoDup_map_filter. now apply edge_list_NoDup. }
  exists g'. split; [auto|]. split; [auto|].
  assert (Hin : forall a b c, In (a, b, c) (filter (fun '(_, c) => (m <=? c)%Z) (edge_list g)) <->
                  cnt g a b = Some c /\ (m <= c)%Z).
  { intros a b c. rewrite filter_In, edge_list_In by auto. now rewrite Z.leb_le. }
  split.
  - intros x. rewrite H', H0. split; [|auto]. intros [|(a & b & c & Hi & Hx)]; [auto|].
    apply Hin in Hi as [Hi _]. destruct (edge_has g W a b) as [Ha Hb]; [congruence|]. destruct Hx; subst; auto.
  - intros a b c. split.
    + intros E'. destruct (tally (filter (fun '(_, c) => (m <=? c)%Z) (edge_list g)) a b) as [|d ds] eqn:T.
      * rewrite C2, C0 in E'; [discriminate|]. intros d Hd. apply tally_In in Hd. rewrite T in Hd. contradiction.
      * assert (Hd : In (a, b, d) (filter (fun '(_, c) => (m <=? c)%Z) (edge_list g))) by (apply tally_In; rewrite T; now left).
        rewrite (C1 _ _ _ Hd), C0 in E'. injection E' as <-. now apply Hin.
    + intros Hc. apply Hin in Hc. rewrite (C1 _ _ _ Hc), C0. auto.
Qed.

(** *** select_nodes *)
Section Ord.
  Variable ord : list (string * string) -> list (string * string).
  Hypothesis Hord : forall s, Permutation (ord s) s.
  Lemma remove_many_ok (p : string -> bool) l : forall g, wf g -> NoDup l -> (forall a, In a l -> has g a) ->
    exists g', foldM (fun c n => if p n then Ok c else remove_node ord n false c) l g = Ok g' /\ wf g' /\
      (forall x, has g' x <-> has g x /\ (In x l -> p x = true)) /\
      (forall x y c, cnt g' x y = Some c <-> cnt g x y = Some c /\ (In x l -> p x = true) /\ (In y l -> p y = true)).
  Proof.
    induction l as [|a l IH]; intros g W Hd Hl; cbn [foldM].
    - exists g. split; [auto|]. split; [auto|]. cbn. split; intros; tauto.
    - inversion Hd as [|? ? Ha Hd']; subst. destruct (p a) eqn:Ep; cbn [bind].
      + destruct (IH g W Hd') as (g' & E & W' & H' & C'); [intros; apply Hl; now right|]. exists g'.
        split; [auto|]. split; [auto|]. split.
        * intros x. rewrite H'. split; intros [Hx Hp]; (split; [auto|]).
          -- intros [<-|Hin]; auto. -- intros Hin. apply Hp. now right.
        * intros x y c. rewrite C'. split; intros (Hx & Hp & Hq); (split; [auto|]); split.
          -- intros [<-|Hin]; auto. -- intros [<-|Hin]; auto.
          -- intros Hin. apply Hp. now right. -- intros Hin. apply Hq. now right.
      + destruct (remove_plain_ok ord Hord a g W) as (g1 & E1 & W1 & H1 & C1); [apply Hl; now left|]. rewrite E1. cbn [bind].
        destruct (IH g1 W1 Hd') as (g' & E & W' & H' & C').
        { intros x Hx. apply H1. split; [apply Hl; now right|]. intros ->. auto. }
        exists g'. split; [auto|]. split; [auto|]. split.
        * intros x. rewrite H', H1. split.
          -- intros ([Hx Hn] & Hp). split; [auto|]. intros [<-|Hin]; [congruence|auto].
          -- intros [Hx Hp]. split; [split; [auto|]|].
             ++ intros ->. rewrite (Hp (or_introl eq_refl)) in Ep. discriminate.
             ++ intros Hin. apply Hp. now right.
        * intros x y c. rewrite C', C1. split.
          -- intros (Hx & Hp & Hq). destruct (eqb_ok x a) as [|Hxa]; [discriminate|].
             destruct (eqb_ok y a) as [|Hya]; [discriminate|]. cbn in Hx. split; [auto|].
             split; intros [<-|Hin]; congruence || auto.
          -- intros (Hx & Hp & Hq).
             assert (Hxa : x <> a) by (intros ->; rewrite (Hp (or_introl eq_refl)) in Ep; discriminate).
             assert (Hya : y <> a) by (intros ->; rewrite (Hq (or_introl eq_refl)) in Ep; discriminate).
             rewrite (proj2 (eqb_neq x a)), (proj2 (eqb_neq y a)) by auto. cbn. split; [auto|].
             split; intros Hin; [apply Hp|apply Hq]; now right.
  Qed.
  Lemma select_nodes_ok acts g : wf g -> exists g', select_nodes ord acts g = Ok g' /\ wf g' /\
    (forall x, has g' x <-> has g x /\ In x acts) /\
    (forall x y c, cnt g' x y = Some c <-> cnt g x y = Some c /\ In x acts /\ In y acts).
  Proof.
    intros W. unfold select_nodes. destruct (copy_ok g W) as (c & E & Wc & Hh & Hc). rewrite E. cbn [bind].
    rewrite activities_keys by auto.
    destruct (remove_many_ok (fun n => mem n acts) (keys (nodes c)) c Wc) as (g' & E' & W' & H' & C').
    { apply Wc. } { auto. }
    exists g'. split; [auto|]. split; [auto|]. change (In ?x (keys (nodes c))) with (has c x) in *. split.
    - intros x. rewrite H'. change (In x (keys (nodes c))) with (has c x). rewrite Hh, mem_In. tauto.
    - intros x y k. rewrite C'. change (In x (keys (nodes c))) with (has c x). change (In y (keys (nodes c))) with (has c y).
      rewrite !Hh, Hc, !mem_In. split.
      + intros (Ek & Hx & Hy). destruct (edge_has g W x y) as [H1 H2]; [congruence|]. auto.
      + intros (Ek & Hx & Hy). auto.
  Qed.
End Ord.

(** *** sources and sinks *)
Lemma sources_ok g : wf g -> NoDup (get_source_activities g) /\
  forall a, In a (get_source_activities g) <-> has g a /\ forall p, cnt g p a <> None -> p = a.
Proof.
  intros W. unfold get_source_activities.
  set (p := fun n => match n_in (nh g n) with [] => true | [_] => is_followed_by g n (n_act (nh g n)) | _ => false end).
  split.
  - apply NoDup_map_filter. change (NoDup (activities g)). rewrite activities_keys by auto. apply W.
  - intros a.
    assert (Hin : In a (map (fun n => n_act (nh g n)) (filter p (values (nodes g)))) <->
       exists n, dict_get a (nodes g) = Some n /\ p n = true).
    { rewrite in_map_iff. split.
      - intros (n & <- & Hn). apply filter_In in Hn as [Hn Hp]. apply in_map_iff in Hn as ([b m] & Em & Hb). cbn in Em. subst m.
        apply dict_In_get in Hb; [|apply W]. exists n. split; [|auto]. now rewrite (proj2 (w_n _ W _ _ Hb)).
      - intros (n & En & Hp). exists n. split; [apply (w_n _ W _ _ En)|]. apply filter_In. split; [|auto].
        apply dict_get_In in En. apply (in_map snd) in En. auto. }
    rewrite Hin. clear Hin. unfold p. split.
    + intros (n & En & Hp). split; [apply has_get; eauto|]. intros x Hx.
      destruct (w_in _ W a n En) as [Hd Hi]. rewrite cnt_None in Hx.
      destruct (dict_get (x, a) (edges g)) as [e|] eqn:Ee; [|congruence].
      assert (He : In e (n_in (nh g n))) by (apply Hi; eauto).
      destruct (n_in (nh g n)) as [|e1 [|e2 r]]; [contradiction| |discriminate]. destruct He as [->|[]].
      rewrite (proj2 (w_n _ W _ _ En)) in Hp. unfold is_followed_by in Hp. apply existsb_exists in Hp as (f & Hf & Ef).
      apply (proj1 (eqb_eq _ _)) in Ef. apply (w_out _ W a n En) in Hf as (b & Hb).
      destruct (acts_of g W _ _ _ Hb) as [_ Eb]. assert (Eba : b = a) by congruence. rewrite Eba in Hb.
      assert (Hf' : In f [e]) by (apply Hi; eauto). destruct Hf' as [->|[]].
      destruct (key_unique g W _ _ _ _ _ Ee Hb). auto.
    + intros [Ha Hp]. apply has_get in Ha as [n En]. exists n. split; [auto|].
      destruct (w_in _ W a n En) as [Hd Hi].
      assert (Hall : forall e, In e (n_in (nh g n)) -> dict_get (a, a) (edges g) = Some e).
      { intros e He. apply Hi in He as [x Ex]. rewrite <- Ex. f_equal. f_equal. symmetry. apply Hp. rewrite cnt_None. congruence. }
      destruct (n_in (nh g n)) as [|e1 [|e2 r]]; [auto| |].
      * rewrite (proj2 (w_n _ W _ _ En)). unfold is_followed_by. apply existsb_exists. exists e1.
        pose proof (Hall e1 (or_introl eq_refl)) as E1. split; [apply (w_out _ W a n En); eauto|].
        destruct (acts_of g W _ _ _ E1) as [_ ->]. apply eqb_refl.
      * pose proof (Hall e1 (or_introl eq_refl)) as E1. pose proof (Hall e2 (or_intror (or_introl eq_refl))) as E2.
        inversion Hd as [|? ? Hx _]; subst. exfalso. apply Hx. left. congruence.
Qed.
Lemma sinks_ok g : wf g -> NoDup (get_sink_activities g) /\
  forall a, In a (get_sink_activities g) <-> has g a /\ forall p, cnt g a p <> None -> p = a.
Proof.
  intros W. unfold get_sink_activities.
  set (p := fun n => match n_out (nh g n) with [] => true | [_] => is_followed_by g n (n_act (nh g n)) | _ => false end).
  split.
  - apply NoDup_map_filter. change (NoDup (activities g)). rewrite activities_keys by auto. apply W.
  - intros a.
    assert (Hin : In a (map (fun n => n_act (nh g n)) (filter p (values (nodes g)))) <->
       exists n, dict_get a (nodes g) = Some n /\ p n = true).
    { rewrite in_map_iff. split.
      - intros (n & <- & Hn). apply filter_In in Hn as [Hn Hp]. apply in_map_iff in Hn as ([b m] & Em & Hb). cbn in Em. subst m.
        apply dict_In_get in Hb; [|apply W]. exists n. split; [|auto]. now rewrite (proj2 (w_n _ W _ _ Hb)).
      - intros (n & En & Hp). exists n. split; [apply (w_n _ W _ _ En)|]. apply filter_In. split; [|auto].
        apply dict_get_In in En. apply (in_map snd) in En. auto. }
    rewrite Hin. clear Hin. unfold p. split.
    + intros (n & En & Hp). split; [apply has_get; eauto|]. intros x Hx.
      destruct (w_out _ W a n En) as [Hd Hi]. rewrite cnt_None in Hx.
      destruct (dict_get (a, x) (edges g)) as [e|] eqn:Ee; [|congruence].
      assert (He : In e (n_out (nh g n))) by (apply Hi; eauto).
      unfold is_followed_by in Hp.
      destruct (n_out (nh g n)) as [|e1 [|e2 r]]; [contradiction| |discriminate]. destruct He as [->|[]].
      rewrite (proj2 (w_n _ W _ _ En)) in Hp. apply existsb_exists in Hp as (f & [<-|[]] & Ef).
      apply (proj1 (eqb_eq _ _)) in Ef. destruct (acts_of g W _ _ _ Ee) as [_ Eb]. congruence.
    + intros [Ha Hp]. apply has_get in Ha as [n En]. exists n. split; [auto|].
      destruct (w_out _ W a n En) as [Hd Hi].
      assert (Hall : forall e, In e (n_out (nh g n)) -> dict_get (a, a) (edges g) = Some e).
      { intros e He. apply Hi in He as [x Ex]. rewrite <- Ex. f_equal. f_equal. symmetry. apply Hp. rewrite cnt_None. congruence. }
      unfold is_followed_by.
      destruct (n_out (nh g n)) as [|e1 [|e2 r]]; [auto| |].
      * rewrite (proj2 (w_n _ W _ _ En)). apply existsb_exists. exists e1. split; [now left|].
        pose proof (Hall e1 (or_introl eq_refl)) as E1.
        destruct (acts_of g W _ _ _ E1) as [_ ->]. apply eqb_refl.
      * pose proof (Hall e1 (or_introl eq_refl)) as E1. pose proof (Hall e2 (or_intror (or_introl eq_refl))) as E2.
        inversion Hd as [|? ? Hx _]; subst. exfalso. apply Hx. left. congruence.
Qed.
