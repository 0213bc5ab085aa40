From Verif.Model Require Import Base TupleUtils.
From Verif.Spec Require Import Lists Subsets.
From Verif.Lib Require Import ListLib.
From Verif.Proofs Require Import ListUtils2 Lcs Levenshtein2.
From Coq Require Import Sorted.

Section T.
  Context {A : Type}.
  Variable t : list A.
  Let n := length t.

  Definition sel (f : nat -> bool) (a b : nat) : list A :=
    flat_map (fun i => if f i then match nth_error t i with Some x => [x] | None => [] end else [])
             (seq a (b - a)).

  Definition inb (I : list nat) i := if in_dec Nat.eq_dec i I then true else false.
  Definition ninb (I : list nat) i := if in_dec Nat.eq_dec i I then false else true.

  Lemma sel_split f a b c : a <= b <= c -> sel f a c = sel f a b ++ sel f b c.
  Proof.
    intros Hb. unfold sel. replace (c - a) with ((b - a) + (c - b)) by lia.
    rewrite seq_app, flat_map_app. replace (a + (b - a)) with b by lia. reflexivity.
  Qed.
  Lemma sel_ext f g a b : (forall i, a <= i < b -> f i = g i) -> sel f a b = sel g a b.
  Proof.
    intros He. unfold sel. apply flat_map_ext_in'. intros i Hi. apply in_seq in Hi.
    rewrite He by lia. reflexivity.
  Qed.
  Lemma sel_none f a b : (forall i, a <= i < b -> f i = false) -> sel f a b = [].
  Proof.
    intros He. rewrite (sel_ext f (fun _ => false)) by auto. unfold sel.
    generalize (b - a). intros k; revert a He; induction k as [|k IH]; intros a He; cbn; auto.
    apply (IH (S a)). intros; apply He; lia.
  Qed.
  Lemma sel_one f i : f i = true -> sel f i (S i) = match nth_error t i with Some x => [x] | None => [] end.
  Proof.
    intros Hf. unfold sel. replace (S i - i) with 1 by lia. cbn. rewrite Hf, app_nil_r. reflexivity.
  Qed.
  Lemma sel_all a b : b <= n -> sel (fun _ => true) a b = firstn (b - a) (skipn a t).
  Proof.
    intros Hb. unfold sel. apply nth_error_ext. intros k.
    assert (Hg : forall m a0, a0 + m <= n ->
      flat_map (fun i => match nth_error t i with Some x => [x] | None => [] end) (seq a0 m)
      = firstn m (skipn a0 t)).
    { induction m as [|m IH]; intros a0 Hm; auto. cbn [seq flat_map].
      destruct (nth_error_lt t a0) as [x Ex]; [unfold n in *; lia|]. rewrite Ex, IH by lia.
      rewrite (skipn_nth_error_cons t a0 x Ex). reflexivity. }
    destruct (le_lt_dec a b) as [Hab|Hab].
    - rewrite Hg by lia. reflexivity.
    - replace (b - a) with 0 by lia. reflexivity.
  Qed.
  Lemma sel_spec f : map snd (filter (fun p => f (fst p)) (combine (seq 0 (length t)) t)) = sel f 0 n.
  Proof. unfold sel. fold (@pick A t f). rewrite pick_eq. rewrite Nat.sub_0_r. reflexivity. Qed.
  Lemma chosen_sel I : chosen I t = sel (inb I) 0 n.
  Proof. unfold chosen. apply (sel_spec (inb I)). Qed.
  Lemma others_sel I : others I t = sel (ninb I) 0 n.
  Proof. unfold others. apply (sel_spec (ninb I)). Qed.

  (** the triple of index list I ++ [e] *)
  Definition trip (I : list nat) (e : nat) : triple :=
    (sel (ninb I) 0 e, sel (inb (I ++ [e])) 0 (S e), sel (fun _ => true) (S e) n).

  Definition ext (I : list nat) (e : nat) : list (list nat * nat) :=
    map (fun j => (I ++ [e], e + 1 + j)) (seq 0 (n - S e)).
  Fixpoint stage (c : nat) (m : nat) : list (list nat * nat) :=
    match c with
    | 0 => map (fun i => ([], i)) (seq 0 m)
    | S c' => flat_map (fun p => ext (fst p) (snd p)) (stage c' m)
    end.

  Lemma inb_In I i : inb I i = true <-> In i I.
  Proof. unfold inb. destruct (in_dec Nat.eq_dec i I); split; auto; discriminate. Qed.
  Lemma ninb_inb I i : ninb I i = negb (inb I i).
  Proof. unfold inb, ninb. destruct (in_dec Nat.eq_dec i I); auto. Qed.
  Lemma inb_false I i : ~ In i I -> inb I i = false.
  Proof. unfold inb. destruct (in_dec Nat.eq_dec i I); tauto. Qed.

  Lemma extend_trip I e :
    e < n -> ascending (I ++ [e]) ->
    extend_triples [trip I e] = map (fun p => trip (fst p) (snd p)) (ext I e).
  Proof.
    intros He Ha. unfold extend_triples, ext, trip. cbn [flat_map]. rewrite app_nil_r.
    rewrite sel_all by auto. rewrite firstn_all2 by (rewrite skipn_length; unfold n; lia).
    rewrite skipn_length. fold n. rewrite map_map. cbn [fst snd].
    assert (Hg : forall js, (forall j, In j js -> j < n - S e) ->
      flat_map (fun j => match nth_error (skipn (S e) t) j with
        | Some x => [(sel (ninb I) 0 e ++ firstn j (skipn (S e) t),
                      sel (inb (I ++ [e])) 0 (S e) ++ [x], skipn (j + 1) (skipn (S e) t))]
        | None => [] end) js =
      map (fun j => (sel (ninb (I ++ [e])) 0 (e + 1 + j),
                     sel (inb ((I ++ [e]) ++ [e + 1 + j])) 0 (S (e + 1 + j)),
                     sel (fun _ => true) (S (e + 1 + j)) n)) js).
    { induction js as [|j js IH]; intros Hj; cbn [flat_map map]; auto.
      rewrite IH by (intros; apply Hj; right; auto).
      pose proof (Hj j (or_introl eq_refl)) as Hjn.
      rewrite nth_error_skipn. destruct (nth_error_lt t (S e + j)) as [x Ex]; [unfold n in *; lia|].
      rewrite Ex. cbn [app]. f_equal. f_equal; [f_equal|].
      - rewrite (sel_split (ninb (I ++ [e])) 0 e) by lia.
        rewrite (sel_split (ninb (I ++ [e])) e (S e)) by lia.
        rewrite (sel_none _ e (S e)).
        2: { intros i Hi. replace i with e by lia. rewrite ninb_inb.
             rewrite (proj2 (inb_In (I ++ [e]) e)); auto. apply in_or_app; right; left; auto. }
        rewrite (sel_ext (ninb I) (ninb (I ++ [e]))).
        2: { intros i Hi. rewrite !ninb_inb. f_equal.
             apply ascending_app in Ha as (_ & _ & Ha).
             destruct (inb I i) eqn:E1; symmetry.
             - apply inb_In. apply in_or_app; left. apply inb_In; auto.
             - apply inb_false. intros Hin. apply in_app_or in Hin as [Hin|[Hin|[]]].
               + apply inb_In in Hin. congruence.
               + lia. }
        cbn [app]. f_equal. rewrite (sel_ext (ninb (I ++ [e])) (fun _ => true)).
        2: { intros i Hi. rewrite ninb_inb, inb_false; auto. intros Hin.
             apply in_app_or in Hin as [Hin|[Hin|[]]]; [|lia].
             apply ascending_app in Ha as (_ & _ & Ha). specialize (Ha i e Hin (or_introl eq_refl)). lia. }
        rewrite sel_all by lia. f_equal. lia.
      - rewrite (sel_split (inb ((I ++ [e]) ++ [e + 1 + j])) 0 (S e)) by lia.
        rewrite (sel_split (inb ((I ++ [e]) ++ [e + 1 + j])) (S e) (e + 1 + j)) by lia.
        rewrite (sel_none _ (S e) (e + 1 + j)).
        2: { intros i Hi. apply inb_false. intros Hin.
             apply in_app_or in Hin as [Hin|[Hin|[]]]; [|lia].
             apply in_app_or in Hin as [Hin|[Hin|[]]]; [|lia].
             apply ascending_app in Ha as (_ & _ & Ha). specialize (Ha i e Hin (or_introl eq_refl)). lia. }
        rewrite sel_one by (apply inb_In; apply in_or_app; right; left; auto).
        replace (e + 1 + j) with (S e + j) by lia. rewrite Ex. cbn [app]. f_equal.
        apply sel_ext. intros i Hi. destruct (inb (I ++ [e]) i) eqn:E1; symmetry.
        + apply inb_In. apply in_or_app; left. apply inb_In; auto.
        + apply inb_false. intros Hin. apply in_app_or in Hin as [Hin|[Hin|[]]].
          * apply inb_In in Hin. congruence.
          * lia.
      - rewrite sel_all by lia. rewrite firstn_all2 by (rewrite skipn_length; unfold n; lia).
        rewrite skipn_skipn'. f_equal. lia. }
    apply Hg. intros j Hj. apply in_seq in Hj. lia.
  Qed.

  Lemma ascending_snoc I e : ascending (I ++ [e]) <-> ascending I /\ forall i, In i I -> i < e.
  Proof.
    rewrite ascending_app. split.
    - intros (H1 & _ & H3). split; auto. intros i Hi; apply H3; auto; left; auto.
    - intros [H1 H2]. repeat split; auto; [constructor|]. intros x y Hx [<-|[]]; auto.
  Qed.

  Lemma stage_spec c : forall m, m <= n -> forall I e,
    In (I, e) (stage c m) <->
    ascending (I ++ [e]) /\ length I = c /\ e < n /\ (exists i J, I ++ [e] = i :: J /\ i < m).
  Proof.
    induction c as [|c IH]; intros m Hm I e; cbn [stage].
    - rewrite in_map_iff. split.
      + intros (i & E & Hi). injection E as <- <-. apply in_seq in Hi.
        split; [constructor|]. split; auto. split; [lia|]. exists i, []. split; auto; lia.
      + intros (Ha & HI & He & i & J & E & Hi). destruct I; [|discriminate].
        injection E as <- <-. exists e. split; auto. apply in_seq; lia.
    - rewrite in_flat_map. split.
      + intros ((I' & e') & Hin & Hext). apply IH in Hin as (Ha & HI & He & i & J & E & Hi); auto.
        unfold ext in Hext. cbn [fst snd] in Hext. apply in_map_iff in Hext as (j & E2 & Hj).
        injection E2 as <- <-. apply in_seq in Hj.
        split; [|split; [|split]].
        * apply ascending_snoc; split; auto. intros q Hq. apply ascending_snoc in Ha as [_ Ha].
          apply in_app_or in Hq as [Hq|[<-|[]]]; [specialize (Ha _ Hq)|]; lia.
        * rewrite app_length; cbn; lia.
        * lia.
        * exists i, (J ++ [e' + 1 + j]). rewrite E. split; auto.
      + intros (Ha & HI & He & i & J & E & Hi).
        destruct (exists_last (l := I)) as (I' & e' & ->); [intros ->; discriminate|].
        rewrite app_length in HI; cbn in HI.
        exists (I', e'). cbn [fst snd]. apply ascending_snoc in Ha as [Ha1 Ha2].
        assert (He' : e' < e) by (apply Ha2, in_or_app; right; left; auto).
        split.
        * apply IH; auto. split; auto. split; [lia|]. split; [lia|].
          destruct (I' ++ [e']) as [|i2 J2] eqn:EI; [destruct I'; discriminate|].
          injection E as <- _. exists i2, J2. auto.
        * unfold ext. apply in_map_iff. exists (e - e' - 1). split; [f_equal; lia|]. apply in_seq; lia.
  Qed.

  Lemma extend_app c1 c2 : @extend_triples A (c1 ++ c2) = extend_triples c1 ++ extend_triples c2.
  Proof. apply flat_map_app. Qed.

  Lemma extend_stage c m : m <= n ->
    extend_triples (map (fun p => trip (fst p) (snd p)) (stage c m)) =
    map (fun p => trip (fst p) (snd p)) (stage (S c) m).
  Proof.
    intros Hm. cbn [stage].
    assert (Hg : forall ps, (forall p, In p ps -> snd p < n /\ ascending (fst p ++ [snd p])) ->
      extend_triples (map (fun p => trip (fst p) (snd p)) ps) =
      map (fun p => trip (fst p) (snd p)) (flat_map (fun p => ext (fst p) (snd p)) ps)).
    { induction ps as [|p ps IH]; intros Hp; auto.
      cbn [map flat_map]. rewrite map_app, <- IH by (intros; apply Hp; right; auto).
      change (trip (fst p) (snd p) :: map (fun p0 => trip (fst p0) (snd p0)) ps) with
        ([trip (fst p) (snd p)] ++ map (fun p0 => trip (fst p0) (snd p0)) ps).
      destruct (Hp p (or_introl eq_refl)) as [H1 H2].
      rewrite extend_app, extend_trip by auto. reflexivity. }
    apply Hg. intros [I e] Hin. apply stage_spec in Hin as (H1 & H2 & H3 & _); auto.
  Qed.

  Lemma loop_stage c : forall d m, m <= n ->
    extend_loop c (map (fun p => trip (fst p) (snd p)) (stage d m)) =
    map (fun p => trip (fst p) (snd p)) (stage (c + d) m).
  Proof.
    induction c as [|c IH]; intros d m Hm; auto. cbn [extend_loop].
    rewrite extend_stage, IH by auto. do 2 f_equal. lia.
  Qed.

  Lemma init_stage k : (1 <= k)%Z ->
    init_triples t k = map (fun p => trip (fst p) (snd p)) (stage 0 (Z.to_nat (Z.of_nat n - k + 1))).
  Proof.
    intros Hk. unfold init_triples. fold n. cbn [stage]. rewrite map_map. cbn [fst snd].
    set (m := Z.to_nat (Z.of_nat n - k + 1)). assert (Hm : m <= n) by (unfold m; lia).
    assert (Hg : forall is, (forall i, In i is -> i < n) ->
      flat_map (fun i => match nth_error t i with
         | Some x => [(firstn i t, [x], skipn (i + 1) t)] | None => [] end) is = map (trip []) is).
    { induction is as [|i is IH]; intros Hi; auto. cbn [flat_map map].
      rewrite IH by (intros; apply Hi; right; auto).
      pose proof (Hi i (or_introl eq_refl)) as Hin. unfold n in Hin.
      destruct (nth_error_lt t i Hin) as [x Ex]. rewrite Ex. cbn [app]. f_equal.
      unfold trip. cbn [app]. f_equal; [f_equal|].
      - rewrite (sel_ext (ninb []) (fun _ => true)) by auto. rewrite sel_all by (unfold n; lia).
        rewrite Nat.sub_0_r. reflexivity.
      - rewrite (sel_split _ 0 i) by lia. rewrite sel_none.
        + rewrite sel_one by (apply inb_In; left; auto). rewrite Ex. reflexivity.
        + intros q Hq. apply inb_false. intros [->|[]]; lia.
      - rewrite sel_all by auto. rewrite firstn_all2 by (rewrite skipn_length; unfold n; lia).
        f_equal; lia. }
    apply Hg. intros i Hi; apply in_seq in Hi; lia.
  Qed.

  Lemma trip_result I e : e < n -> ascending (I ++ [e]) ->
    (let '(l, m, r) := trip I e in (m, l ++ r)) = (chosen (I ++ [e]) t, others (I ++ [e]) t).
  Proof.
    intros He Ha. unfold trip. rewrite chosen_sel, others_sel. apply ascending_snoc in Ha as [_ Ha].
    f_equal.
    - rewrite (sel_split _ 0 (S e) n) by lia. rewrite (sel_none _ (S e) n), app_nil_r; auto.
      intros i Hi. apply inb_false. intros Hin. apply in_app_or in Hin as [Hin|[->|[]]]; [|lia].
      specialize (Ha _ Hin); lia.
    - rewrite (sel_split _ 0 e n) by lia. rewrite (sel_split _ e (S e) n) by lia.
      rewrite (sel_none _ e (S e)).
      2: { intros i Hi. replace i with e by lia. rewrite ninb_inb, (proj2 (inb_In _ _)); auto.
           apply in_or_app; right; left; auto. }
      cbn [app]. f_equal.
      + apply sel_ext. intros i Hi. rewrite !ninb_inb. f_equal. destruct (inb I i) eqn:E; symmetry.
        * apply inb_In, in_or_app; left; apply inb_In; auto.
        * apply inb_false. intros Hin. apply in_app_or in Hin as [Hin|[->|[]]]; [|lia].
          apply inb_In in Hin; congruence.
      + apply sel_ext. intros i Hi. rewrite ninb_inb, inb_false; auto.
        intros Hin. apply in_app_or in Hin as [Hin|[->|[]]]; [|lia]. specialize (Ha _ Hin); lia.
  Qed.

  Lemma lex_snoc I I' x y : length I = length I' -> lex I I' -> lex (I ++ [x]) (I' ++ [y]).
  Proof.
    intros Hl HL; induction HL as [a b l m Hab|a l m HL IH]; cbn.
    - apply lex_here; auto.
    - apply lex_there; auto.
  Qed.
  Lemma lex_same I x y : x < y -> lex (I ++ [x]) (I ++ [y]).
  Proof. intros Hx; induction I; cbn; [apply lex_here; auto|apply lex_there; auto]. Qed.

  Lemma StronglySorted_app {X} (Rel : X -> X -> Prop) l m :
    StronglySorted Rel l -> StronglySorted Rel m ->
    (forall x y, In x l -> In y m -> Rel x y) -> StronglySorted Rel (l ++ m).
  Proof.
    intros Hl Hm Hc. induction Hl as [|a l Hl IH Ha]; cbn; auto. constructor.
    - apply IH. intros; apply Hc; auto; right; auto.
    - apply Forall_app. split; auto. apply Forall_forall. intros y Hy. apply Hc; auto. left; auto.
  Qed.

  Lemma stage_sorted c m : m <= n ->
    StronglySorted lex (map (fun p => fst p ++ [snd p]) (stage c m)).
  Proof.
    intros Hm. induction c as [|c IH].
    - cbn [stage]. rewrite map_map. cbn [fst snd app].
      generalize 0. induction m as [|m IHm]; intros s; cbn [seq map]; [constructor|]. constructor.
      + apply IHm. lia.
      + apply Forall_forall. intros J HJ. apply in_map_iff in HJ as (i & <- & Hi).
        apply in_seq in Hi. apply (lex_same []). lia.
    - cbn [stage].
      assert (Hlen : forall p, In p (stage c m) -> length (fst p) = c).
      { intros [I e] Hp. apply stage_spec in Hp; auto. tauto. }
      revert IH Hlen. generalize (stage c m). intros ps. induction ps as [|p ps IHp]; cbn; intros IH Hlen;
        [constructor|].
      apply StronglySorted_inv in IH as [IH1 IH2]. rewrite map_app. apply StronglySorted_app.
      + unfold ext. rewrite map_map. cbn [fst snd]. set (e1 := snd p + 1). generalize 0. generalize (n - S (snd p)).
        induction n0 as [|k IHk]; intros s; cbn [seq map]; [constructor|]. constructor; [apply IHk|].
        apply Forall_forall. intros J HJ. apply in_map_iff in HJ as (i & <- & Hi). apply in_seq in Hi.
        apply lex_same. lia.
      + apply IHp; auto.
      + intros J J' HJ HJ'. apply in_map_iff in HJ as ((I1 & e1) & <- & H1).
        apply in_map_iff in HJ' as ((I2 & e2) & <- & H2). unfold ext in H1.
        apply in_map_iff in H1 as (j & E & Hj). injection E as <- <-.
        apply in_flat_map in H2 as (q & Hq & H2). unfold ext in H2.
        apply in_map_iff in H2 as (j2 & E & Hj2). injection E as <- <-. cbn [fst snd].
        apply lex_snoc.
        * rewrite !app_length. rewrite (Hlen p), (Hlen q); auto.
        * rewrite Forall_forall in IH2. apply IH2. apply in_map_iff. exists q; auto.
  Qed.

  Lemma ascending_first_bound I : ascending I -> (forall i, In i I -> i < n) ->
    forall i J, I = i :: J -> i + length I <= n.
  Proof.
    induction I as [|x I IH]; intros Ha Hb i J E; [discriminate|]. injection E as -> ->.
    destruct J as [|y J].
    - cbn. specialize (Hb i (or_introl eq_refl)). lia.
    - apply ascending_cons_iff in Ha as [Ha1 Ha2].
      specialize (IH Ha2 (fun q Hq => Hb q (or_intror Hq)) y J eq_refl).
      specialize (Ha1 y (or_introl eq_refl)). cbn in *. lia.
  Qed.

  Theorem all_splits_ok (k : Z) : (1 <= k)%Z ->
    exists Is, all_splits_of_size_k t k = Ok (map (fun I => (chosen I t, others I t)) Is) /\
      StronglySorted lex Is /\ forall I, In I Is <-> index_set (Z.to_nat k) (length t) I.
  Proof.
    intros Hk. unfold all_splits_of_size_k. destruct (Z.ltb_spec k 1); [lia|].
    rewrite init_stage by auto. set (m := Z.to_nat (Z.of_nat n - k + 1)).
    assert (Hm : m <= n) by (unfold m; lia).
    rewrite loop_stage by auto. rewrite Nat.add_0_r, map_map.
    exists (map (fun p => fst p ++ [snd p]) (stage (Z.to_nat (k - 1)) m)). split; [|split].
    - rewrite map_map. f_equal. apply map_ext_in. intros [I e] Hp.
      apply stage_spec in Hp as (H1 & H2 & H3 & _); auto. apply trip_result; auto.
    - apply stage_sorted; auto.
    - intros I. rewrite in_map_iff. split.
      + intros ((I' & e) & <- & Hp). apply stage_spec in Hp as (H1 & H2 & H3 & _); auto.
        cbn [fst snd]. split; auto. split; [rewrite app_length; cbn; lia|].
        intros i Hi. apply ascending_snoc in H1 as [_ H1].
        apply in_app_or in Hi as [Hi|[<-|[]]]; auto. specialize (H1 _ Hi). fold n. lia.
      + intros (Ha & HI & Hb). destruct (exists_last (l := I)) as (I' & e & ->).
        { intros ->. cbn in HI. lia. }
        exists (I', e). split; auto. apply stage_spec; auto. split; auto.
        rewrite app_length in HI; cbn in HI. split; [lia|]. split.
        * apply Hb, in_or_app; right; left; auto.
        * destruct (I' ++ [e]) as [|i J] eqn:E; [destruct I'; discriminate|]. exists i, J. split; auto.
          pose proof (ascending_first_bound (i :: J) Ha Hb i J eq_refl) as Hbound.
          rewrite <- E, app_length in Hbound. cbn in Hbound. unfold m. lia.
  Qed.

  Theorem all_splits_err (k : Z) : (k < 1)%Z -> all_splits_of_size_k t k = Err ValueError.
  Proof. intros Hk. unfold all_splits_of_size_k. destruct (Z.ltb_spec k 1); [auto|lia]. Qed.
End T.
