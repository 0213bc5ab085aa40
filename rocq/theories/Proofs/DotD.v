(** Rows of nodes by random walks *)
From Coq Require Import String Permutation QArith Qround Qabs Lqa Sorted.
From Verif.Model Require Import Base Sort Dot Drawings EventLog Dfg Statistics.
From Verif.Spec Require Import Lists Logs Graphs EventLogSpec DfgSpec DfgBuilt Moments WalkSpec.
From Verif.Lib Require Import ListLib DictLib SortLib.
From Verif.Proofs Require Import DfgA DfgJ.
From Verif.Proofs Require Statistics.
Open Scope string_scope.
Open Scope list_scope.
Open Scope nat_scope.

Lemma round_nearest q : nearest q (py_round q).
Proof.
  unfold py_round. set (f := Qfloor q). assert (F1 : (inject_Z f <= q)%Q) by apply Qfloor_le. assert (F2 : (q < inject_Z f + 1)%Q) by (pose proof (Qlt_floor q) as X; rewrite inject_Z_plus in X; exact X).
  unfold nearest. destruct (Qcompare_spec (q - inject_Z f) (1 # 2)) as [H|H|H].
  - destruct (Z.even f) eqn:E.
    + split; [rewrite Qabs_pos by lra; lra|auto].
    + rewrite inject_Z_plus. split; [rewrite Qabs_neg by (change (inject_Z 1) with 1%Q; lra); change (inject_Z 1) with 1%Q; lra|]. intros _. rewrite Z.even_add, E. auto.
  - split; [rewrite Qabs_pos by lra; lra|]. rewrite Qabs_pos by lra. intros X. lra.
  - rewrite inject_Z_plus. change (inject_Z 1) with 1%Q. split; [rewrite Qabs_neg by lra; lra|]. rewrite Qabs_neg by lra. intros X. lra.
Qed.
Lemma nearest_unique q j k : nearest q j -> nearest q k -> j = k.
Proof.
  assert (L : forall j k, nearest q j -> nearest q k -> (j < k)%Z -> False).
  { clear. intros j k [A1 A2] [B1 B2] Hl. apply Qabs_Qle_condition in A1, B1.
    assert (X : (inject_Z j + 1 <= inject_Z k)%Q) by (change 1%Q with (inject_Z 1); rewrite <- inject_Z_plus, <- Zle_Qle; lia).
    assert (E1 : (q - inject_Z j == 1 # 2)%Q) by lra. assert (E2 : (q - inject_Z k == - (1 # 2))%Q) by lra.
    assert (K : (inject_Z k == inject_Z (j + 1))%Q) by (rewrite inject_Z_plus; change (inject_Z 1) with 1%Q; lra). apply (proj1 (inject_Z_injective _ _)) in K. subst k.
    rewrite Z.even_add, A2 in B2; [|rewrite E1; reflexivity]. discriminate B2. rewrite E2. reflexivity. }
  intros A B. destruct (Z.lt_trichotomy j k) as [H|[H|H]]; [destruct (L j k A B H)|auto|destruct (L k j B A H)].
Qed.
Lemma nearest_eq p q k : (p == q)%Q -> nearest p k -> nearest q k.
Proof. intros E [A B]. split; rewrite <- E; auto. Qed.
Lemma mean_average0 xs : (st_get_mean (st_of xs) == average0 xs)%Q.
Proof.
  destruct (Proofs.Statistics.st_of_agrees xs) as (_ & M & Z & _). unfold st_get_mean. destruct xs as [|x xs]; [apply Z; auto|]. apply M. discriminate.
Qed.

Definition hits (i : nat) (rest : list string) (a : string) : list Q :=
  map (fun p => inject_Z (Z.of_nat (fst p))) (filter (fun p => String.eqb (snd p) a) (combine (seq i (length rest)) rest)).
(** the statistics of the pushed values *)
Definition pushed (g : graph) (st : dict string statistics) (h : string -> list Q) : Prop :=
  keys st = keys (nodes g) /\ forall a, has g a -> dict_get a st = Some (st_of (h a)).

Section W.
  Variable g : graph.
  Hypothesis W : wf g.
  Variable e : string.
  Lemma walk_ok choose : (forall i k, 0 < k -> choose i k < k) -> forall fuel c n visited i st h, dict_get c (nodes g) = Some n -> In c visited -> NoDup visited -> incl visited (keys (nodes g)) ->
    length (nodes g) <= fuel + length visited -> pushed g st h ->
    exists rest st', Drawings.walk fuel choose g e n visited i st = Ok st' /\ pushed g st' (fun a => h a ++ hits i rest a) /\
      chained (fun a b => cnt g a b <> None) (c :: rest) /\ NoDup rest /\ (forall a, In a rest -> ~ In a visited) /\
      (forall j, nth_error (c :: rest) j = Some e -> j = length rest) /\
      exists z, is_last z (c :: rest) /\ (z = e \/ forall y, cnt g z y <> None -> In y visited \/ In y rest).
  Proof.
    intros CH. induction fuel as [|fuel IH]; intros c n visited i st h En Hc NV IV L PS.
    all: destruct (w_n _ W _ _ En) as [_ An]; cbn [Drawings.walk]; rewrite An.
    all: destruct (eqb_ok c e) as [Ee|Ne].
    1,3: exists [], st; split; [auto|]; split; [split; [apply PS|]; intros a Ha; cbn; rewrite app_nil_r; apply PS; auto|]; split; [cbn; auto|]; split; [constructor|]; split; [intros a []|];
      split; [intros [|j] Q; [auto|]; destruct j; discriminate|]; exists c; split; [exists []; auto|auto].
    all: cbv zeta; destruct (filter (fun x => negb (mem (end_act g x) visited)) (n_out (nh g n))) as [|x0 xs] eqn:F.
    1,3: exists [], st; split; [auto|]; split; [split; [apply PS|]; intros a Ha; cbn; rewrite app_nil_r; apply PS; auto|]; split; [cbn; auto|]; split; [constructor|]; split; [intros a []|];
      split; [intros [|j] Q; [cbn in Q; congruence|]; destruct j; discriminate|]; exists c; split; [exists []; auto|]; right; intros y Hy; left;
      rewrite cnt_None in Hy; destruct (dict_get (c, y) (edges g)) as [x|] eqn:Ex; [|congruence];
      destruct (mem y visited) eqn:M; [apply mem_In in M; auto|]; exfalso;
      assert (I : In x (filter (fun x => negb (mem (end_act g x) visited)) (n_out (nh g n)))) by
        (apply filter_In; split; [apply (w_out _ W _ _ En); eauto|destruct (acts_of g W _ _ _ Ex) as [_ ->]; rewrite M; auto]); rewrite F in I; destruct I.
    - exfalso. assert (I : In x0 (filter (fun x => negb (mem (end_act g x) visited)) (n_out (nh g n)))) by (rewrite F; left; auto). apply filter_In in I. destruct I as [I M].
      apply (w_out _ W _ _ En) in I. destruct I as [b Eb]. destruct (acts_of g W _ _ _ Eb) as [_ X]. rewrite X in M. apply negb_true_iff, mem_not_In in M. apply (w_e _ W) in Eb. destruct Eb as (_ & _ & Eb).
      assert (Q : length (b :: visited) <= length (keys (nodes g))) by (apply NoDup_incl_length; [constructor; auto|]; intros y [<-|Hy]; [apply has_get; eauto|auto]). unfold keys in Q. rewrite map_length in Q. cbn in Q. lia.
    - rewrite <- F. set (choices := filter (fun x => negb (mem (end_act g x) visited)) (n_out (nh g n))). fold choices in F.
      assert (Lc : 0 < length choices) by (rewrite F; cbn; lia). destruct (nth_error choices (choose i (length choices))) as [x|] eqn:Ex; [|exfalso; apply nth_error_None in Ex; specialize (CH i _ Lc); lia].
      cbn [of_option bind]. assert (I : In x choices) by (eapply nth_error_In; eauto). apply filter_In in I. destruct I as [I M]. apply (w_out _ W _ _ En) in I. destruct I as [b Eb].
      destruct (acts_of g W _ _ _ Eb) as [_ X]. rewrite X in M. apply negb_true_iff in M. apply mem_not_In in M as Mb. unfold end_act in X. rewrite X.
      pose proof (w_e _ W _ _ _ Eb) as (_ & _ & Nb). assert (Hb : has g b) by (apply has_get; eauto). rewrite (proj2 PS b Hb). cbn [of_option bind].
      destruct (IH b (e_end (eh g x)) (set_add b visited) (i + 1) (dict_set b (st_push (st_of (h b)) (inject_Z (Z.of_nat i))) st) (fun a => h a ++ hits i [b] a)) as (rest & st' & E' & P' & C' & N' & D' & J' & z & Z' & S').
      + auto.
      + apply set_add_In. auto.
      + apply set_add_NoDup. auto.
      + intros y Hy. apply set_add_In in Hy. destruct Hy as [->|Hy]; [auto|apply IV; auto].
      + unfold set_add. rewrite M, app_length. cbn. lia.
      + destruct PS as [P1 P2]. split; [rewrite keys_dict_set, P1, (proj2 (mem_In _ _)) by exact Hb; auto|]. intros a Ha. rewrite dict_get_set. unfold hits. destruct (eqb_ok a b) as [->|Nab]; cbn.
        * rewrite String.eqb_refl. cbn. unfold st_of. rewrite fold_left_app. auto.
        * destruct (String.eqb_spec b a); [congruence|]. cbn. rewrite app_nil_r. auto.
      + exists (b :: rest), st'. split; [auto|]. split; [|split; [|split; [|split; [|split]]]].
        * destruct P' as [P1 P2]. split; [auto|]. intros a Ha. rewrite (P2 a Ha). f_equal. f_equal. rewrite <- app_assoc. f_equal. unfold hits. cbn [length seq combine filter map]. rewrite Nat.add_1_r. cbn [snd]. destruct (String.eqb b a); auto.
        * split; [|auto]. rewrite cnt_None. congruence.
        * constructor; [|auto]. intros Q. apply (D' b Q). apply set_add_In. auto.
        * intros a [<-|Ha]; [auto|]. intros Q. apply (D' a Ha). apply set_add_In. auto.
        * intros [|j] Q; [cbn in Q; congruence|]. cbn [nth_error] in Q. rewrite (J' j Q). auto.
        * exists z. split; [destruct Z' as [pre Z']; exists (c :: pre); rewrite Z'; auto|]. destruct S' as [S'|S']; [auto|]. right. intros y Hy. destruct (S' y Hy) as [Q|Q]; [|right; right; auto]. apply set_add_In in Q. destruct Q as [->|Q]; [right; left; auto|auto].
  Qed.
  Variable s : string.
  Lemma walks_ok (choose : nat -> nat -> nat -> nat) n : (forall w i k, 0 < k -> choose w i k < k) -> dict_get s (nodes g) = Some n -> forall ks st h, pushed g st h ->
    exists ws st', foldM (fun st w => do n <- node_id g s ; Drawings.walk (length (nodes g)) (choose w) g e n (set_add (n_act (nh g n)) []) 1 st) ks st = Ok st' /\
      length ws = length ks /\ pushed g st' (fun a => h a ++ steps ws a) /\ forall w, In w ws -> is_walk (fun a b => cnt g a b <> None) s e w.
  Proof.
    intros CH En. destruct (w_n _ W _ _ En) as [_ An]. induction ks as [|k ks IH]; intros st h PS; cbn [foldM].
    - exists [], st. split; [auto|]. split; [auto|]. split; [split; [apply PS|]; intros a Ha; cbn; rewrite app_nil_r; apply PS; auto|]. intros w [].
    - unfold node_id at 1. rewrite En. cbn [of_option bind]. rewrite An. destruct (walk_ok (choose k) (CH k) (length (nodes g)) s n (set_add s []) 1 st h En) as (rest & st1 & E1 & P1 & C1 & N1 & D1 & J1 & z & Z1 & S1).
      + cbn. auto.
      + cbn. repeat constructor. intros [].
      + cbn. intros y [<-|[]]. apply has_get. eauto.
      + lia.
      + auto.
      + rewrite E1. cbn [bind]. destruct (IH st1 _ P1) as (ws & st2 & E2 & L2 & P2 & W2). exists ((s :: rest) :: ws), st2. split; [auto|]. split; [cbn; auto|]. split.
        * destruct P2 as [P2 P3]. split; [auto|]. intros a Ha. rewrite (P3 a Ha). f_equal. f_equal. rewrite <- app_assoc. auto.
        * intros w [<-|Hw]; [|auto]. exists z. split; [split; [exists rest; auto|]; split; auto|]. split; [constructor; [|auto]; intros Q; apply (D1 s Q); cbn; auto|].
          split; [intros i Q; cbn [length]; rewrite (J1 i Q); auto|]. destruct S1 as [S1|S1]; [auto|]. right. intros y Hy. destruct (S1 y Hy) as [Q|Q]; [cbn in Q; destruct Q as [<-|[]]; left; auto|right; auto].
  Qed.
End W.

(** grouping by the row of an activity *)
Section G.
  Variable row : string -> Z.
  Lemma init_rows (ks : list Z) : forall d, (forall k r, dict_get k d = Some r -> r = []) -> NoDup (keys d) ->
    let d' := fold_left (fun d k => dict_set k (@nil string) d) ks d in
    NoDup (keys d') /\ (forall k, In k (keys d') <-> In k (keys d) \/ In k ks) /\ forall k r, dict_get k d' = Some r -> r = [].
  Proof.
    induction ks as [|k ks IH]; intros d H N; cbn [fold_left]; [split; [auto|]; split; [cbn; tauto|auto]|].
    destruct (IH (dict_set k [] d)) as (A & B & C).
    - intros j r. rewrite dict_get_set. destruct (eqb_ok j k); [congruence|apply H].
    - apply keys_dict_set_NoDup. auto.
    - cbv zeta. split; [auto|]. split; [|auto]. intros j. rewrite B, keys_dict_set_In. cbn. intuition congruence.
  Qed.
  Lemma fill_rows (rows : dict string Z) l : forall d, (forall a, In a l -> dict_get a rows = Some (row a) /\ In (row a) (keys d)) -> NoDup (keys d) ->
    exists d', foldM (fun d a => do k <- of_option KeyError (dict_get a rows) ; do r <- of_option KeyError (dict_get k d) ; Ok (dict_set k (r ++ [a]) d)) l d = Ok d' /\
      keys d' = keys d /\ forall k r, dict_get k d = Some r -> dict_get k d' = Some (r ++ filter (fun a => (row a =? k)%Z) l).
  Proof.
    induction l as [|a l IH]; intros d H N; cbn [foldM].
    - exists d. split; [auto|]. split; [auto|]. intros k r E. rewrite app_nil_r. auto.
    - destruct (H a (or_introl eq_refl)) as [E1 E2]. rewrite E1. cbn [of_option bind]. apply dict_get_key in E2 as E3. destruct E3 as [r E3]. rewrite E3. cbn [of_option bind].
      assert (K : keys (dict_set (row a) (r ++ [a]) d) = keys d) by (rewrite keys_dict_set, (proj2 (mem_In _ _)) by auto; auto).
      destruct (IH (dict_set (row a) (r ++ [a]) d)) as (d' & E' & K' & G').
      + intros b Hb. rewrite K. apply H. right. auto.
      + rewrite K. auto.
      + exists d'. split; [auto|]. split; [congruence|]. intros k r' E. cbn [filter]. destruct (Z.eqb_spec (row a) k) as [<-|Ne].
        * rewrite E in E3. injection E3 as ->. rewrite (G' (row a) (r ++ [a])) by (rewrite dict_get_set, eqb_refl; auto). rewrite <- app_assoc. auto.
        * apply G'. rewrite dict_get_set. destruct (eqb_ok k (row a)); [congruence|auto].
  Qed.
End G.

(*P C128 Rows by random walks *)
Lemma C128_rows : forall choose s e n g N C, (forall w i k, 0 < k -> choose w i k < k) -> built g -> shows g N C -> N s \/ n = 0 ->
  exists rows walks, walk_groups choose s e n g = Ok rows /\
    length walks = n /\ (forall w, In w walks -> is_walk (edge_of C) s e w) /\
    StronglySorted Z.lt (map fst rows) /\ (forall k r, In (k, r) rows -> NoDup r /\ r <> []) /\
    forall a k, (exists r, In (k, r) rows /\ In a r) <-> N a /\ nearest (average0 (steps walks a)) k.
Proof.
  intros choose s e n g N C CH B SH HS. open B SH W HN HC.
  assert (P0 : pushed g (map (fun a => (a, st_empty)) (keys (nodes g))) (fun _ => [])).
  { split; [unfold keys at 1; rewrite map_map, map_id; auto|]. intros a Ha. unfold has in Ha. clear - Ha. induction (keys (nodes g)) as [|b l IH]; [destruct Ha|]. cbn [map dict_get]. destruct (eqb_ok a b) as [|Q]; [auto|]. destruct Ha as [Ha|Ha]; [congruence|auto]. }
  assert (X : exists ws st', foldM (fun st w => do n <- node_id g s ; Drawings.walk (length (nodes g)) (choose w) g e n (set_add (n_act (nh g n)) []) 1 st) (seq 0 n) (map (fun a => (a, st_empty)) (keys (nodes g))) = Ok st' /\
      length ws = n /\ pushed g st' (fun a => steps ws a) /\ forall w, In w ws -> is_walk (edge_of C) s e w).
  { destruct HS as [HS| ->]; [|exists [], (map (fun a => (a, st_empty)) (keys (nodes g))); split; [auto|]; split; [auto|]; split; [exact P0|intros w []]].
    apply HN, has_get in HS. destruct HS as [i Hi]. destruct (walks_ok g W e s choose i CH Hi (seq 0 n) _ _ P0) as (ws & st' & E & L & P & Q). exists ws, st'. split; [auto|]. split; [rewrite L, seq_length; auto|]. split; [auto|].
    intros w Hw. destruct (Q w Hw) as (z & (P1 & P2 & P3) & Q2 & Q3 & Q4).
    assert (ED : forall a b, edge_of C a b <-> cnt g a b <> None) by (intros a b; unfold edge_of; rewrite HC; tauto).
    exists z. split; [split; [auto|]; split; [auto|]|split; [auto|]; split; [auto|]; destruct Q4 as [Q4|Q4]; [auto|]; right; intros y Hy; apply Q4, ED, Hy].
    clear - P3 ED. induction w as [|a w IH]; [auto|]. destruct w as [|b w]; [auto|]. destruct P3 as [P3 P4]. split; [apply ED; auto|auto]. }
  destruct X as (ws & st & E & L & [P1 P2] & Q). unfold walk_groups. rewrite E. cbn [bind].
  set (row := fun a => py_round (st_get_mean (st_of (steps ws a)))).
  set (rows := map (fun '(a, s) => (a, py_round (st_get_mean s))) st).
  assert (ND : NoDup (keys st)) by (rewrite P1; apply W).
  assert (R : forall a, has g a -> dict_get a rows = Some (row a)).
  { intros a Ha. specialize (P2 a Ha). unfold rows, row. clear - P2. induction st as [|[b x] st IH]; [discriminate|]. cbn [map dict_get] in *. destruct (eqb_ok a b); [congruence|auto]. }
  assert (V : forall k, In k (values rows) <-> exists a, has g a /\ row a = k).
  { intros k. unfold values, rows. rewrite map_map, in_map_iff. split.
    - intros ([a x] & <- & Hin). exists a. assert (Ha : has g a) by (unfold has; rewrite <- P1; apply (in_map fst) in Hin; auto). split; [auto|]. apply dict_In_get in Hin; [|auto]. rewrite (P2 a Ha) in Hin. injection Hin as <-. auto.
    - intros (a & Ha & <-). exists (a, st_of (steps ws a)). split; [auto|]. apply dict_get_In, P2, Ha. }
  destruct (init_rows (values rows) []) as (I1 & I2 & I3); [discriminate|constructor|].
  rewrite (activities_keys g W).
  destruct (fill_rows row rows (keys (nodes g))) with (d := fold_left (fun d k => dict_set k (@nil string) d) (values rows) []) as (d & F1 & F2 & F3).
  { intros a Ha. split; [apply R; auto|]. apply I2. right. apply V. exists a. auto. }
  { auto. }
  rewrite F1. cbn [bind]. exists (stable_sort (fun a b => (fst a <=? fst b)%Z) d), ws. split; [auto|]. split; [auto|]. split; [auto|].
  assert (D : forall k r, In (k, r) d <-> (exists a, has g a /\ row a = k) /\ r = filter (fun a => (row a =? k)%Z) (keys (nodes g))).
  { assert (Nd : NoDup (keys d)) by (rewrite F2; auto). intros k r. rewrite <- V. split.
    - intros Hin. apply dict_In_get in Hin; [|auto]. pose proof (dict_get_Some_key _ _ _ Hin) as K. rewrite F2 in K. apply dict_get_key in K as K'. destruct K' as [r0 K']. pose proof (I3 _ _ K') as ->. specialize (F3 k [] K'). rewrite Hin in F3. injection F3 as ->.
      split; [|auto]. apply I2 in K. destruct K as [[]|K]. auto.
    - intros [Hk ->]. apply dict_get_In. assert (K : In k (keys (fold_left (fun d k => dict_set k (@nil string) d) (values rows) []))) by (apply I2; auto). apply dict_get_key in K. destruct K as [r0 K]. pose proof (I3 _ _ K) as ->. exact (F3 k [] K). }
  split; [|split].
  - assert (S : StronglySorted (fun a b => (fst a <=? fst b)%Z = true) (stable_sort (fun a b => (fst a <=? fst b)%Z) d)).
    { apply sort_sorted; [intros a b; rewrite !Z.leb_le; lia|intros a b c; rewrite !Z.leb_le; lia]. }
    assert (Nk : NoDup (map fst (stable_sort (fun a b => (fst a <=? fst b)%Z) d))) by (eapply Permutation_NoDup; [apply Permutation_map; symmetry; apply sort_perm|]; change (NoDup (keys d)); rewrite F2; auto).
    clear - S Nk. induction S as [|x l S IH F]; cbn [map] in *; [constructor|]. inversion Nk as [|? ? N1 N2]; subst. constructor; [auto|]. rewrite Forall_forall in *. intros k Hk. apply in_map_iff in Hk. destruct Hk as (y & <- & Hy). pose proof (F y Hy) as Q. apply Z.leb_le in Q.
    assert (fst x <> fst y) by (intros Z; apply N1; rewrite Z; apply in_map; auto). lia.
  - intros k r Hin. apply sort_In in Hin. apply D in Hin. destruct Hin as [(a & Ha & Ra) ->]. split; [apply NoDup_filter; apply W|]. intros Z. assert (I : In a (filter (fun a => (row a =? k)%Z) (keys (nodes g)))) by (apply filter_In; split; [auto|apply Z.eqb_eq; auto]). rewrite Z in I. destruct I.
  - intros a k. rewrite HN. assert (M : (st_get_mean (st_of (steps ws a)) == average0 (steps ws a))%Q) by apply mean_average0.
    assert (RN : nearest (average0 (steps ws a)) (row a)) by (apply (nearest_eq _ _ _ M), round_nearest). split.
    + intros (r & Hin & Ha). apply sort_In in Hin. apply D in Hin. destruct Hin as [_ ->]. apply filter_In in Ha. destruct Ha as [Ha Hk]. apply Z.eqb_eq in Hk. subst k. auto.
    + intros [Ha Hk]. rewrite (nearest_unique _ _ _ Hk RN). eexists. split; [apply sort_In, D; split; [exists a; auto|reflexivity]|]. apply filter_In. split; [auto|apply Z.eqb_refl].
Qed.
Lemma C128_errors : forall choose s e n g N C, built g -> shows g N C -> ~ N s -> 0 < n -> walk_groups choose s e n g = Err KeyError.
Proof.
  intros choose s e n g N C B SH HS Hn. open B SH W HN HC. destruct n as [|n]; [lia|]. unfold walk_groups. cbn [seq foldM]. unfold node_id. destruct (dict_get s (nodes g)) as [i|] eqn:E; [|auto]. exfalso. apply HS, HN, has_get. eauto.
Qed.
