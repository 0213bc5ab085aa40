(** Heatmaps, Min and colors *)
From Coq Require Import String QArith Sorted Permutation Reals Lra Lqa.
From Verif.Model Require Import Base Sort Heatmap FuncTools Color.
From Verif.Spec Require Import FigureSpec.
From Verif.Lib Require Import ListLib SortLib.
Open Scope string_scope.
Open Scope list_scope.
Open Scope nat_scope.

Lemma arange_nth n i : nth_error (arange n) i = if i <? n then Some (Z.of_nat i) else None.
Proof.
  unfold arange. rewrite nth_error_map. destruct (Nat.ltb_spec i n).
  - rewrite (nth_error_nth' _ 0) by (rewrite seq_length; lia). rewrite seq_nth by lia. auto.
  - rewrite (proj2 (nth_error_None _ _)); [auto|]. rewrite seq_length. lia.
Qed.
Lemma Qltb_spec a b : Qltb a b = true <-> (a < b)%Q.
Proof. unfold Qltb. rewrite negb_true_iff. split; intros Q. - apply Qnot_le_lt. intros L. apply Qle_bool_iff in L. congruence. - apply not_true_iff_false. intros L. apply Qle_bool_iff in L. apply (Qlt_not_le _ _ Q L). Qed.
Lemma mapM_seq {A} (f : nat -> result A) (g : nat -> A) n s : (forall i, s <= i < s + n -> f i = Ok (g i)) -> mapM f (seq s n) = Ok (map g (seq s n)).
Proof.
  revert s; induction n as [|n IH]; intros s E; [auto|]. cbn [seq mapM map]. rewrite E by lia. rewrite IH by (intros; apply E; lia). auto.
Qed.
Lemma nth_grid {A} (g : nat -> nat -> A) m : forall n s i j, i < n -> j < m -> nth_error (concat (map (fun i => map (g i) (seq 0 m)) (seq s n))) (i * m + j) = Some (g (s + i) j).
Proof.
  induction n as [|n IH]; intros s i j Hi Hj; [lia|]. cbn [seq map concat]. destruct i as [|i].
  - cbn [Nat.mul Nat.add]. rewrite nth_error_app1 by (rewrite map_length, seq_length; auto). rewrite nth_error_map, (nth_error_nth' _ 0) by (rewrite seq_length; lia). rewrite seq_nth by lia. cbn. rewrite Nat.add_0_r. auto.
  - rewrite nth_error_app2 by (rewrite map_length, seq_length; lia). rewrite map_length, seq_length. replace (S i * m + j - m) with (i * m + j) by lia. rewrite IH by lia. do 2 f_equal. lia.
Qed.
Lemma length_grid {A} (g : nat -> nat -> A) m : forall n s, length (concat (map (fun i => map (g i) (seq 0 m)) (seq s n))) = n * m.
Proof. induction n as [|n IH]; intros s; [auto|]. cbn [seq map concat]. rewrite app_length, map_length, seq_length, IH. auto. Qed.
Lemma fold_max r : forall q, let x := fold_left (fun a b => if Qltb a b then b else a) r q in In x (q :: r) /\ Forall (fun y => (y <= x)%Q) (q :: r).
Proof.
  induction r as [|b r IH]; intros q; cbn [fold_left]; [cbn; split; [auto|repeat constructor; apply Qle_refl]|].
  destruct (IH (if Qltb q b then b else q)) as [I F]. set (x := fold_left _ r _) in *. inversion F as [|? ? F1 F2]; subst. destruct (Qltb q b) eqn:E.
  - apply Qltb_spec in E. split; [right; auto|]. constructor; [apply Qle_trans with b; [apply Qlt_le_weak; auto|auto]|constructor; auto].
  - assert (b <= q)%Q by (apply Qnot_lt_le; intros Q; apply Qltb_spec in Q; congruence). split; [destruct I as [I|I]; [left; auto|right; right; auto]|]. constructor; [auto|constructor; [apply Qle_trans with q; auto|auto]].
Qed.
Lemma norm_lt im a b : (vmin im < vmax im)%Q -> (norm im a < norm im b)%Q <-> (a < b)%Q.
Proof.
  intros L. unfold norm. destruct (Qeq_bool (vmin im) (vmax im)) eqn:E; [apply Qeq_bool_iff in E; rewrite E in L; apply Qlt_irrefl in L; tauto|].
  set (d := (vmax im - vmin im)%Q). assert (D : (0 < d)%Q) by (unfold d; lra). assert (D' : (0 < / d)%Q) by (apply Qinv_lt_0_compat; auto). unfold Qdiv. split; intros Q.
  - apply Qmult_lt_r in Q; [lra|auto].
  - apply Qmult_lt_r; [auto|lra].
Qed.
Lemma norm_half im q v : (vmin im < vmax im)%Q -> (norm im q / 2 < norm im v)%Q <-> ((vmin im + q) / 2 < v)%Q.
Proof.
  intros L. rewrite <- (norm_lt im _ v L). unfold norm. destruct (Qeq_bool (vmin im) (vmax im)) eqn:E; [apply Qeq_bool_iff in E; rewrite E in L; apply Qlt_irrefl in L; tauto|].
  assert (D : ~ (vmax im - vmin im == 0)%Q) by lra. assert (Q : (((vmin im + q) / 2 - vmin im) / (vmax im - vmin im) == (q - vmin im) / (vmax im - vmin im) / 2)%Q) by (field; auto). rewrite Q. tauto.
Qed.
Section A.
  Variable valfmt : Q -> string.
  Lemma loop_ok c0 c1 rest im n m c t : loop valfmt (c0 :: c1 :: rest) im n m c t =
    Ok (concat (map (fun i => map (fun j => Text j i (valfmt (c i j)) (if Qltb t (norm im (c i j)) then c1 else c0)) (seq 0 m)) (seq 0 n))).
  Proof.
    unfold loop. rewrite (mapM_seq _ (fun i => map (fun j => Text j i (valfmt (c i j)) (if Qltb t (norm im (c i j)) then c1 else c0)) (seq 0 m))); [auto|].
    intros i _. apply mapM_seq. intros j _. destruct (Qltb t (norm im (c i j))); auto.
  Qed.
End A.

(*P C119 Heatmaps show the data *)
Lemma C119_plot : forall data row_labels col_labels show label,
  (shape data = [length row_labels; length col_labels] -> exists ax, plot_heatmap data row_labels col_labels show label = Ok ax /\
     image ax = data /\ colorbar ax = (if show then Some label else None) /\ xlabels ax = col_labels /\ ylabels ax = row_labels /\
     (forall j, nth_error (xticks ax) j = if j <? length col_labels then Some (Z.of_nat j) else None) /\
     (forall i, nth_error (yticks ax) i = if i <? length row_labels then Some (Z.of_nat i) else None) /\
     (forall j, nth_error (xminor ax) j = if j <? length col_labels + 1 then Some (inject_Z (Z.of_nat j) - (1 # 2))%Q else None) /\
     (forall i, nth_error (yminor ax) i = if i <? length row_labels + 1 then Some (inject_Z (Z.of_nat i) - (1 # 2))%Q else None)) /\
  (shape data <> [length row_labels; length col_labels] -> plot_heatmap data row_labels col_labels show label = Err ValueError).
Proof.
  intros data rl cl show label. unfold plot_heatmap. split.
  - intros ->. rewrite !Nat.eqb_refl. cbn [negb]. eexists. split; [reflexivity|]. cbn [image colorbar xlabels ylabels xticks yticks xminor yminor]. do 4 (split; [auto|]). split; [apply arange_nth|]. split; [apply arange_nth|].
    split; intros j; rewrite nth_error_map, arange_nth; destruct (j <? _); auto.
  - intros N. destruct (shape data) as [|n [|m [|k r]]]; auto. destruct (Nat.eqb_spec n (length rl)); [|auto]. destruct (Nat.eqb_spec m (length cl)); [|auto]. exfalso. apply N. congruence.
Qed.
(** the array that is annotated *)
Lemma C119_annotate : forall valfmt below above rest im data a n m t, data = Array a \/ (data = Nothing /\ array_of im = a) -> shape a = [n; m] -> (vmin im < vmax im)%Q ->
  exists texts, annotate_heatmap valfmt (below :: above :: rest) im data (Some t) = Ok texts /\ length texts = n * m /\
    forall i j, i < n -> j < m -> exists color, nth_error texts (i * m + j) = Some (Text j i (valfmt (cell a i j)) color) /\
      ((t < cell a i j)%Q -> color = above) /\ ((cell a i j <= t)%Q -> color = below).
Proof.
  intros valfmt below above rest im data a n m t D S L. unfold annotate_heatmap.
  replace (match data with Nothing => Some (array_of im) | AList => None | Array a => Some a end) with (Some a) by (destruct D as [->|[-> ->]]; auto).
  rewrite S. cbn [bind]. rewrite loop_ok. eexists. split; [reflexivity|]. split; [apply length_grid|]. intros i j Hi Hj.
  rewrite (nth_grid (fun i j => Text j i (valfmt (cell a i j)) (if Qltb (norm im t) (norm im (cell a i j)) then above else below))) by auto. cbn [Nat.add]. eexists. split; [reflexivity|].
  destruct (Qltb (norm im t) (norm im (cell a i j))) eqn:E.
  - apply Qltb_spec, norm_lt in E; [|auto]. split; [auto|]. intros Q. exfalso. apply (Qlt_not_le _ _ E Q).
  - split; [|auto]. intros Q. apply (norm_lt im _ _ L), Qltb_spec in Q. congruence.
Qed.
(** without a threshold: the middle between the lower end of the colors and the largest value *)
Lemma C119_default : forall valfmt below above rest im data a n m, data = Array a \/ (data = Nothing /\ array_of im = a) -> shape a = [n; m] -> 0 < n -> 0 < m -> (vmin im < vmax im)%Q ->
  exists texts q, annotate_heatmap valfmt (below :: above :: rest) im data None = Ok texts /\ length texts = n * m /\
    (exists i j, i < n /\ j < m /\ q = cell a i j) /\ (forall i j, i < n -> j < m -> (cell a i j <= q)%Q) /\
    forall i j, i < n -> j < m -> exists color, nth_error texts (i * m + j) = Some (Text j i (valfmt (cell a i j)) color) /\
      (((vmin im + q) / 2 < cell a i j)%Q -> color = above) /\ ((cell a i j <= (vmin im + q) / 2)%Q -> color = below).
Proof.
  intros valfmt below above rest im data a n m D S Hn Hm L. unfold annotate_heatmap.
  replace (match data with Nothing => Some (array_of im) | AList => None | Array a => Some a end) with (Some a) by (destruct D as [->|[-> ->]]; auto). rewrite S.
  assert (Q : exists q, maximum (cells n m (cell a)) = Ok q /\ (exists i j, i < n /\ j < m /\ q = cell a i j) /\ (forall i j, i < n -> j < m -> (cell a i j <= q)%Q)).
  { assert (IN : forall x, In x (cells n m (cell a)) <-> exists i j, i < n /\ j < m /\ x = cell a i j).
    { intros x. unfold cells. rewrite in_flat_map. split.
      - intros (i & Hi & Hx). apply in_map_iff in Hx. destruct Hx as (j & <- & Hj). apply in_seq in Hi, Hj. exists i, j. repeat split; auto; lia.
      - intros (i & j & Hi & Hj & ->). exists i. split; [apply in_seq; lia|]. apply in_map, in_seq. lia. }
    destruct (cells n m (cell a)) as [|q0 r] eqn:E; [exfalso; apply (proj2 (IN (cell a 0 0))); exists 0, 0; auto|]. cbn [maximum]. destruct (fold_max r q0) as [I F]. eexists. split; [reflexivity|]. split; [apply IN; auto|].
    intros i j Hi Hj. rewrite Forall_forall in F. apply F, IN. eauto. }
  destruct Q as (q & -> & A & B). cbn [bind]. rewrite loop_ok. eexists _, q. split; [reflexivity|]. split; [apply length_grid|]. split; [auto|]. split; [auto|]. intros i j Hi Hj.
  rewrite (nth_grid (fun i j => Text j i (valfmt (cell a i j)) (if Qltb (norm im q / 2) (norm im (cell a i j)) then above else below))) by auto. cbn [Nat.add]. eexists. split; [reflexivity|].
  destruct (Qltb (norm im q / 2) (norm im (cell a i j))) eqn:E.
  - apply Qltb_spec, norm_half in E; [|auto]. split; [auto|]. intros Q. exfalso. apply (Qlt_not_le _ _ E Q).
  - split; [|auto]. intros Q. apply (norm_half im _ _ L), Qltb_spec in Q. congruence.
Qed.
(** an image of one color: all texts have the first color *)
Lemma C119_constant : forall valfmt below above rest im data a n m t, data = Array a \/ (data = Nothing /\ array_of im = a) -> shape a = [n; m] -> (vmin im == vmax im)%Q -> (t = None -> 0 < n /\ 0 < m) ->
  exists texts, annotate_heatmap valfmt (below :: above :: rest) im data t = Ok texts /\ length texts = n * m /\
    forall i j, i < n -> j < m -> nth_error texts (i * m + j) = Some (Text j i (valfmt (cell a i j)) below).
Proof.
  intros valfmt below above rest im data a n m t D S L T. unfold annotate_heatmap.
  replace (match data with Nothing => Some (array_of im) | AList => None | Array a => Some a end) with (Some a) by (destruct D as [->|[-> ->]]; auto).
  rewrite S. apply Qeq_bool_iff in L. assert (N0 : forall v, norm im v = 0%Q) by (intros v; unfold norm; rewrite L; auto).
  assert (Q : exists q, match t with Some t => Ok (norm im t) | None => do q <- maximum (cells n m (cell a)) ; Ok (norm im q / 2)%Q end = Ok q /\ Qltb q 0 = false).
  { destruct t as [t|]; [exists (norm im t); rewrite N0; auto|]. destruct (T eq_refl) as [Hn Hm]. destruct n as [|n], m as [|m]; try lia. cbn [cells seq flat_map map app maximum bind].
    eexists. split; [reflexivity|]. rewrite N0. auto. }
  destruct Q as (q & -> & Q). cbn [bind]. rewrite loop_ok. eexists. split; [reflexivity|]. split; [apply length_grid|]. intros i j Hi Hj.
  rewrite (nth_grid (fun i j => Text j i (valfmt (cell a i j)) (if Qltb q (norm im (cell a i j)) then above else below))) by auto. cbn [Nat.add]. do 2 f_equal.
  rewrite N0, Q. auto.
Qed.
Lemma C119_errors : forall valfmt colors im t, annotate_heatmap valfmt colors im AList t = Err AttributeError /\
  forall a n m, shape a = [n; m] -> n = 0 \/ m = 0 -> annotate_heatmap valfmt colors im (Array a) None = Err ValueError.
Proof.
  intros valfmt colors im t. split; [auto|]. intros a n m S Z. unfold annotate_heatmap. rewrite S. assert (E : cells n m (cell a) = []).
  { unfold cells. destruct Z as [->| ->]; [auto|]. cbn [seq map]. induction (seq 0 n); auto. }
  rewrite E. auto.
Qed.

(*P C120 Min is smaller than everything *)
Lemma C120_order : forall (V : Type) (EV : Eq V) leb, total_order leb -> let ok (a : obj V) := forall n, a = Least n -> n = 0 in
  (forall a b, ok a -> ok b -> py_le leb a b = true \/ py_le leb b a = true) /\
  (forall a b c, ok a -> ok b -> ok c -> py_le leb a b = true -> py_le leb b c = true -> py_le leb a c = true) /\
  (forall a b, ok a -> ok b -> py_le leb a b = true -> py_le leb b a = true -> a = b) /\
  (forall a b, ok a -> ok b -> (py_eq a b = true <-> a = b) /\ (py_lt leb a b = true <-> py_le leb a b = true /\ a <> b) /\
     py_gt leb a b = py_lt leb b a /\ py_ge leb a b = py_le leb b a) /\
  (forall v, py_lt leb (Least 0) (Val v) = true).
Proof.
  intros V EV leb (T1 & T2 & T3) ok.
  assert (O : forall a, ok a -> a = Least 0 \/ exists v, a = Val v) by (intros [v|n] H; [right; eauto|left; rewrite (H n eq_refl); auto]).
  split; [|split; [|split; [|split]]].
  - intros a b Ha Hb. destruct (O a Ha) as [->|[v ->]]; destruct (O b Hb) as [->|[w ->]]; cbn; auto.
  - intros a b c Ha Hb Hc. destruct (O a Ha) as [->|[v ->]]; destruct (O b Hb) as [->|[w ->]]; destruct (O c Hc) as [->|[u ->]]; cbn; auto; try discriminate. apply T2.
  - intros a b Ha Hb. destruct (O a Ha) as [->|[v ->]]; destruct (O b Hb) as [->|[w ->]]; cbn; auto; try discriminate. intros L1 L2. f_equal. auto.
  - intros a b Ha Hb. destruct (O a Ha) as [->|[v ->]]; destruct (O b Hb) as [->|[w ->]]; cbn.
    + repeat split; auto; try congruence. intros [_ Q]. congruence.
    + repeat split; auto; try congruence; discriminate.
    + repeat split; auto; try congruence; try discriminate. intros [Q _]. discriminate.
    + assert (C : eqb w v = eqb v w) by (destruct (eqb_ok v w), (eqb_ok w v); congruence). rewrite C. destruct (eqb_ok v w) as [E|N]; cbn [negb]; rewrite ?andb_true_r, ?andb_false_r.
      * subst w. split; [tauto|]. split; [|auto]. split; [discriminate|]. intros [_ Q]. congruence.
      * split; [split; [discriminate|congruence]|]. split; [|auto]. split; [intros Q; split; [auto|congruence]|tauto].
  - auto.
Qed.
Lemma C120_sorted : forall (V : Type) (EV : Eq V) leb (l : list (option V)), total_order leb ->
  exists vs, sorted_none_first leb l = repeat None (length (filter (fun x => match x with None => true | Some _ => false end) l)) ++ map Some vs /\
    Permutation (map Some vs) (filter (fun x => match x with None => false | Some _ => true end) l) /\
    StronglySorted (fun v w => leb v w = true) vs.
Proof.
  intros V EV leb l (T1 & T2 & T3). unfold sorted_none_first. set (le2 := fun a b : option V => _).
  assert (LE : forall a b, le2 a b = match a, b with None, _ => true | Some _, None => false | Some v, Some w => leb v w end).
  { intros [v|] [w|]; unfold le2; cbn; auto. destruct (leb v w) eqn:E1; destruct (leb w v) eqn:E2; cbn; auto.
    - rewrite (T3 v w E1 E2). destruct (eqb_ok w w); [auto|congruence].
    - destruct (eqb_ok w v) as [->|]; [congruence|auto].
    - destruct (T1 v w); congruence. }
  induction l as [|x l (vs & E & P & S)]; [exists []; cbn; repeat constructor|]. cbn [stable_sort fold_right]. fold (stable_sort le2 l). rewrite E.
  set (k := length _) in *. destruct x as [v|].
  - assert (I : forall k vs, sort_insert le2 (Some v) (repeat None k ++ map Some vs) = repeat None k ++ map Some (sort_insert leb v vs)).
    { clear - LE. induction k as [|k IH]; intros vs; cbn [repeat app].
      - induction vs as [|w vs IH]; [auto|]. cbn [map sort_insert]. rewrite LE. destruct (leb v w); [auto|]. cbn [map]. rewrite IH. auto.
      - cbn [sort_insert]. rewrite LE, IH. auto. }
    exists (sort_insert leb v vs). rewrite I. cbn [filter]. fold k. split; [auto|]. split.
    + rewrite <- P. change (Some v :: map Some vs) with (map Some (v :: vs)). apply Permutation_map, insert_perm.
    + apply insert_sorted; auto.
  - exists vs. cbn [filter length]. fold k. split; [|auto]. assert (I : sort_insert le2 None (repeat None k ++ map Some vs) = None :: repeat None k ++ map Some vs).
    { destruct (repeat None k ++ map Some vs) as [|y r]; [auto|]. cbn [sort_insert]. rewrite LE. auto. }
    rewrite I. auto.
Qed.
(** two different objects of the class are smaller than each other *)
Lemma C120_two_witness : forall (V : Type) (EV : Eq V) leb m n, m <> n -> py_lt (V := V) leb (Least m) (Least n) = true /\ py_lt (V := V) leb (Least n) (Least m) = true.
Proof. intros V EV leb m n N. cbn. unfold min_lt. cbn. destruct (Nat.eqb_spec m n); [congruence|]. destruct (Nat.eqb_spec n m); [congruence|]. auto. Qed.

(*P C121 Light and dark colors *)
Lemma C121_threshold : forall r g b, is_light_or_dark_rgb [r; g; b] = Ok (if (16256250 <? 299 * (r * r) + 587 * (g * g) + 114 * (b * b))%Z then Light else Dark).
Proof.
  intros r g b. cbn [is_light_or_dark_rgb]. set (x := (0.299 * (IZR r * IZR r) + 0.587 * (IZR g * IZR g) + 0.114 * (IZR b * IZR b))%R).
  assert (P : (0 <= x)%R) by (unfold x; pose proof (Rle_0_sqr (IZR r)); pose proof (Rle_0_sqr (IZR g)); pose proof (Rle_0_sqr (IZR b)); unfold Rsqr in *; Lra.lra).
  assert (X : (1000 * x = IZR (299 * (r * r) + 587 * (g * g) + 114 * (b * b)))%R) by (unfold x; rewrite !plus_IZR, !mult_IZR; Lra.lra).
  destruct (Rlt_dec 127.5 (sqrt x)) as [L|L]; destruct (Z.ltb_spec 16256250 (299 * (r * r) + 587 * (g * g) + 114 * (b * b))) as [M|M]; auto; exfalso.
  - apply IZR_le in M. rewrite <- X in M. assert (Q : (127.5 * 127.5 < sqrt x * sqrt x)%R) by (apply Rmult_le_0_lt_compat; Lra.lra). rewrite sqrt_sqrt in Q by auto. Lra.lra.
  - apply IZR_lt in M. rewrite <- X in M. apply Rnot_lt_le in L. assert (Q : (sqrt x * sqrt x <= 127.5 * 127.5)%R) by (apply Rmult_le_compat; try apply sqrt_pos; auto). rewrite sqrt_sqrt in Q by auto. Lra.lra.
Qed.
(** more of any color never makes a light color dark *)
Lemma C121_monotone : forall r g b r' g' b', (0 <= r <= r')%Z -> (0 <= g <= g')%Z -> (0 <= b <= b')%Z ->
  is_light_or_dark_rgb [r; g; b] = Ok Light -> is_light_or_dark_rgb [r'; g'; b'] = Ok Light.
Proof.
  intros r g b r' g' b' R G B. rewrite !C121_threshold. destruct (Z.ltb_spec 16256250 (299 * (r * r) + 587 * (g * g) + 114 * (b * b))); [|discriminate]. intros _.
  destruct (Z.ltb_spec 16256250 (299 * (r' * r') + 587 * (g' * g') + 114 * (b' * b'))); [auto|nia].
Qed.
(** a grey is light from the middle on *)
Lemma C121_grey : forall v, (0 <= v)%Z -> is_light_or_dark_rgb [v; v; v] = Ok (if (128 <=? v)%Z then Light else Dark).
Proof.
  intros v V. rewrite C121_threshold. destruct (Z.ltb_spec 16256250 (299 * (v * v) + 587 * (v * v) + 114 * (v * v))); destruct (Z.leb_spec 128 v); auto; nia.
Qed.
Lemma C121_errors : forall rgb, length rgb <> 3 -> is_light_or_dark_rgb rgb = Err ValueError.
Proof. intros [|r [|g [|b [|x l]]]] H; auto. cbn in H. lia. Qed.
