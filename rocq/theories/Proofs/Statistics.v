From Verif.Model Require Import Base Statistics.
From Verif.Spec Require Import Moments.
From Coq Require Import QArith Qfield Lqa.
Open Scope Q_scope.

(** power sums *)
Definition psum (k : nat) (xs : list Q) : Q :=
  match k with
  | 1%nat => total xs
  | 2%nat => total (map (fun x => x * x) xs)
  | 3%nat => total (map (fun x => x * x * x) xs)
  | _ => total (map (fun x => x * x * x * x) xs)
  end.

Lemma total_app xs ys : total (xs ++ ys) == total xs + total ys.
Proof.
  unfold total. induction xs as [|x xs IH]; cbn [app fold_right].
  - ring.
  - rewrite IH. ring.
Qed.
Lemma psum_app k xs ys : psum k (xs ++ ys) == psum k xs + psum k ys.
Proof. destruct k as [|[|[|[|k]]]]; unfold psum; rewrite ?map_app; apply total_app. Qed.
Lemma size_app xs ys : size (xs ++ ys) == size xs + size ys.
Proof. unfold size. rewrite app_length, Nat2Z.inj_add, inject_Z_plus. reflexivity. Qed.

Lemma size_pos xs : xs <> [] -> 0 < size xs.
Proof.
  intros Hx. unfold size. change 0 with (inject_Z 0). rewrite <- Zlt_Qlt.
  destruct xs; [congruence|]. cbn [length]. lia.
Qed.

(** central sums in terms of power sums *)
Lemma central_expand_gen (m : Q) xs :
  total (map (fun x => Qpower (x - m) 2) xs) == psum 2 xs - 2 * m * psum 1 xs + size xs * m * m /\
  total (map (fun x => Qpower (x - m) 3) xs) ==
    psum 3 xs - 3 * m * psum 2 xs + 3 * m * m * psum 1 xs - size xs * m * m * m /\
  total (map (fun x => Qpower (x - m) 4) xs) ==
    psum 4 xs - 4 * m * psum 3 xs + 6 * m * m * psum 2 xs - 4 * m * m * m * psum 1 xs
    + size xs * m * m * m * m.
Proof.
  induction xs as [|x xs (IH2 & IH3 & IH4)].
  - unfold size, psum; cbn [map total fold_right length]. change (inject_Z (Z.of_nat 0)) with 0.
    repeat split; ring.
  - assert (Hs : size (x :: xs) == 1 + size xs).
    { rewrite <- (size_app [x] xs). reflexivity. }
    unfold psum in *. cbn [map total fold_right] in *.
    change (fold_right Qplus 0) with total in *.
    rewrite IH2, IH3, IH4, Hs. unfold Qpower, Qpower_positive; cbn [pow_pos]. repeat split; ring.
Qed.

Definition c2 n p1 p2 : Q := p2 - p1 * p1 / n.
Definition c3 n p1 p2 p3 : Q := p3 - 3 * p1 * p2 / n + 2 * p1 * p1 * p1 / (n * n).
Definition c4 n p1 p2 p3 p4 : Q :=
  p4 - 4 * p1 * p3 / n + 6 * p1 * p1 * p2 / (n * n) - 3 * p1 * p1 * p1 * p1 / (n * n * n).

Lemma central_expand xs : xs <> [] ->
  central 2 xs == c2 (size xs) (psum 1 xs) (psum 2 xs) /\
  central 3 xs == c3 (size xs) (psum 1 xs) (psum 2 xs) (psum 3 xs) /\
  central 4 xs == c4 (size xs) (psum 1 xs) (psum 2 xs) (psum 3 xs) (psum 4 xs).
Proof.
  intros Hx. pose proof (size_pos xs Hx) as Hp. assert (Hn : ~ size xs == 0) by lra.
  destruct (central_expand_gen (average xs) xs) as (H2 & H3 & H4).
  unfold central. change (Z.of_nat 2) with 2%Z. change (Z.of_nat 3) with 3%Z. change (Z.of_nat 4) with 4%Z.
  rewrite H2, H3, H4. unfold average. change (total xs) with (psum 1 xs).
  unfold c2, c3, c4. repeat split; field; auto.
Qed.

(** ** the observable part of a state agrees with the pushed values *)
Definition agrees (s : statistics) (xs : list Q) : Prop :=
  st_count s = Z.of_nat (length xs) /\
  (xs <> [] -> st_mean s == average xs) /\
  (xs = [] -> st_mean s == 0 /\ st_rho s == 0 /\ st_min s = None /\ st_max s = None) /\
  (xs <> [] -> st_rho s == central 2 xs /\
     (exists m, st_min s = Some m /\ is_minimum m xs) /\
     (exists m, st_max s = Some m /\ is_maximum m xs)).

Definition agrees_moments (s : statistics) (xs : list Q) : Prop :=
  agrees s xs /\
  (xs = [] -> st_tau s == 0 /\ st_phi s == 0) /\
  (xs <> [] -> st_tau s == central 3 xs /\ st_phi s == central 4 xs).

Lemma Qltb_spec a b : reflect (a < b) (Qltb a b).
Proof.
  unfold Qltb. destruct (Qle_bool b a) eqn:E; constructor.
  - apply Qle_bool_iff in E. lra.
  - apply Qnot_le_lt. intros Hl. apply Qle_bool_iff in Hl. congruence.
Qed.

Lemma agrees_count_size s xs : agrees s xs -> inject_Z (st_count s) = size xs.
Proof. intros (E & _). rewrite E. reflexivity. Qed.

Lemma ulong_id z : (0 <= z < 2 ^ 64)%Z -> (z mod 2 ^ 64 = z)%Z.
Proof. intros Hz. apply Z.mod_small; auto. Qed.

Lemma snoc_not_nil {X} (xs : list X) x : xs ++ [x] <> [].
Proof. destruct xs; discriminate. Qed.

Lemma psum_one k x : psum k [x] ==
  match k with 1%nat => x | 2%nat => x * x | 3%nat => x * x * x | _ => x * x * x * x end.
Proof. destruct k as [|[|[|[|k]]]]; unfold psum; cbn [map total fold_right]; ring. Qed.

Lemma push_min_max s xs x : agrees s xs ->
  (exists m, st_min (st_push s x) = Some m /\ is_minimum m (xs ++ [x])) /\
  (exists m, st_max (st_push s x) = Some m /\ is_maximum m (xs ++ [x])).
Proof.
  intros (Hc & _ & _ & Hne). unfold st_push. cbn [st_min st_max].
  destruct (Z.eqb_spec (st_count s) 0) as [E|E].
  - assert (xs = []) as -> by (destruct xs; auto; cbn [length] in Hc; lia).
    split; exists x; (split; [auto|]); split; cbn; auto; intros y [<-|[]]; lra.
  - assert (Hx : xs <> []) by (intros ->; cbn in Hc; lia).
    destruct (Hne Hx) as (_ & (m & -> & Hm1 & Hm2) & (M & -> & HM1 & HM2)). split.
    + destruct (Qltb_spec x m) as [L|L]; eexists; (split; [reflexivity|]).
      * split; [apply in_or_app; right; left; auto|]. intros y Hy.
        apply in_app_or in Hy as [Hy|[<-|[]]]; [specialize (Hm2 y Hy)|]; lra.
      * split; [apply in_or_app; left; auto|]. intros y Hy.
        apply in_app_or in Hy as [Hy|[<-|[]]]; [specialize (Hm2 y Hy)|]; lra.
    + destruct (Qltb_spec M x) as [L|L]; eexists; (split; [reflexivity|]).
      * split; [apply in_or_app; right; left; auto|]. intros y Hy.
        apply in_app_or in Hy as [Hy|[<-|[]]]; [specialize (HM2 y Hy)|]; lra.
      * split; [apply in_or_app; left; auto|]. intros y Hy.
        apply in_app_or in Hy as [Hy|[<-|[]]]; [specialize (HM2 y Hy)|]; lra.
Qed.

Lemma push_agrees s xs x : agrees s xs -> agrees (st_push s x) (xs ++ [x]).
Proof.
  intros Ha. pose proof (push_min_max s xs x Ha) as [Hmin Hmax]. pose proof Ha as (Hc & Hmean & He & Hne).
  pose proof (snoc_not_nil xs x) as Hsn.
  split; [|split; [|split]].
  - unfold st_push; cbn [st_count]. rewrite Hc, app_length. cbn [length]. lia.
  - intros _. unfold st_push; cbn [st_mean]. rewrite inject_Z_plus, (agrees_count_size _ _ Ha).
    unfold average. rewrite total_app, size_app. change (size [x]) with 1.
    change (inject_Z 1) with 1. destruct xs as [|y ys] eqn:E.
    + destruct (He eq_refl) as (-> & _). unfold size, total; cbn [length fold_right].
      change (inject_Z (Z.of_nat 0)) with 0. field.
    + rewrite <- E in *. assert (Hx : xs <> []) by congruence. rewrite Hmean by auto.
      pose proof (size_pos _ Hx). unfold average, total; cbn [fold_right].
      change (fold_right Qplus 0 xs) with (total xs). field. split; lra.
  - intros E; congruence.
  - intros _. split; [|auto]. destruct (central_expand _ Hsn) as (-> & _).
    unfold st_push; cbn [st_rho]. rewrite inject_Z_plus, (agrees_count_size _ _ Ha).
    unfold c2. rewrite size_app, !psum_app, !psum_one. change (size [x]) with 1.
    change (inject_Z 1) with 1. destruct xs as [|y ys] eqn:E.
    + destruct (He eq_refl) as (-> & -> & _). unfold size, psum; cbn [length map total fold_right].
      change (inject_Z (Z.of_nat 0)) with 0. field.
    + rewrite <- E in *. assert (Hx : xs <> []) by congruence. rewrite Hmean by auto.
      destruct (Hne Hx) as (-> & _). destruct (central_expand _ Hx) as (-> & _).
      pose proof (size_pos _ Hx). unfold average, c2. change (total xs) with (psum 1 xs). field. split; lra.
Qed.

Lemma push_moments s xs x : (Z.of_nat (length xs) < 2 ^ 64 - 1)%Z ->
  agrees_moments s xs -> agrees_moments (st_push s x) (xs ++ [x]).
Proof.
  intros Hlen (Ha & He & Hne). pose proof (snoc_not_nil xs x) as Hsn.
  split; [apply push_agrees; auto|]. split; [congruence|]. intros _.
  pose proof Ha as (Hc & Hmean & He' & Hne').
  destruct (central_expand _ Hsn) as (_ & -> & ->).
  unfold st_push; cbn [st_tau st_phi]. unfold c3, c4. rewrite size_app, !psum_app, !psum_one.
  change (size [x]) with 1.
  destruct xs as [|y ys] eqn:E.
  - destruct (He eq_refl) as (-> & ->). destruct (He' eq_refl) as (-> & -> & _).
    cbn [length] in Hc. rewrite Hc. unfold size, psum; cbn [length map total fold_right].
    change (inject_Z (Z.of_nat 0)) with 0. change (inject_Z (0 + 1)) with 1.
    split; field; discriminate.
  - rewrite <- E in *. assert (Hx : xs <> []) by congruence. rewrite Hmean by auto.
    destruct (Hne Hx) as (-> & ->). destruct (Hne' Hx) as (-> & _).
    destruct (central_expand _ Hx) as (-> & -> & ->).
    unfold ulong_sub. rewrite ulong_id.
    2: { rewrite Hc. assert (1 <= length xs)%nat by (subst; cbn; lia). lia. }
    pose proof (size_pos _ Hx). pose proof (agrees_count_size _ _ Ha) as Hsz.
    assert (Hq : inject_Z (st_count s + 1) == size xs + 1) by (rewrite inject_Z_plus, Hsz; reflexivity).
    assert (Hq2 : inject_Z (st_count s + 1 - 2) == size xs - 1).
    { unfold Z.sub. rewrite !inject_Z_plus, Hsz. change (inject_Z 1) with 1. change (inject_Z (-(2))) with (-(2#1)). ring. }
    assert (Hq3 : inject_Z ((st_count s + 1) ^ 2 - 3 * (st_count s + 1) + 3) ==
                  (size xs + 1) * (size xs + 1) - 3 * (size xs + 1) + 3).
    { rewrite Z.pow_2_r. unfold Z.sub. rewrite !inject_Z_plus, inject_Z_opp, !inject_Z_mult, !inject_Z_plus, Hsz.
      change (inject_Z 1) with 1. change (inject_Z 3) with 3. ring. }
    rewrite Hq, Hq2, Hq3, Hsz. unfold average, c2, c3, c4. change (total xs) with (psum 1 xs).
    split; field; split; lra.
Qed.

Theorem st_of_agrees xs : agrees (st_of xs) xs.
Proof.
  unfold st_of. rewrite <- (app_nil_l xs) at 2.
  assert (Hg : forall ys s pre, agrees s pre -> agrees (fold_left st_push ys s) (pre ++ ys)).
  { induction ys as [|y ys IH]; intros s pre Hs; cbn [fold_left].
    - rewrite app_nil_r; auto.
    - replace (pre ++ y :: ys) with ((pre ++ [y]) ++ ys) by (rewrite <- app_assoc; auto).
      apply IH. apply push_agrees; auto. }
  apply Hg. split; [reflexivity|]. split; [congruence|]. split; [|congruence].
  intros _. cbn. split; [reflexivity|]. split; [reflexivity|auto].
Qed.

Theorem st_of_moments xs : (Z.of_nat (length xs) < 2 ^ 64)%Z -> agrees_moments (st_of xs) xs.
Proof.
  unfold st_of. intros Hl. rewrite <- (app_nil_l xs) at 2.
  assert (Hg : forall ys s pre, (Z.of_nat (length pre + length ys) < 2 ^ 64)%Z ->
    agrees_moments s pre -> agrees_moments (fold_left st_push ys s) (pre ++ ys)).
  { induction ys as [|y ys IH]; intros s pre Hb Hs; cbn [fold_left].
    - rewrite app_nil_r; auto.
    - replace (pre ++ y :: ys) with ((pre ++ [y]) ++ ys) by (rewrite <- app_assoc; auto).
      cbn [length] in Hb.
      apply IH; [rewrite app_length; cbn [length]; lia|]. apply push_moments; auto. lia. }
  apply Hg; auto. split; [|split]; try congruence.
  - exact (st_of_agrees []).
  - intros _. split; reflexivity.
Qed.

(** ** variance *)
Theorem variance_ok s xs ddof : agrees s xs -> (Z.of_nat (length xs) < 2 ^ 64)%Z ->
  (- 2 ^ 31 <= ddof < 2 ^ 31)%Z -> (Z.of_nat (length xs) < 2 ^ 63)%Z ->
  ((0 <= ddof < Z.of_nat (length xs))%Z ->
     exists v, st_variance s ddof = Some v /\ v == central 2 xs / (size xs - inject_Z ddof)) /\
  (~ (0 <= ddof < Z.of_nat (length xs))%Z -> st_variance s ddof = None).
Proof.
  intros (Hc & _ & _ & Hne) Hb Hd Hb2. unfold st_variance. rewrite Hc. split.
  - intros Hd2. rewrite ulong_id by lia.
    destruct (Z.geb_spec ddof (Z.of_nat (length xs))); [lia|]. eexists; split; [reflexivity|].
    unfold ulong_sub. rewrite ulong_id by lia. unfold Z.sub. rewrite inject_Z_plus, inject_Z_opp.
    destruct Hne as (-> & _); [intros ->; cbn in Hd2; lia|]. reflexivity.
  - intros Hd2. destruct (Z.geb_spec (ddof mod 2 ^ 64) (Z.of_nat (length xs))); auto. exfalso.
    apply Hd2. destruct (Z.lt_ge_cases ddof 0) as [L|L].
    + rewrite <- (Z_mod_plus_full ddof 1 (2 ^ 64)), ulong_id in H by lia. lia.
    + rewrite ulong_id in H by lia. lia.
Qed.

(** ** merge *)
Theorem merge_agrees s o xs ys : agrees s xs -> agrees o ys -> agrees (st_merge s o) (xs ++ ys).
Proof.
  intros Hs Ho. pose proof Hs as (Hc1 & Hm1 & He1 & Hn1). pose proof Ho as (Hc2 & Hm2 & He2 & Hn2).
  unfold st_merge. destruct (Z.ltb_spec 0 (st_count o)) as [L|L].
  2: { assert (ys = []) as -> by (destruct ys; auto; cbn [length] in *; lia). rewrite app_nil_r; auto. }
  assert (Hy : ys <> []) by (intros ->; cbn in *; lia).
  destruct (Z.eqb_spec (st_count s) 0) as [E|E].
  { assert (xs = []) as -> by (destruct xs; auto; cbn [length] in *; lia). auto. }
  assert (Hx : xs <> []) by (intros ->; cbn in *; lia).
  assert (Hxy : xs ++ ys <> []) by (destruct xs; [congruence|discriminate]).
  pose proof (size_pos _ Hx). pose proof (size_pos _ Hy).
  split; [|split; [|split]]; cbn [st_count st_mean st_rho st_min st_max].
  - rewrite app_length. lia.
  - intros _. rewrite inject_Z_plus, (agrees_count_size _ _ Hs), (agrees_count_size _ _ Ho).
    rewrite Hm1, Hm2 by auto. unfold average. rewrite total_app, size_app. field. repeat split; lra.
  - congruence.
  - intros _. split; [|split].
    + destruct (central_expand _ Hxy) as (-> & _). destruct (Hn1 Hx) as (-> & _). destruct (Hn2 Hy) as (-> & _).
      destruct (central_expand _ Hx) as (-> & _). destruct (central_expand _ Hy) as (-> & _).
      rewrite inject_Z_plus, (agrees_count_size _ _ Hs), (agrees_count_size _ _ Ho).
      rewrite Hm1, Hm2 by auto. unfold c2. rewrite !psum_app, !size_app. unfold average.
      change (total xs) with (psum 1 xs). change (total ys) with (psum 1 ys). field. repeat split; lra.
    + destruct (Hn1 Hx) as (_ & (m & -> & H1 & H2) & _). destruct (Hn2 Hy) as (_ & (m' & -> & H3 & H4) & _).
      cbn [opt_min]. destruct (Qltb_spec m' m); eexists; (split; [reflexivity|]); split;
        try (apply in_or_app; auto; fail); intros z Hz; apply in_app_or in Hz as [Hz|Hz];
        first [specialize (H2 _ Hz)|specialize (H4 _ Hz)]; lra.
    + destruct (Hn1 Hx) as (_ & _ & (m & -> & H1 & H2)). destruct (Hn2 Hy) as (_ & _ & (m' & -> & H3 & H4)).
      cbn [opt_max]. destruct (Qltb_spec m m'); eexists; (split; [reflexivity|]); split;
        try (apply in_or_app; auto; fail); intros z Hz; apply in_app_or in Hz as [Hz|Hz];
        first [specialize (H2 _ Hz)|specialize (H4 _ Hz)]; lra.
Qed.

(** the private third and fourth moments survive a merge as long as the left
    count is not the smaller one *)
Theorem merge_moments s o xs ys :
  (Z.of_nat (length ys) <= Z.of_nat (length xs) < 2 ^ 64)%Z ->
  agrees_moments s xs -> agrees_moments o ys -> agrees_moments (st_merge s o) (xs ++ ys).
Proof.
  intros Hlen (Hs & Hes & Hns) (Ho & Heo & Hno).
  split; [apply merge_agrees; auto|].
  pose proof Hs as (Hc1 & Hm1 & He1 & Hn1). pose proof Ho as (Hc2 & Hm2 & He2 & Hn2).
  unfold st_merge. destruct (Z.ltb_spec 0 (st_count o)) as [L|L].
  2: { assert (ys = []) as -> by (destruct ys; auto; cbn [length] in *; lia). rewrite app_nil_r; auto. }
  assert (Hy : ys <> []) by (intros ->; cbn in *; lia).
  destruct (Z.eqb_spec (st_count s) 0) as [E|E].
  { assert (xs = []) as -> by (destruct xs; auto; cbn [length] in *; lia). auto. }
  assert (Hx : xs <> []) by (intros ->; cbn in *; lia).
  assert (Hxy : xs ++ ys <> []) by (destruct xs; [congruence|discriminate]).
  split; [congruence|]. intros _. cbn [st_tau st_phi].
  pose proof (size_pos _ Hx). pose proof (size_pos _ Hy).
  destruct (central_expand _ Hxy) as (_ & -> & ->).
  destruct (Hn1 Hx) as (-> & _). destruct (Hn2 Hy) as (-> & _).
  destruct (Hns Hx) as (-> & ->). destruct (Hno Hy) as (-> & ->).
  destruct (central_expand _ Hx) as (-> & -> & ->). destruct (central_expand _ Hy) as (-> & -> & ->).
  unfold ulong_sub. rewrite ulong_id by lia. unfold Z.sub.
  rewrite !inject_Z_plus, inject_Z_opp, (agrees_count_size _ _ Hs), (agrees_count_size _ _ Ho).
  rewrite Hm1, Hm2 by auto. unfold c2, c3, c4. rewrite !psum_app, !size_app. unfold average.
  change (total xs) with (psum 1 xs). change (total ys) with (psum 1 ys).
  split; field; repeat split; lra.
Qed.

Lemma agrees_empty : agrees st_empty [].
Proof. exact (st_of_agrees []). Qed.
Theorem st_run_agrees h : agrees (st_run h) (st_values h).
Proof.
  induction h as [|h IH x|h IH1 o IH2]; cbn [st_run st_values].
  - apply agrees_empty.
  - apply push_agrees; auto.
  - apply merge_agrees; auto.
Qed.

Lemma agrees_report s xs : agrees s xs -> (Z.of_nat (length xs) < 2 ^ 63)%Z ->
  st_len s = Z.of_nat (length xs) /\
  (xs = [] -> st_get_mean s == 0 /\ st_minimum s = None /\ st_maximum s = None) /\
  (xs <> [] -> st_get_mean s == average xs /\
     (exists m, st_minimum s = Some m /\ is_minimum m xs) /\
     (exists m, st_maximum s = Some m /\ is_maximum m xs)) /\
  forall ddof, (- 2 ^ 31 <= ddof < 2 ^ 31)%Z ->
    ((0 <= ddof < Z.of_nat (length xs))%Z ->
       exists v, st_variance s ddof = Some v /\ v == central 2 xs / (size xs - inject_Z ddof)) /\
    (~ (0 <= ddof < Z.of_nat (length xs))%Z -> st_variance s ddof = None).
Proof.
  intros Ha Hl. pose proof Ha as (H1 & H2 & H3 & H4). split; [auto|]. split; [|split].
  - intros E. destruct (H3 E) as (? & ? & ? & ?). auto.
  - intros E. destruct (H4 E) as (? & ? & ?). auto.
  - intros ddof Hd. apply variance_ok; auto. lia.
Qed.

Theorem push_report xs : (Z.of_nat (length xs) < 2 ^ 63)%Z ->
  st_len (st_of xs) = Z.of_nat (length xs) /\
  (xs = [] -> st_get_mean (st_of xs) == 0 /\ st_minimum (st_of xs) = None /\ st_maximum (st_of xs) = None) /\
  (xs <> [] -> st_get_mean (st_of xs) == average xs /\
     (exists m, st_minimum (st_of xs) = Some m /\ is_minimum m xs) /\
     (exists m, st_maximum (st_of xs) = Some m /\ is_maximum m xs)) /\
  forall ddof, (- 2 ^ 31 <= ddof < 2 ^ 31)%Z ->
    ((0 <= ddof < Z.of_nat (length xs))%Z ->
       exists v, st_variance (st_of xs) ddof = Some v /\ v == central 2 xs / (size xs - inject_Z ddof)) /\
    (~ (0 <= ddof < Z.of_nat (length xs))%Z -> st_variance (st_of xs) ddof = None).
Proof. apply agrees_report, st_of_agrees. Qed.

Theorem run_report h : (Z.of_nat (length (st_values h)) < 2 ^ 63)%Z ->
  let s := st_run h in let xs := st_values h in
  st_len s = Z.of_nat (length xs) /\
  (xs = [] -> st_get_mean s == 0 /\ st_minimum s = None /\ st_maximum s = None) /\
  (xs <> [] -> st_get_mean s == average xs /\
     (exists m, st_minimum s = Some m /\ is_minimum m xs) /\
     (exists m, st_maximum s = Some m /\ is_maximum m xs)) /\
  forall ddof, (- 2 ^ 31 <= ddof < 2 ^ 31)%Z ->
    ((0 <= ddof < Z.of_nat (length xs))%Z ->
       exists v, st_variance s ddof = Some v /\ v == central 2 xs / (size xs - inject_Z ddof)) /\
    (~ (0 <= ddof < Z.of_nat (length xs))%Z -> st_variance s ddof = None).
Proof. intros Hl. apply agrees_report; auto. apply st_run_agrees. Qed.

Theorem push_third_fourth xs : xs <> [] -> (Z.of_nat (length xs) < 2 ^ 64)%Z ->
  st_tau (st_of xs) == central 3 xs /\ st_phi (st_of xs) == central 4 xs.
Proof. intros Hx Hl. destruct (st_of_moments xs Hl) as (_ & _ & Hm). auto. Qed.

Theorem merge_third_wraps : exists xs ys, xs <> [] /\ ys <> [] /\
  ~ st_tau (st_merge (st_of xs) (st_of ys)) == central 3 (xs ++ ys).
Proof. exists [0], [1; 1]. repeat split; try discriminate. Qed.
