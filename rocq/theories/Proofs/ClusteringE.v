(** The last round of fuzzy clustering (C80) *)
From Coq Require Import QArith Qabs Lqa.
From Verif.Model Require Import Base Clustering.
From Verif.Lib Require Import ListLib.
From Verif.Spec Require Import Moments ClusterSpec.
From Verif.Proofs Require Import ClusteringA ClusteringB ClusteringD.
Open Scope list_scope.
Open Scope nat_scope.

Section F.
Context {E : Type}.
Variables (d : E -> E -> Q) (weight : Q -> Q) (objects : list E).
Hypothesis Hw : forall x, (0 < weight x)%Q.
Variable dflt : E.
Notation m := (dissimilarity_matrix d objects).
Notation ob := (obj objects dflt).
Lemma column_eq c : c < length objects -> column m c = map (d (ob c)) objects.
Proof.
  intros Hc. unfold column, dissimilarity_matrix. rewrite map_map. apply map_ext. intros y.
  apply row_cell. apply nth_error_nth'. auto.
Qed.
Lemma dot_eq u j c : c < length objects -> dot (column u j) (column m c) = weighted_from d objects u j (ob c).
Proof.
  intros Hc. rewrite column_eq by auto. unfold dot, column, weighted_from. change Qsum with total. f_equal.
  revert u. clear Hc. generalize (ob c) as oc. intros oc. induction objects as [|y l IH]; intros [|r u]; cbn [map combine]; auto. f_equal. apply IH.
Qed.
Lemma objective_eq u cs : (forall c, In c cs -> c < length objects) ->
  objective u (columns m cs) = fuzzy_price d objects u (map ob cs).
Proof.
  intros Hb. unfold objective, columns, fuzzy_price, dissimilarity_matrix. change Qsum with total. f_equal. rewrite map_map.
  assert (G : forall l u, map (fun '(r, s) => total (map (fun '(x, y) => (x * y)%Q) (combine r s)))
       (combine u (map (fun x => map (fun j => nth j (map (fun x1 => d x1 x) objects) 0%Q) cs) l)) =
     map (fun '(row, y) => total (map (fun '(w, c) => (w * d c y)%Q) (combine row (map ob cs)))) (combine u l)).
  { induction l as [|y l IH]; intros [|r v]; cbn [map combine]; auto. f_equal; [|apply IH]. f_equal.
    revert r. clear - Hb. induction cs as [|c cs IH]; intros [|w r]; cbn [map combine]; auto. f_equal.
    - f_equal. apply row_cell. apply nth_error_nth'. apply Hb. cbn; auto.
    - apply IH. intros; apply Hb; cbn; auto. }
  apply G.
Qed.
Definition last_round (cs' : list nat) (u' : list (list Q)) : Prop :=
  exists cs u, length cs = length cs' /\ (forall c, In c cs -> c < length objects) /\ Forall2 (fuzzy_row d weight (map ob cs)) objects u /\
    (forall j c, nth_error cs' j = Some c -> forall p, p < length objects ->
       (weighted_from d objects u j (ob c) <= weighted_from d objects u j (ob p))%Q /\
       (p < c -> (weighted_from d objects u j (ob c) < weighted_from d objects u j (ob p))%Q)) /\
    (Qabs (fuzzy_price d objects u' (map ob cs') - fuzzy_price d objects u (map ob cs)) <=
     (1 # 100000000) + (1 # 100000) * Qabs (fuzzy_price d objects u (map ob cs)))%Q.
Lemma recomputed u k : objects <> [] -> forall j c, nth_error (recompute_fuzzy u m k) j = Some c -> forall p, p < length objects ->
  (weighted_from d objects u j (ob c) <= weighted_from d objects u j (ob p))%Q /\
  (p < c -> (weighted_from d objects u j (ob c) < weighted_from d objects u j (ob p))%Q).
Proof.
  intros Ho j c Hj p Hp. pose proof (recompute_fuzzy_ok d objects u k Ho) as [_ B]. pose proof (nth_error_In _ _ Hj) as Hin. apply B in Hin.
  unfold recompute_fuzzy in Hj. rewrite nth_error_map in Hj. destruct (nth_error (seq 0 k) j) as [j'|] eqn:Ej; [|discriminate].
  assert (j' = j). { assert (j < k) by (rewrite <- (seq_length k 0); apply nth_error_Some; congruence).
    rewrite (nth_error_nth' _ 0) in Ej by (rewrite seq_length; auto). rewrite seq_nth in Ej by auto. injection Ej as <-. auto. } subst j'.
  cbn [option_map] in Hj. injection Hj as Hj.
  set (vs := map (fun p => dot (column u j) (column m p)) (seq 0 (length m))) in *.
  assert (Hv : forall q, q < length objects -> nth_error vs q = Some (weighted_from d objects u j (ob q))).
  { intros q Hq. unfold vs. rewrite nth_error_map, matrix_length. rewrite (nth_error_nth' _ 0) by (rewrite seq_length; auto).
    rewrite seq_nth by auto. cbn [option_map Nat.add]. rewrite dot_eq; auto. }
  destruct (argmin_ok vs) as (v & H1 & H2 & H3).
  { intros X. specialize (Hv 0). rewrite X in Hv. destruct objects; [congruence|]. cbn in Hv. discriminate Hv. lia. }
  rewrite Hj in *. rewrite (Hv c Hin) in H1. injection H1 as <-. split; [apply (H2 p); auto|]. intros Hl. apply (H3 p); auto.
Qed.
Lemma fuzzy_loop_last fuel : forall p cs u' cs', cs <> [] -> (forall c, In c cs -> c < length objects) ->
  fuzzy_loop fuel weight m p cs = Ok (u', cs') ->
  (exists q, p = Some q /\ cs' = cs /\ isclose (objective u' (columns m cs)) q = true) \/ last_round cs' u'.
Proof.
  induction fuel as [|fuel IH]; intros p cs u' cs' Hne Hb Hf; cbn [fuzzy_loop] in Hf; [discriminate|].
  destruct (membership_ok d weight objects Hw dflt cs Hne Hb) as (u & E1 & F1). rewrite E1 in Hf. cbn [bind] in Hf.
  destruct (match p with Some p => isclose (objective u (columns m cs)) p | None => false end) eqn:Ec.
  - injection Hf as <- <-. left. destruct p as [q|]; [|discriminate]. eauto.
  - right. assert (Ho : objects <> []) by (intros Q; destruct cs as [|c cs]; [congruence|]; specialize (Hb c (or_introl eq_refl)); rewrite Q in Hb; cbn in Hb; lia).
    destruct (recompute_fuzzy_ok d objects u (length cs) Ho) as [L B].
    apply IH in Hf as [(q & Eq & -> & Hc)|Hl]; auto.
    + injection Eq as <-. exists cs, u. split; [auto|]. split; [auto|]. split; [auto|]. split; [apply recomputed; auto|].
      unfold isclose in Hc. apply Qle_bool_iff in Hc. rewrite !objective_eq in Hc by auto. exact Hc.
    + intros Q. rewrite Q in L. destruct cs; [congruence|discriminate].
Qed.
(** one cluster *)
Definition unit_rows (u : list (list Q)) : Prop := length u = length objects /\ Forall (fun row => (nth 0 row 0 == 1)%Q) u.
Lemma fuzzy_unit c u : Forall2 (fuzzy_row d weight [ob c]) objects u -> unit_rows u.
Proof.
  intros F. split; [clear - F; induction F; cbn; congruence|]. induction F as [|x row xs u H F IH]; constructor; auto.
  destruct H as [H H1]. inversion H as [|? w ? l Hc Hl]; subst. inversion Hl; subst. cbn [nth]. rewrite <- H1. cbn. ring.
Qed.
Lemma weighted_unit u x : unit_rows u -> (weighted_from d objects u 0 x == total_from d objects x)%Q.
Proof.
  intros [L F]. unfold weighted_from, total_from. revert u L F. induction objects as [|y l IH]; intros [|r u] L F; cbn in L; try discriminate; cbn [combine map].
  - reflexivity.
  - inversion F as [|? ? Hr Fr]; subst. cbn [total fold_right]. fold (total (map (fun '(row, y) => (nth 0 row 0 * d x y)%Q) (combine u l))).
    fold (total (map (d x) l)). rewrite IH by (auto; lia). rewrite Hr. ring.
Qed.
Definition central (c : nat) : Prop := c < length objects /\ forall p, p < length objects ->
  (total_from d objects (ob c) <= total_from d objects (ob p))%Q /\ (p < c -> (total_from d objects (ob c) < total_from d objects (ob p))%Q).
Lemma central_unique a b : central a -> central b -> a = b.
Proof.
  intros [La Ha] [Lb Hb]. destruct (Nat.lt_trichotomy a b) as [H|[H|H]]; auto; exfalso.
  - destruct (Ha b Lb) as [X _]. destruct (Hb a La) as [_ Y]. specialize (Y H). lra.
  - destruct (Hb a La) as [X _]. destruct (Ha b Lb) as [_ Y]. specialize (Y H). lra.
Qed.
Lemma recomputed_unit u : objects <> [] -> unit_rows u -> exists c, recompute_fuzzy u m 1 = [c] /\ central c.
Proof.
  intros Ho Hu. destruct (recompute_fuzzy_ok d objects u 1 Ho) as [L B]. destruct (recompute_fuzzy u m 1) as [|c [|? ?]] eqn:Er; cbn in L; try discriminate.
  exists c. split; [auto|]. split; [apply B; cbn; auto|]. intros p Hp. destruct (recomputed u 1 Ho 0 c) with (p := p) as [X Y]; auto; [rewrite Er; auto|].
  rewrite !weighted_unit in X by auto. split; [auto|]. intros Q. specialize (Y Q). rewrite !weighted_unit in Y by auto. auto.
Qed.
Lemma unit_price c u : c < length objects -> Forall2 (fuzzy_row d weight [ob c]) objects u -> (objective u (columns m [c]) == total_from d objects (ob c))%Q.
Proof.
  intros Hc F. rewrite objective_eq by (intros x [<-|[]]; auto). cbn [map]. rewrite <- (weighted_unit u (ob c) (fuzzy_unit c u F)). unfold fuzzy_price, weighted_from.
  revert F. generalize (ob c) as oc. clear Hc. intros oc F. induction F as [|x row xs u H F IH]; cbn [combine map]; [reflexivity|].
  cbn [total fold_right] in *. unfold total in IH. rewrite IH. destruct H as [H _]. inversion H as [|? w ? l Hx Hl]; subst. inversion Hl; subst. cbn. ring.
Qed.
Lemma close_refl a b : (a == b)%Q -> isclose a b = true.
Proof.
  intros Q. unfold isclose. apply Qle_bool_iff. rewrite Q. setoid_replace (b - b)%Q with 0%Q by ring. rewrite Qabs_pos by lra.
  pose proof (Qabs_nonneg b). lra.
Qed.
Lemma one_cluster c0 fuel : c0 < length objects -> 3 <= fuel -> exists u c, fuzzy_loop fuel weight m None [c0] = Ok (u, [c]) /\ central c.
Proof.
  intros H0 Hf. assert (Ho : objects <> []) by (intros X; rewrite X in H0; cbn in H0; lia).
  destruct fuel as [|[|[|fuel]]]; try lia. cbn [fuzzy_loop].
  assert (M : forall c, c < length objects -> exists u, membership_matrix weight m [c] = Ok u /\ Forall2 (fuzzy_row d weight [ob c]) objects u).
  { intros c Hc. apply (membership_ok d weight objects Hw dflt [c]); [discriminate|]. intros x [<-|[]]; auto. }
  destruct (M c0 H0) as (u0 & E0 & F0). rewrite E0. cbn [bind List.length].
  destruct (recomputed_unit u0 Ho (fuzzy_unit _ _ F0)) as (c1 & E1 & C1). rewrite E1. pose proof C1 as [H1 _].
  destruct (M c1 H1) as (u1 & M1 & F1). rewrite M1. cbn [bind List.length].
  destruct (isclose (objective u1 (columns m [c1])) (objective u0 (columns m [c0]))); [eauto|].
  destruct (recomputed_unit u1 Ho (fuzzy_unit _ _ F1)) as (c2 & E2 & C2). rewrite E2. assert (c2 = c1) by (apply central_unique; auto). subst c2.
  rewrite M1. cbn [bind]. rewrite close_refl by reflexivity. eauto.
Qed.
End F.
(*P C80 x *)
(** The round before the last: each returned medoid is the first object with
    the least dissimilarity from all objects, weighted by the memberships of
    that round, and the total weighted dissimilarity is (nearly) the same in the
    last round (numpy.isclose). *)
Lemma C80_last_round : forall (E : Type) (d : E -> E -> Q) weight shuffle (objects : list E) k fuel u medoids dflt,
  (forall x, (0 < weight x)%Q) -> is_shuffle shuffle -> 1 <= k <= length objects ->
  fuzzy_k_medoid fuel d weight shuffle objects (Some (Z.of_nat k)) = Ok (u, medoids) ->
  let object c := nth c objects dflt in
  exists before u0, length before = k /\ (forall c, In c before -> c < length objects) /\
    Forall2 (fuzzy_row d weight (map object before)) objects u0 /\
    (forall j c, nth_error medoids j = Some c -> forall p, p < length objects ->
       (weighted_from d objects u0 j (object c) <= weighted_from d objects u0 j (object p))%Q /\
       (p < c -> (weighted_from d objects u0 j (object c) < weighted_from d objects u0 j (object p))%Q)) /\
    (Qabs (fuzzy_price d objects u (map object medoids) - fuzzy_price d objects u0 (map object before)) <=
     (1 # 100000000) + (1 # 100000) * Qabs (fuzzy_price d objects u0 (map object before)))%Q.
Proof.
  intros E d weight shuffle objects k fuel u medoids dflt Hw Hs Hk Hf object.
  destruct (C80_memberships E d weight shuffle objects k fuel _ dflt Hw Hs Hk Hf ltac:(discriminate)) as (u1 & m1 & E1 & Lm & _). injection E1 as <- <-.
  destruct (select_ok shuffle objects k Hs Hk) as (cs & Ec & Lc & _ & Hc).
  unfold fuzzy_k_medoid in Hf. rewrite Ec in Hf. cbn [bind] in Hf.
  apply (fuzzy_loop_last d weight objects Hw dflt) in Hf as [(q & Q & _)|(b & u0 & H1 & H2)]; [discriminate| |intros ->; cbn in Lc; lia|auto].
  exists b, u0. split; [congruence|]. exact H2.
Qed.
(** With one cluster the search ends after at most three rounds, at the first
    object with the least total dissimilarity. *)
Lemma C80_one_cluster : forall (E : Type) (d : E -> E -> Q) weight shuffle (objects : list E) fuel dflt,
  (forall x, (0 < weight x)%Q) -> is_shuffle shuffle -> 1 <= length objects -> 3 <= fuel ->
  let object c := nth c objects dflt in
  exists u c, fuzzy_k_medoid fuel d weight shuffle objects (Some 1%Z) = Ok (u, [c]) /\ c < length objects /\
    forall p, p < length objects -> (total_from d objects (object c) <= total_from d objects (object p))%Q /\
      (p < c -> (total_from d objects (object c) < total_from d objects (object p))%Q).
Proof.
  intros E d weight shuffle objects fuel dflt Hw Hs Hl Hf object. destruct (select_ok shuffle objects 1 Hs) as (cs & Ec & Lc & _ & Hc); [lia|].
  unfold fuzzy_k_medoid. change (Z.of_nat 1) with 1%Z in Ec. rewrite Ec. cbn [bind]. destruct cs as [|c0 [|? ?]]; try discriminate.
  destruct (one_cluster d weight objects Hw dflt c0 fuel) as (u & c & Q & C); auto.
  { apply Hc. cbn; auto. }
  exists u, c. split; [exact Q|]. exact C.
Qed.
