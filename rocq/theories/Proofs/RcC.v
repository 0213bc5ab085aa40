(** The frame, the entries and the bars of a result type *)
From Coq Require Import String QArith Permutation Sorted.
From Verif.Model Require Import Base Sort TwoWayDict Statistics ResultCollector.
From Verif.Spec Require Import Moments ResultSpec.
From Verif.Lib Require Import ListLib DictLib SortLib.
From Verif.Proofs Require Statistics.
From Verif.Proofs Require Import RcA RcB.
Open Scope string_scope.
Open Scope list_scope.
Open Scope nat_scope.

(** the first longest list *)
Definition longer {A} (xs x : list A) : list A := if length xs <? length x then x else xs.
Lemma longer_max {A} (l : list (list A)) : forall xs, length (fold_left longer l xs) = Nat.max (length xs) (fold_right Nat.max 0 (map (@length A) l)).
Proof.
  induction l as [|x l IH]; intros xs; cbn [fold_left map fold_right]; [lia|]. rewrite IH. unfold longer. destruct (Nat.ltb_spec (length xs) (length x)); lia.
Qed.
Lemma longer_first {A B} (f : B -> list A) (l : list B) : forall xs, length xs < fold_right Nat.max 0 (map (fun b => length (f b)) l) ->
  exists b, hd_error (filter (fun b => length (f b) =? fold_right Nat.max 0 (map (fun b => length (f b)) l)) l) = Some b /\ fold_left longer (map f l) xs = f b.
Proof.
  induction l as [|b l IH]; intros xs; cbn [map fold_right filter fold_left]; [lia|]. intros L. set (M := fold_right Nat.max 0 (map (fun b => length (f b)) l)) in *.
  destruct (Nat.eqb_spec (length (f b)) (Nat.max (length (f b)) M)) as [E|E].
  - exists b. split; [auto|]. unfold longer at 2. destruct (Nat.ltb_spec (length xs) (length (f b))); [|lia].
    assert (Q : forall l0, fold_right Nat.max 0 (map (fun b => length (f b)) l0) <= length (f b) -> fold_left longer (map f l0) (f b) = f b).
    { clear. induction l0 as [|x l0 IH]; [auto|]. cbn [map fold_right fold_left]. intros L. unfold longer at 2. destruct (Nat.ltb_spec (length (f b)) (length (f x))); [lia|]. apply IH. lia. }
    apply Q. fold M. lia.
  - destruct (IH (longer xs (f b))) as (b' & Hb & Eb).
    + unfold longer. destruct (Nat.ltb_spec (length xs) (length (f b))); fold M; lia.
    + exists b'. split; [|auto]. rewrite <- Hb. f_equal. apply filter_ext. intros a. fold M. f_equal. lia.
Qed.
Lemma remove_ok x l : In x l -> list_remove x l = Ok (without x l).
Proof.
  induction l as [|y l IH]; [intros []|]. cbn [list_remove without]. destruct (eqb_ok x y) as [->|D0]; [auto|]. intros [Q|Q]; [congruence|]. rewrite IH by auto. auto.
Qed.
Lemma without_length x l : In x l -> S (length (without x l)) = length l.
Proof.
  induction l as [|y l IH]; [intros []|]. cbn [without]. destruct (eqb_ok x y) as [->|D0]; [auto|]. intros [Q|Q]; [congruence|]. cbn [length]. rewrite IH by auto. auto.
Qed.

Section C.
  Variables (m : mode) (ks : list call) (t : string) (c : collector).
  Hypothesis small : (Z.of_nat (length ks) < 2 ^ 63)%Z.
  Hypothesis Ht : In t (types ks).
  Notation X n := (x_table m ks (of_miner t n ks)).
  Notation ser n := (series m ks t n).
  Notation md := (miner_table m ks (of_type t ks)).
  Lemma miners_nonempty : miners ks t <> [].
  Proof.
    intros E. apply set_of_In, in_map_iff in Ht. destruct Ht as (k & <- & Hk).
    assert (Q : In (c_miner k) (miners ks (c_type k))); [|rewrite E in Q; destruct Q]. apply set_of_In. apply in_map. unfold of_type. rewrite filter_In. split; [auto|].
    destruct (eqb_ok (c_type k) (c_type k)); congruence.
  Qed.
  Lemma points_pos n : In n (miners ks t) -> 0 < points m ks t n.
  Proof.
    intros Hn. rewrite <- series_length. unfold series. pose proof (numbers_nonempty ks t n Hn) as NE. destruct m.
    - rewrite map_length. unfold zs. rewrite sort_length. destruct (numbers ks t n); [congruence|cbn; lia].
    - destruct (numbers ks t n) as [|z l] eqn:Ez; [congruence|]. cbn [flat_map]. rewrite app_length, map_length.
      pose proof (val_nonempty ks t n z) as V. rewrite Ez in V. specialize (V (or_introl eq_refl)). destruct (val ks t n z); [congruence|cbn; lia].
  Qed.
  Lemma most_ge n : In n (miners ks t) -> points m ks t n <= most m ks t.
  Proof.
    unfold most. induction (miners ks t) as [|x l IH]; [intros []|]. cbn [map fold_right]. intros [->|Q]; [lia|]. specialize (IH Q). lia.
  Qed.
  Lemma most_pos : 0 < most m ks t.
  Proof.
    pose proof miners_nonempty as NE. destruct (miners ks t) as [|n l] eqn:E; [congruence|]. assert (Hn : In n (miners ks t)) by (rewrite E; left; auto).
    pose proof (most_ge n Hn). pose proof (points_pos n Hn). lia.
  Qed.
  Lemma kept_In n : In n (kept m ks t) -> In n (miners ks t).
  Proof. unfold kept. rewrite filter_In. tauto. Qed.
  Lemma fold_data l : forall pd cs ms xs la, (forall n, In n l -> In n (miners ks t)) -> NoDup l -> (forall n, In n l -> ~ In n (keys pd)) ->
    foldM (fun '(pd, colors, markers, xs, last) '(miner_name, x_dict) =>
      do (x_list, values) <- get_x_y m x_dict ;
      Ok (dict_set miner_name values pd, colors ++ [color_of c miner_name], markers ++ [marker_of c miner_name],
          if length xs <? length x_list then x_list else xs, Some miner_name)) (map (fun n => (n, X n)) l) (pd, cs, ms, xs, la) =
    Ok (pd ++ map (fun n => (n, map snd (ser n))) l, cs ++ map (color_of c) l, ms ++ map (marker_of c) l,
        fold_left longer (map (fun n => map fst (ser n)) l) xs, match l with [] => la | _ => Some (last l "") end).
  Proof.
    induction l as [|n l IH]; intros pd cs ms xs la I N D; cbn [map foldM fold_left]; [rewrite !app_nil_r; auto|].
    inversion N as [|? ? N1 N2]; subst. rewrite series_xy by (apply I; left; auto). cbn [bind]. rewrite set_new by (apply D; left; auto). rewrite IH.
    - rewrite <- !app_assoc. cbn [app]. do 2 f_equal. destruct l; auto.
    - intros n' Hn. apply I. right. auto.
    - auto.
    - intros n' Hn. unfold keys. rewrite map_app, in_app_iff. cbn. intros [Q|[Q|[]]]; [apply (D n'); [right; auto|auto]|]. subst. contradiction.
  Qed.
  Lemma from_dict_ok (f : frame) k : (forall n v, In (n, v) f -> length v = k) -> from_dict f = Ok f.
  Proof.
    intros E. destruct f as [|[n v] f]; [auto|]. unfold from_dict. replace (forallb _ _) with true; [auto|]. symmetry. apply forallb_forall.
    intros [n' v'] Hin. apply Nat.eqb_eq. rewrite (E _ _ Hin), (E n v); [auto|left; auto].
  Qed.
  Lemma from_dict_cases (f : frame) : from_dict f = Ok f \/ (from_dict f = Err ValueError /\ forall k, ~ forall n v, In (n, v) f -> length v = k).
  Proof.
    destruct (from_dict f) as [g|x] eqn:E.
    - left. destruct f as [|[n v] f]; cbn [from_dict] in E; [congruence|]. destruct (forallb _ _); congruence.
    - right. split.
      + destruct f as [|[n v] f]; cbn [from_dict] in E; [discriminate|]. destruct (forallb _ _); congruence.
      + intros k Q. rewrite (from_dict_ok f k Q) in E. discriminate.
  Qed.
  Lemma kept_all : (forall n, In n (miners ks t) -> points m ks t n = most m ks t) -> kept m ks t = miners ks t.
  Proof.
    intros E. unfold kept. revert E. generalize (most m ks t). intros k. induction (miners ks t) as [|n l IH]; [auto|]. intros E. cbn [filter].
    rewrite (proj2 (Nat.eqb_eq _ _) (E n (or_introl eq_refl))). f_equal. apply IH. intros n' Hn. apply E. right. auto.
  Qed.
  Lemma kept_less : kept m ks t <> miners ks t -> length (kept m ks t) < length (miners ks t).
  Proof.
    intros D. unfold kept in *. assert (L : length (filter (fun n => points m ks t n =? most m ks t) (miners ks t)) <= length (miners ks t)) by apply filter_le.
    destruct (Nat.eq_dec (length (filter (fun n => points m ks t n =? most m ks t) (miners ks t))) (length (miners ks t))) as [E|]; [|lia].
    exfalso. apply D. clear D L. induction (miners ks t) as [|x l IH]; [auto|]. cbn [filter] in *. destruct (_ =? _); cbn [length] in E.
    - f_equal. apply IH. lia.
    - pose proof (filter_le (fun n => points m ks t n =? most m ks t) l). lia.
  Qed.
  Lemma style_length f : length (kept m ks t) <= length (styles m ks t f).
  Proof.
    unfold styles. destruct (Nat.eqb_spec (length (kept m ks t)) (length (miners ks t))) as [E|D]; [rewrite map_length; lia|].
    assert (L : length (kept m ks t) < length (miners ks t)) by (apply kept_less; congruence).
    assert (I : In (f (last (miners ks t) "")) (map f (miners ks t))).
    { apply in_map. pose proof miners_nonempty as NE. destruct (exists_last NE) as (l & x & ->). rewrite last_last. apply in_or_app. right. left. auto. }
    pose proof (without_length _ _ I) as W. rewrite map_length in W. lia.
  Qed.
  Lemma longest_eq l : fold_right (fun '(_, v) n => Nat.max (length v) n) 0 (map (fun n => (n, map snd (ser n))) l : frame) = fold_right Nat.max 0 (map (points m ks t) l).
  Proof. induction l as [|n l IH]; [auto|]. cbn [map fold_right]. rewrite IH, map_length, series_length. auto. Qed.
  Lemma plot_data_ok : exists n0, hd_error (kept m ks t) = Some n0 /\
    get_plot_data m c md = Ok (map (fun n => (n, map snd (ser n))) (kept m ks t), map fst (ser n0), styles m ks t (color_of c), styles m ks t (marker_of c)).
  Proof.
    destruct (longer_first (fun n => map fst (ser n)) (miners ks t) []) as (n0 & Hn0 & E0).
    { pose proof most_pos. unfold most in H. erewrite map_ext; [exact H|]. intros n. rewrite map_length, series_length. auto. }
    assert (K : kept m ks t = filter (fun b => length (map fst (ser b)) =? fold_right Nat.max 0 (map (fun b => length (map fst (ser b))) (miners ks t))) (miners ks t)).
    { unfold kept, most. apply filter_ext. intros n. rewrite map_length, series_length. f_equal. f_equal. apply map_ext. intros n'. rewrite map_length, series_length. auto. }
    exists n0. rewrite K at 1. split; [exact Hn0|]. unfold get_plot_data. rewrite M_eq, fold_data; [|auto|apply set_of_NoDup|intros n _ []]. cbn [bind app]. rewrite E0.
    assert (NE := miners_nonempty). assert (LA : match miners ks t with [] => None | _ => Some (last (miners ks t) "") end = Some (last (miners ks t) "")) by (destruct (miners ks t); congruence).
    assert (FK : from_dict (map (fun n => (n, map snd (ser n))) (kept m ks t)) = Ok (map (fun n => (n, map snd (ser n))) (kept m ks t))).
    { apply (from_dict_ok _ (most m ks t)). intros n v Hin. apply in_map_iff in Hin. destruct Hin as (n' & Q & Hk). injection Q as <- <-.
      rewrite map_length, series_length. unfold kept in Hk. rewrite filter_In in Hk. apply Nat.eqb_eq. apply Hk. }
    assert (Last : In (last (miners ks t) "") (miners ks t)).
    { destruct (exists_last NE) as (l & x & ->). rewrite last_last. apply in_or_app. right. left. auto. }
    match goal with |- (do x <- ?r ; _) = _ => assert (R : r = Ok (map (fun n => (n, map snd (ser n))) (kept m ks t), styles m ks t (color_of c), styles m ks t (marker_of c))) end.
    { destruct (from_dict_cases (map (fun n => (n, map snd (ser n))) (miners ks t))) as [E|[E Ne]].
      - assert (A : forall n, In n (miners ks t) -> points m ks t n = most m ks t).
        { assert (Q : exists k, forall n, In n (miners ks t) -> points m ks t n = k).
          { destruct (miners ks t) as [|x l] eqn:El; [congruence|]. exists (points m ks t x). intros n Hn. cbn [map from_dict] in E.
            destruct (forallb _ _) eqn:F; [|discriminate]. rewrite forallb_forall in F. specialize (F (n, map snd (ser n))). cbn iota in F. rewrite !map_length, !series_length in F.
            apply Nat.eqb_eq. apply F. change ((x, map snd (ser x)) :: map (fun n => (n, map snd (ser n))) l) with (map (fun n => (n, map snd (ser n))) (x :: l)).
            apply in_map_iff. exists n. auto. }
          destruct Q as [k Q]. intros n Hn. rewrite (Q n Hn). unfold most. destruct (miners ks t) as [|x l]; [congruence|]. clear - Q.
          assert (Z0 : forall l, (forall n, In n l -> points m ks t n = k) -> l <> [] -> fold_right Nat.max 0 (map (points m ks t) l) = k).
          { clear. induction l as [|x l IH]; [congruence|]. intros Q _. cbn [map fold_right]. rewrite (Q x) by (left; auto). destruct l as [|y l]; [cbn; lia|].
            rewrite IH; [lia| |congruence]. intros n Hn. apply Q. right. auto. }
          symmetry. apply Z0; [auto|congruence]. }
        rewrite E. unfold styles. rewrite (kept_all A), Nat.eqb_refl. auto.
      - rewrite E, longest_eq. fold (most m ks t).
        assert (FE : filter (fun '(_, v) => length v =? most m ks t) (map (fun n => (n, map snd (ser n))) (miners ks t)) = map (fun n => (n, map snd (ser n))) (kept m ks t)).
        { unfold kept. generalize (most m ks t). intros k. clear. induction (miners ks t) as [|n l IH]; [auto|]. cbn [map filter]. rewrite map_length, series_length.
          destruct (points m ks t n =? k); cbn [map]; rewrite IH; auto. }
        assert (FE' : filter (fun '(_, v) => length v =? most m ks t) (map (fun n => (n, map snd (ser n))) (miners ks t)) = map (fun n => (n, map snd (ser n))) (kept m ks t)) by exact FE.
        rewrite FE', FK. cbn [bind]. rewrite LA. cbn [of_option bind]. rewrite !remove_ok by (apply in_map; auto). cbn [bind]. unfold styles.
        destruct (Nat.eqb_spec (length (kept m ks t)) (length (miners ks t))) as [Q|_]; [|auto]. exfalso.
        assert (KA : kept m ks t = miners ks t).
        { destruct (list_eq_dec String.string_dec (kept m ks t) (miners ks t)) as [|D]; [auto|]. apply kept_less in D. lia. }
        apply (Ne (most m ks t)). intros n v Hin. apply in_map_iff in Hin. destruct Hin as (n' & Q' & Hk). injection Q' as <- <-.
        rewrite map_length, series_length. rewrite <- KA in Hk. unfold kept in Hk. rewrite filter_In in Hk. apply Nat.eqb_eq. apply Hk. }
    rewrite R. cbn [bind]. rewrite <- K in Hn0. destruct (kept m ks t) as [|n1 l] eqn:Ek; [discriminate|]. injection Hn0 as ->. cbn [map].
    rewrite !map_length, Nat.eqb_refl. auto.
  Qed.
End C.
