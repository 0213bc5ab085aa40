(** Noise on target sequences (C62) *)
From Coq Require Import Permutation QArith Qcanon String.
From Verif.Model Require Import Base LogNoise Dataset Transformers.
From Verif.Spec Require Import Lists DatasetSpec TransformSpec.
From Verif.Lib Require Import ListLib DictLib.
From Verif.Proofs Require Import PetriA ParallelB LogNoise DatasetA DatasetB TransformersA TransformersC.
Open Scope list_scope.
Open Scope nat_scope.

Section N.
  Context {A : Type}.
  Lemma remove_noise_fold p rand (s : list A) : forall i r,
    fold_left (fun '(i, r) e => (S i, if Qlt_bool p (rand i) then r ++ [e] else r)) s (i, r) =
    (i + length s, r ++ map snd (filter fst (combine (map (fun k => Qlt_bool p (rand k)) (seq i (length s))) s))).
  Proof.
    induction s as [|e s IH]; intros i r; cbn [fold_left length seq map combine filter].
    - rewrite app_nil_r, Nat.add_0_r. auto.
    - rewrite IH. rewrite Nat.add_succ_comm. f_equal. cbn [fst].
      destruct (Qlt_bool p (rand i)); cbn [map snd]; [rewrite <- app_assoc|]; auto.
  Qed.
  Lemma filtered_subseq (bs : list bool) : forall s : list A, subseq (map snd (filter fst (combine bs s))) s.
  Proof.
    induction bs as [|b bs IH]; intros [|e s]; cbn; try apply subseq_nil.
    - apply subseq_skip. clear. induction s; [apply subseq_nil|apply subseq_skip; auto].
    - destruct b; cbn; [apply subseq_take|apply subseq_skip]; auto.
  Qed.
  Lemma filtered_length (bs : list bool) : forall s : list A, length s = length bs ->
    length (map snd (filter fst (combine bs s))) = length (filter (fun b => b) bs).
  Proof.
    induction bs as [|b bs IH]; intros [|e s] Hl; cbn in *; try discriminate; auto.
    destruct b; cbn; rewrite IH by lia; auto.
  Qed.
End N.

(*P C62 Target sequence noise *)

(** Removing noise: what is left is a subsequence; the events whose random
    number is not above the probability are the ones removed, so none is
    removed if all the numbers are above it and all are removed if none is. *)
Lemma C62_remove_noise : forall (A : Type) (p : Q) (rand : nat -> Q) i (s : list A) i' t,
  remove_noise p rand i s = (i', t) ->
  i' = i + length s /\ subseq t s /\
  length t = length (filter (fun k => Qlt_bool p (rand (i + k))) (seq 0 (length s))) /\
  ((forall k, k < length s -> (p < rand (i + k)%nat)%Q) -> t = s) /\
  ((forall k, k < length s -> (rand (i + k)%nat <= p)%Q) -> t = []).
Proof.
  intros A p rand i s i' t E. unfold remove_noise in E. rewrite remove_noise_fold in E. injection E as <- <-. cbn [app].
  assert (Es : map (fun k => Qlt_bool p (rand k)) (seq i (length s)) = map (fun k => Qlt_bool p (rand (i + k))) (seq 0 (length s))).
  { rewrite <- (map_map (fun k => i + k) (fun k => Qlt_bool p (rand k))). f_equal. clear. generalize (length s) as n.
    intros n. replace (seq i n) with (seq (i + 0) n) by (f_equal; lia). generalize 0 as z. induction n; intros z; cbn; auto.
    f_equal. rewrite <- IHn. f_equal. lia. }
  rewrite Es. split; [auto|]. split; [apply filtered_subseq|]. split; [|split].
  - rewrite filtered_length by (rewrite map_length, seq_length; auto). clear. induction (seq 0 (length s)) as [|k l IH]; cbn; auto.
    destruct (Qlt_bool p (rand (i + k))); cbn; auto.
  - intros Hall. rewrite (map_ext_in _ (fun _ => true)).
    + clear. generalize 0 as z. induction s as [|e s IH]; intros z; cbn [length seq map combine filter fst snd]; auto. f_equal. auto.
    + intros k Hk. apply in_seq in Hk. apply Qlt_bool_iff. apply Hall. lia.
  - intros Hall. rewrite (map_ext_in _ (fun _ => false)).
    + clear. generalize 0 as z. induction s as [|e s IH]; intros z; cbn [length seq map combine filter fst snd]; auto.
    + intros k Hk. apply in_seq in Hk. apply Qlt_bool_false. apply Hall. lia.
Qed.

Section N2.
  Context {A : Type}.
  Lemma noise_or_not_ok (alphabet : list A) p rand pick i :
    (noise_or_not alphabet p rand pick i = Err IndexError /\ alphabet = [] /\ (rand i < p)%Q) \/
    (noise_or_not alphabet p rand pick i = Ok (S i, []) /\ (p <= rand i)%Q) \/
    (exists x, noise_or_not alphabet p rand pick i = Ok (S (S i), [x]) /\ In x alphabet /\ (rand i < p)%Q).
  Proof.
    unfold noise_or_not. destruct (Qlt_bool (rand i) p) eqn:E.
    - apply Qlt_bool_iff in E. destruct alphabet as [|x0 al].
      + left. destruct (pick (S i) mod length []); auto.
      + right. right. destruct (nth_error_lt (x0 :: al) (pick (S i) mod length (x0 :: al))) as [x Ex].
        { apply Nat.mod_upper_bound. discriminate. }
        rewrite Ex. exists x. split; [auto|]. split; auto. eapply nth_error_In; eauto.
    - apply Qlt_bool_false in E. auto.
  Qed.
  Lemma sprinkled_app (al : list A) s t : sprinkled al s t -> forall e,
    sprinkled al (s ++ [e]) (t ++ [e]) /\ forall x, In x al -> sprinkled al (s ++ [e]) (t ++ [e] ++ [x]).
  Proof.
    induction 1 as [|x Hx|e' s t Hs IH|x e' s t Hx Hs IH]; intros e; cbn [app].
    - split; [|intros x Hx]; apply spr_cons; constructor; auto.
    - split; [|intros y Hy]; apply spr_noise; auto; constructor; auto.
    - destruct (IH e) as [B C]. split; [|intros x Hx]; apply spr_cons; auto. apply (C x Hx).
    - destruct (IH e) as [B C]. split; [|intros y Hy]; apply spr_noise; auto. apply (C y Hy).
  Qed.
  Lemma add_noise_loop (al : list A) p rand pick s : forall s0 i r,
    sprinkled al s0 r ->
    let f := (fun '(i, r) e =>
             do (i', x) <- noise_or_not al p rand pick i ;
             Ok (i', (r ++ [e]) ++ x)) in
    (exists i' t, foldM f s (i, r) = Ok (i', t) /\ sprinkled al (s0 ++ s) t /\
        ((forall k, (p <= rand k)%Q) -> t = r ++ s)) \/
    (foldM f s (i, r) = Err IndexError /\ al = [] /\ exists k, (rand k < p)%Q).
  Proof.
    induction s as [|e s IH]; intros s0 i r Hr f; cbn [foldM].
    - left. exists i, r. rewrite !app_nil_r. auto.
    - replace (f (i, r) e) with (do (i', x) <- noise_or_not al p rand pick i ; Ok (i', (r ++ [e]) ++ x)) by reflexivity.
      destruct (noise_or_not_ok al p rand pick i) as [(E & Hal & Hlt)|[(E & Hle)|(x & E & Hx & Hlt)]];
        rewrite E; cbn [bind].
      + right. eauto.
      + destruct (IH (s0 ++ [e]) (S i) ((r ++ [e]) ++ [])) as [(i' & t & E' & Hs & Hn)|(E' & R)].
        { rewrite app_nil_r. apply sprinkled_app. auto. }
        * left. exists i', t. split; [exact E'|]. rewrite <- app_assoc in Hs. split; [exact Hs|].
          intros Hall. rewrite (Hn Hall), app_nil_r, <- app_assoc. auto.
        * right. split; [exact E'|auto].
      + destruct (IH (s0 ++ [e]) (S (S i)) ((r ++ [e]) ++ [x])) as [(i' & t & E' & Hs & Hn)|(E' & R)].
        { rewrite <- app_assoc. apply sprinkled_app; auto. }
        * left. exists i', t. split; [exact E'|]. rewrite <- app_assoc in Hs. split; [exact Hs|].
          intros Hall. exfalso. apply (Qlt_not_le _ _ Hlt). auto.
        * right. split; [exact E'|auto].
  Qed.
  Lemma sprinkled_facts (al : list A) s t : sprinkled al s t ->
    subseq s t /\ length s <= length t <= 2 * length s + 1 /\ forall x, In x t -> In x s \/ In x al.
  Proof.
    induction 1 as [|x Hx|e' s t Hs (I1 & I2 & I3)|x e' s t Hx Hs (I1 & I2 & I3)]; cbn [length].
    - split; [constructor|]. split; [lia|]. intros x [].
    - split; [apply subseq_skip, subseq_nil|]. split; [lia|]. intros y [<-|[]]; auto.
    - split; [apply subseq_take; auto|]. split; [lia|]. intros y [<-|Hy]; cbn; auto. destruct (I3 y Hy); auto.
    - split; [apply subseq_skip, subseq_take; auto|]. split; [lia|]. intros y [<-|[<-|Hy]]; cbn; auto. destruct (I3 y Hy); auto.
  Qed.
End N2.

(** Adding noise: the result is the old sequence with at most one element of
    the alphabet inserted in each gap, so nothing is lost or reordered and the
    length at most doubles plus one.  It fails, with an IndexError, only for
    an empty alphabet; nothing is added if no random number is below the
    probability. *)
Lemma C62_add_noise : forall (A : Type) (alphabet : list A) (p : Q) (rand : nat -> Q) (pick : nat -> nat) i (s : list A),
  (exists i' t, add_noise alphabet p rand pick i s = Ok (i', t) /\ sprinkled alphabet s t /\
     subseq s t /\ length t <= 2 * length s + 1 /\ (forall x, In x t -> In x s \/ In x alphabet) /\
     ((forall k, (p <= rand k)%Q) -> t = s)) \/
  (add_noise alphabet p rand pick i s = Err IndexError /\ alphabet = [] /\ exists k, (rand k < p)%Q).
Proof.
  intros A al p rand pick i s. unfold add_noise.
  assert (G : forall i0 r, sprinkled al [] r -> ((forall k, (p <= rand k)%Q) -> r = []) ->
    (exists i' t, foldM (fun '(i, r) e => do (i', x) <- noise_or_not al p rand pick i ; Ok (i', (r ++ [e]) ++ x)) s (i0, r) = Ok (i', t) /\ sprinkled al s t /\
     subseq s t /\ length t <= 2 * length s + 1 /\ (forall x, In x t -> In x s \/ In x al) /\
     ((forall k, (p <= rand k)%Q) -> t = s)) \/
    (foldM (fun '(i, r) e => do (i', x) <- noise_or_not al p rand pick i ; Ok (i', (r ++ [e]) ++ x)) s (i0, r) = Err IndexError /\ al = [] /\ exists k, (rand k < p)%Q)).
  { intros i0 r Hr Hr0. destruct (add_noise_loop al p rand pick s [] i0 r Hr) as [(i' & t & E' & Hs & Hn)|R]; [|auto].
    left. exists i', t. cbn [app] in Hs. destruct (sprinkled_facts al s t Hs) as (F1 & F2 & F3).
    split; [exact E'|]. split; [auto|]. split; [auto|]. split; [lia|]. split; [auto|].
    intros Hall. rewrite (Hn Hall), (Hr0 Hall). auto. }
  destruct (noise_or_not_ok al p rand pick i) as [(E & Hal & Hlt)|[(E & Hle)|(x & E & Hx & Hlt)]]; rewrite E; cbn [bind].
  - right. eauto.
  - apply G; [constructor|auto].
  - apply G; [constructor; auto|]. intros Hall. exfalso. apply (Qlt_not_le _ _ Hlt). auto.
Qed.

Section N3.
  Context {A : Type}.
  Implicit Types s t : list A.
  (** the rest of the swap loop as a relation *)
  Lemma moved_cons f e s t : moved_by f s t -> moved_by (fun k => match k with 0 => 0 | S k' => S (f k') end) (e :: s) (e :: t).
  Proof.
    intros (L & E & J). split; [cbn; lia|]. split.
    - intros [|k] Hk; cbn; auto. apply E. cbn in Hk. lia.
    - intros [|k] [|k'] Hk Hk' Ef; try discriminate; auto. cbn in *. f_equal. apply J; lia.
  Qed.
  Lemma moved_swap f e e' s t : moved_by f s t ->
    moved_by (fun k => match k with 0 => 1 | 1 => 0 | S (S k') => S (S (f k')) end) (e :: e' :: s) (e' :: e :: t).
  Proof.
    intros (L & E & J). split; [cbn; lia|]. split.
    - intros [|[|k]] Hk; cbn; auto. apply E. cbn in Hk. lia.
    - intros [|[|k]] [|[|k']] Hk Hk' Ef; try discriminate; auto. cbn in *. f_equal. f_equal. apply J; lia.
  Qed.
  Lemma moved_carry f e e' s t : moved_by f (e :: s) t ->
    moved_by (fun k => match k with 0 => S (f 0) | 1 => 0 | S (S k') => S (f (S k')) end) (e :: e' :: s) (e' :: t).
  Proof.
    intros (L & E & J). split; [cbn in *; lia|]. split.
    - intros [|[|k]] Hk; cbn; auto.
      + apply (E 0). cbn. lia.
      + apply (E (S k)). cbn in *. lia.
    - intros [|[|k]] [|[|k']] Hk Hk' Ef; try discriminate; auto; cbn in *.
      + exfalso. assert (0 = S k') by (apply J; cbn; lia). lia.
      + exfalso. assert (S k = 0) by (apply J; cbn; lia). lia.
      + f_equal. apply J; cbn; lia.
  Qed.
  Lemma moved_id s : moved_by (fun k => k) s s.
  Proof. split; [auto|]. split; auto. Qed.

  Lemma swap_loop p rand multiple fuel : forall i s out, length s <= fuel ->
    exists i' t f, swap_noise_loop fuel multiple p rand i s out = (i', out ++ t) /\ Permutation t s /\ moved_by f s t /\
      (forall k, k < length s -> k <= f k + 1) /\
      (multiple = false -> forall k, k < length s -> f k <= k + 1 /\ f (f k) = k) /\
      ((forall k, (p <= rand k)%Q) -> t = s) /\
      ((forall k, (rand k < p)%Q) -> multiple = true -> match s with [] => True | e :: s' => t = s' ++ [e] end).
  Proof.
    induction fuel as [|fuel IH]; intros i s out Hl.
    - destruct s; [|cbn in Hl; lia]. exists i, [], (fun k => k). cbn. split; [auto|]. split; [auto|].
      split; [apply (moved_id [])|]. split; [lia|]. split; [lia|]. auto.
    - destruct s as [|e [|e' s]]; cbn [swap_noise_loop].
      + exists i, [], (fun k => k). split; [auto|]. split; [auto|]. split; [apply (moved_id [])|]. split; [lia|]. split; [lia|]. auto.
      + exists i, [e], (fun k => k). split; [auto|]. split; [auto|]. split; [apply (moved_id [e])|]. split; [lia|]. split; [lia|]. auto.
      + cbn [length] in Hl. destruct (Qlt_bool (rand i) p) eqn:Er.
        * apply Qlt_bool_iff in Er.
          assert (Hno : (forall k, (p <= rand k)%Q) -> False) by (intros Hall; apply (Qlt_not_le _ _ Er); auto).
          destruct multiple.
          -- destruct (IH (S i) (e :: s) (out ++ [e'])) as (i' & t & f & E & P & M & B & _ & D & F); [cbn; lia|].
             exists i', (e' :: t), (fun k => match k with 0 => S (f 0) | 1 => 0 | S (S k') => S (f (S k')) end).
             split; [rewrite E, <- app_assoc; auto|]. split; [|split; [apply moved_carry; auto|split; [|split; [discriminate|split]]]].
             ++ rewrite P. apply perm_swap.
             ++ intros [|[|k]] Hk; try lia. cbn in Hk. specialize (B (S k)). cbn in B. lia.
             ++ intros Hall. exfalso; auto.
             ++ intros Hall _. cbn [app]. f_equal. apply F; auto.
          -- destruct (IH (S i) s ((out ++ [e']) ++ [e])) as (i' & t & f & E & P & M & B & C & D & F); [cbn; lia|].
             exists i', (e' :: e :: t), (fun k => match k with 0 => 1 | 1 => 0 | S (S k') => S (S (f k')) end).
             split; [rewrite E, <- !app_assoc; auto|]. split; [|split; [apply moved_swap; auto|split; [|split; [|split]]]].
             ++ rewrite P. apply perm_swap.
             ++ intros [|[|k]] Hk; try lia. cbn in Hk. specialize (B k). lia.
             ++ intros _ [|[|k]] Hk; try (split; [lia|auto]; fail). cbn in Hk. destruct (C eq_refl k); [lia|]. split; [lia|]. cbn. lia.
             ++ intros Hall. exfalso; auto.
             ++ discriminate.
        * apply Qlt_bool_false in Er.
          destruct (IH (S i) (e' :: s) (out ++ [e])) as (i' & t & f & E & P & M & B & C & D & F); [cbn; lia|].
          exists i', (e :: t), (fun k => match k with 0 => 0 | S k' => S (f k') end).
          split; [rewrite E, <- app_assoc; auto|]. split; [|split; [apply moved_cons; auto|split; [|split; [|split]]]].
          -- rewrite P. auto.
          -- intros [|k] Hk; try lia. cbn in Hk. specialize (B k). cbn in B. lia.
          -- intros Hm [|k] Hk; [split; [lia|auto]|]. cbn in Hk. destruct (C Hm k); [cbn; lia|]. split; [lia|]. cbn. lia.
          -- intros Hall. f_equal. auto.
          -- intros Hall. exfalso. apply (Qlt_not_le _ _ (Hall i)). auto.
  Qed.
End N3.

(** Swap noise: the result is a rearrangement in which no event moves more
    than one position to the front; without multiple swaps events only change
    places with a neighbour, so no event moves by more than one position.
    Nothing happens if no random number is below the probability; with
    multiple swaps and all of them below, the first event goes to the end. *)
Lemma C62_swap_noise : forall (A : Type) (multiple : bool) (p : Q) (rand : nat -> Q) i (s : list A) i' t,
  swap_noise multiple p rand i s = (i', t) ->
  Permutation t s /\
  (exists f, moved_by f s t /\ (forall k, k < length s -> k <= f k + 1) /\
     (multiple = false -> forall k, k < length s -> f k <= k + 1 /\ f (f k) = k)) /\
  ((forall k, (p <= rand k)%Q) -> t = s) /\
  ((forall k, (rand k < p)%Q) -> multiple = true -> forall e s', s = e :: s' -> t = s' ++ [e]).
Proof.
  intros A multiple p rand i s i' t E. unfold swap_noise in E.
  destruct (swap_loop p rand multiple (length s) i s []) as (i2 & t2 & f & E2 & P & M & B & C & D & F); [auto|].
  rewrite E2 in E. injection E as <- <-. cbn [app]. split; [auto|]. split; [eauto|]. split; [auto|].
  intros Hall Hm e s' ->. apply F; auto.
Qed.

(** The noise transformers applied to a dataset: only the target sequences of
    its instances change, each to the noisy version of its own. *)
Lemma C62_noise_dataset : forall (A I V : Type) (EI : Base.Eq I) (EV : Base.Eq V)
    (f : nat -> list A -> result (nat * list A)) i (h : heap I V (list A)) (d : dataset V) it i' h',
  history true h d -> Permutation it (insts d) -> noise_dataset f i h it = Ok (i', h') ->
  history true h' d /\ length h' = length h /\
  (forall a, ~ In a (insts d) -> nth_error h' a = nth_error h a) /\
  (forall a x, member h d a x -> exists x' j j', nth_error h' a = Some x' /\ iid x' = iid x /\ feats x' = feats x /\
     f j (target x) = Ok (j', target x')).
Proof.
  intros A I V EI EV f i h d it i' h' Hh Hit E. pose proof (history_inv _ _ _ Hh) as Hi.
  assert (Gup : forall (h : heap I V (list A)) a g b, nth_error (update h a g) b = if Nat.eqb b a then option_map g (nth_error h b) else nth_error h b).
  { clear. induction h as [|x h IH]; intros [|a] g [|b]; cbn; auto. destruct (b =? a); auto. }
  assert (G : forall it i (h : heap I V (list A)), NoDup it -> foldM (fun '(i, h) a =>
             do x <- of_option AttributeError (nth_error h a) ;
             do (i', s) <- f i (target x) ;
             Ok (i', update h a (set_target s))) it (i, h) = Ok (i', h') ->
     length h' = length h /\
     (forall a, ~ In a it -> nth_error h' a = nth_error h a) /\
     (forall a x, In a it -> nth_error h a = Some x -> exists x' j j', nth_error h' a = Some x' /\ iid x' = iid x /\ feats x' = feats x /\
        f j (target x) = Ok (j', target x'))).
  { clear - Gup. induction it as [|a it IH]; intros i h Hnd E; cbn [foldM] in E.
    - injection E as <- <-. split; [auto|]. split; [auto|]. intros a x [].
    - inversion Hnd as [|? ? Hni Hnd']; subst. destruct (nth_error h a) as [x|] eqn:Ex; [|discriminate]. cbn [of_option bind] in E.
      destruct (f i (target x)) as [[j s]|] eqn:Ef; [|discriminate]. cbn [bind] in E.
      destruct (IH _ _ Hnd' E) as (L & N & M). split; [rewrite L; apply update_length|]. split.
      + intros b Hb. rewrite N by (intros Hin; apply Hb; cbn; auto). rewrite Gup. destruct (Nat.eqb_spec b a); auto.
        exfalso. apply Hb. cbn; auto.
      + intros b y [<-|Hb] Ey.
        * rewrite N by auto. rewrite Gup, Nat.eqb_refl, Ey. cbn [option_map]. exists (set_target s y), i, j. split; [auto|].
          split; [auto|]. split; [auto|]. cbn. rewrite Ex in Ey. injection Ey as <-. auto.
        * apply M; auto. rewrite Gup. destruct (Nat.eqb_spec b a); auto. subst. contradiction. }
  destruct (G it i h) as (L & N & M); auto.
  { apply Permutation_NoDup with (insts d); [apply Permutation_sym; auto|apply Hi]. }
  assert (M' : forall a x, member h d a x -> exists x' j j', nth_error h' a = Some x' /\ iid x' = iid x /\ feats x' = feats x /\
     f j (target x) = Ok (j', target x')).
  { intros a x [Ha Ex]. apply M; auto. apply (Permutation_in _ (Permutation_sym Hit)). auto. }
  split; [|split; [auto|split; [|auto]]].
  - eapply hist_other; [exact Hh| |].
    + intros a x Ex. destruct (nth_error_lt h a) as [y Ey]; [rewrite <- L; eapply nth_error_Some_lt; eauto|].
      pose proof (v_proper _ _ _ Hi a y Ey) as Hp.
      destruct (in_dec Nat.eq_dec a it) as [Ha|Ha].
      * destruct (M a y Ha Ey) as (x' & j & j' & Ex' & _ & Ef & _). congruence.
      * rewrite N in Ex by auto. congruence.
    + intros a x Hm. destruct (M' a x Hm) as (x' & j & j' & Ex' & E1 & E2 & _). eauto.
  - intros a Ha. apply N. intros Hin. apply Ha. apply (Permutation_in _ Hit). auto.
Qed.
