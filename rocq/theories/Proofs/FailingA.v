(** What failing transformations leave behind: agreement with the model
    without states, copies *)
From Coq Require Import Permutation QArith Qcanon String.
From Verif.Model Require Import Base LogNoise Dataset Transformers Discretization FailingTransformers.
From Verif.Spec Require Import DatasetSpec FailingSpec.
From Verif.Lib Require Import ListLib DictLib.
From Verif.Proofs Require Import PetriA ParallelB DatasetA DatasetB DatasetC TransformersA TransformersC.
Open Scope string_scope.
Open Scope list_scope.
Open Scope nat_scope.

Section T.
  Context {I V T : Type} `{Base.Eq I} `{Base.Eq V}.
  Notation heap := (heap I V T).
  Notation dataset := (dataset V).
  Notation outcome := (outcome I V T).

  Lemma to_result_ok (r : outcome) h d : to_result r = Ok (h, d) -> r = (h, d, None).
  Proof. destruct r as [[h' d'] [e|]]; cbn; congruence. Qed.
  Lemma to_result_after (r : outcome) k : to_result (after r k) = do (h, d) <- to_result r ; to_result (k h d).
  Proof. destruct r as [[h' d'] [e|]]; auto. Qed.
  Lemma to_result_reading {X} (r : result X) h d (k : X -> outcome) :
    to_result (reading r h d k) = do x <- r ; to_result (k x).
  Proof. destruct r; auto. Qed.
  Lemma to_result_loop {X} (f : heap -> dataset -> X -> outcome) g :
    (forall h d x, to_result (f h d x) = g (h, d) x) ->
    forall l h d, to_result (loop f l h d) = foldM g l (h, d).
  Proof.
    intros Hf. induction l as [|x l IH]; intros h d; cbn [loop foldM]; auto.
    rewrite to_result_after, Hf. destruct (g (h, d) x) as [[h' d']|]; cbn [bind]; auto.
  Qed.
  Lemma to_result_replacing k h d it n vs : to_result (replacing (I := I) (T := T) k h d it n vs) =
    do (h1, d1) <- to_result (remove_attribute h d it n) ; to_result (add_attribute k h1 d1 it n vs).
  Proof. apply to_result_after. Qed.
  Lemma to_result_per k f g : (forall h d n us, to_result (f h d n us) = g h d n us) ->
    forall (h : heap) (d : dataset), to_result (per_attribute k f h d) = each_attribute k g h d.
  Proof.
    intros Hf h d. apply to_result_loop. intros h1 d1 [n y]. destruct (akind y), k; cbn; auto.
  Qed.
  Lemma labelling_attribute_agrees possible sorted ofnat isbool it (h : heap) (d : dataset) n us :
    to_result (labelling_attribute possible sorted ofnat isbool it h d n us) = label_attribute possible sorted ofnat isbool it h d n us.
  Proof.
    unfold labelling_attribute, label_attribute. rewrite to_result_reading. destruct (candidates _ _ _ _) as [pv|]; cbn [bind]; auto.
    destruct (match pv with [] => false | _ :: _ => _ end); auto. cbv zeta. rewrite to_result_reading.
    destruct (mapM _ it); cbn [bind]; auto. apply to_result_replacing.
  Qed.
  Lemma one_hot_attribute_agrees possible sorted zero one join show it (h : heap) (d : dataset) n us :
    to_result (one_hot_encoding_attribute possible sorted zero one join show it h d n us) = one_hot_attribute possible sorted zero one join show it h d n us.
  Proof.
    unfold one_hot_encoding_attribute, one_hot_attribute. rewrite to_result_reading. destruct (candidates _ _ _ _) as [pv|]; cbn [bind]; auto.
    destruct (list_eqb _ _); auto. rewrite to_result_after. erewrite to_result_loop; [reflexivity|].
    intros h1 d1 v. cbn beta iota. rewrite to_result_reading. reflexivity.
  Qed.
  Lemma removing_agrees test it (h : heap) (d : dataset) : to_result (removing test it h d) = remove_attributes test it h d.
  Proof. apply to_result_loop. intros h1 d1 [n y]. destruct (test n y); auto. Qed.
End T.
Ltac agree := repeat (rewrite to_result_reading; match goal with |- bind ?r _ = bind ?r _ => destruct r; cbn [bind]; [|reflexivity] end).
Lemma scaling_attribute_agrees {I T} lo hi it (h : heap I Qc T) d n us :
  to_result (scaling_attribute lo hi it h d n us) = scale_attribute lo hi it h d n us.
Proof. unfold scaling_attribute, scale_attribute. agree. apply to_result_replacing. Qed.
Lemma discretizing_attribute_agrees {I T} show bins it (h : heap I val T) d n us :
  to_result (discretizing_attribute show bins it h d n us) = discretize_attribute show bins it h d n us.
Proof. unfold discretizing_attribute, discretize_attribute. agree. apply to_result_replacing. Qed.
Lemma binning_attribute_agrees {I T} bins it (h : heap I val T) d n us :
  to_result (binning_attribute bins it h d n us) = bin_attribute bins it h d n us.
Proof. unfold binning_attribute, bin_attribute. agree. apply to_result_replacing. Qed.
Lemma noising_agrees {A I V} (f : nat -> list A -> result (nat * list A)) it : forall i (h : heap I V (list A)),
  to_result (noising f i h it) = noise_dataset f i h it.
Proof.
  unfold noise_dataset. induction it as [|a it IH]; intros i h; cbn [noising foldM]; auto.
  destruct (of_option _ _) as [x|]; cbn [bind]; auto. destruct (f i (target x)) as [[i' s]|]; cbn [bind]; auto.
Qed.

(** ** whatever happens, only instances of the dataset are written to *)
Section U.
  Context {I V T : Type} `{Base.Eq I} `{Base.Eq V}.
  Notation heap := (heap I V T).
  Notation dataset := (dataset V).
  Notation outcome := (outcome I V T).
  (** an outcome that keeps the instances of [d] and all other objects *)
  Definition harmless_outcome (h : heap) (d : dataset) (r : outcome) : Prop :=
    insts (snd (fst r)) = insts d /\ length h <= length (fst (fst r)) /\
    forall a, ~ In a (insts d) -> a < length h -> nth_error (fst (fst r)) a = nth_error h a.
  Lemma harmless_refl h d e : harmless_outcome h d (h, d, e).
  Proof. split; auto. Qed.
  Lemma harmless_features (h h' : heap) (d d' : dataset) e : insts d' = insts d -> only_features d h h' -> harmless_outcome h d (h', d', e).
  Proof.
    intros E [L O]. split; [auto|]. cbn [fst snd]. split; [lia|]. intros a Hni Hlt. destruct (nth_error_lt h a Hlt) as [x Ex].
    destruct (O a x Ex) as (x' & Ex' & _ & _ & F). rewrite Ex', Ex, F; auto.
  Qed.
  Lemma harmless_after (h : heap) (d : dataset) (r : outcome) k : harmless_outcome h d r ->
    (forall h1 d1, insts d1 = insts d -> harmless_outcome h1 d1 (k h1 d1)) -> harmless_outcome h d (after r k).
  Proof.
    destruct r as [[h1 d1] [e|]]; intros R Hk; [exact R|]. cbn [after]. destruct R as (A & B & C). cbn [fst snd] in *.
    destruct (Hk h1 d1 A) as (D & E & F). split; [congruence|]. split; [lia|]. intros a Hni Hlt. rewrite F; [auto|congruence|lia].
  Qed.
  Lemma harmless_reading {X} (r : result X) h d (k : X -> outcome) :
    (forall x, r = Ok x -> harmless_outcome h d (k x)) -> harmless_outcome h d (reading r h d k).
  Proof. destruct r; cbn [reading]; auto. intros _. apply harmless_refl. Qed.
  Lemma harmless_loop {X} (f : heap -> dataset -> X -> outcome) l : forall h d,
    (forall h1 d1 x, insts d1 = insts d -> harmless_outcome h1 d1 (f h1 d1 x)) -> harmless_outcome h d (loop f l h d).
  Proof.
    induction l as [|x l IH]; intros h d Hf; cbn [loop]; [apply harmless_refl|]. apply harmless_after; [apply Hf; auto|].
    intros h1 d1 E. apply IH. intros h2 d2 y E2. apply Hf. congruence.
  Qed.
  Lemma harmless_remove (h : heap) (d : dataset) it n : incl it (insts d) -> harmless_outcome h d (remove_attribute h d it n).
  Proof.
    intros Hit. unfold remove_attribute. destruct (dict_get n (attrs d)) as [y|]; [|apply harmless_refl].
    destruct (mem _ _).
    - pose proof (remove_features_only d n it h Hit) as O. destruct (remove_features h it n) as [h1 e1]. apply harmless_features; auto.
      destruct (akind y); auto.
    - apply harmless_features; auto. apply only_features_refl.
  Qed.
  Lemma harmless_add k (h : heap) (d : dataset) it n vs : incl it (insts d) -> harmless_outcome h d (add_attribute k h d it n vs).
  Proof.
    intros Hit. unfold add_attribute. destruct (_ =? _); [|apply harmless_refl]. apply harmless_features; auto.
    apply set_features_only. intros v a Hin. apply Hit. eapply in_combine_r; eauto.
  Qed.
  Lemma harmless_replacing k (h : heap) (d : dataset) it n vs : incl it (insts d) -> harmless_outcome h d (replacing k h d it n vs).
  Proof.
    intros Hit. apply harmless_after; [apply harmless_remove; auto|]. intros h1 d1 E. apply harmless_add. rewrite E. auto.
  Qed.
  Lemma harmless_per k f (h : heap) (d : dataset) :
    (forall h1 d1 n us, insts d1 = insts d -> harmless_outcome h1 d1 (f h1 d1 n us)) -> harmless_outcome h d (per_attribute k f h d).
  Proof.
    intros Hf. apply harmless_loop. intros h1 d1 [n y] E. destruct (akind y), k; auto using harmless_refl.
  Qed.
  Lemma harmless_labelling possible sorted ofnat isbool it (h : heap) (d : dataset) : incl it (insts d) ->
    harmless_outcome h d (labelling possible sorted ofnat isbool it h d).
  Proof.
    intros Hit. apply harmless_per. intros h1 d1 n us E. apply harmless_reading. intros pv _.
    destruct (match pv with [] => false | _ :: _ => _ end); [apply harmless_refl|]. apply harmless_reading. intros vs _.
    apply harmless_replacing. rewrite E. auto.
  Qed.
  Lemma harmless_one_hot possible sorted zero one join show it (h : heap) (d : dataset) : incl it (insts d) ->
    harmless_outcome h d (one_hot_encoding possible sorted zero one join show it h d).
  Proof.
    intros Hit. apply harmless_per. intros h1 d1 n us E. apply harmless_reading. intros pv _.
    destruct (list_eqb _ _); [apply harmless_refl|]. apply harmless_after.
    - apply harmless_loop. intros h2 d2 v E2. apply harmless_reading. intros vs _. apply harmless_add. rewrite E2, E. auto.
    - intros h2 d2 E2. apply harmless_remove. rewrite E2, E. auto.
  Qed.
  Lemma harmless_removing test it (h : heap) (d : dataset) : incl it (insts d) -> harmless_outcome h d (removing test it h d).
  Proof.
    intros Hit. apply harmless_loop. intros h1 d1 [n y] E. destruct (test n y); [|apply harmless_refl]. apply harmless_remove.
    rewrite E. auto.
  Qed.

  (** copying only adds objects, and the copy only has new ones *)
  Lemma copying_new (d : dataset) it : forall (h : heap), exists new_objects c e, copying h d it = (h ++ new_objects, c, e) /\
    forall a, In a (insts c) -> length h <= a.
  Proof.
    intros h. unfold copying.
    assert (N : insts (new (V := V) (cats d) (nums d)) = []).
    { unfold new. assert (G1 : forall cs (x : dataset), insts (fold_left
      (fun d n => let d' := set_attr n {| akind := Categorical; auniq := [] |} d in
                  {| insts := insts d'; attrs := attrs d'; cats := cats d' ++ [n]; nums := nums d' |}) cs x) = insts x).
      { induction cs as [|c cs IH]; intros x; cbn [fold_left]; auto. rewrite IH. reflexivity. }
      assert (G2 : forall ns (x : dataset), insts (fold_left (fun d n => set_attr n {| akind := Numerical; auniq := [] |} d) ns x) = insts x).
      { induction ns as [|c ns IH]; intros x; cbn [fold_left]; auto. rewrite IH. reflexivity. }
      rewrite G2. cbn [insts]. rewrite G1. reflexivity. }
    assert (G : forall l more (c : dataset), (forall a, In a (insts c) -> length h <= a) -> exists new_objects c' e,
      loop (fun h c a =>
            reading (of_option AttributeError (nth_error h a)) h c (fun x =>
            let h' := h ++ [x] in
            reading (add_instance h' c (length h)) h' c (fun c' => (h', c', None)))) l (h ++ more) c = (h ++ new_objects, c', e) /\
      forall a, In a (insts c') -> length h <= a).
    { induction l as [|a l IH]; intros more c Hc; cbn [loop]; [exists more, c, None; auto|].
      destruct (of_option AttributeError (nth_error (h ++ more) a)) as [x|er]; cbn [reading after]; [|exists more, c, (Some er); auto].
      cbv zeta. destruct (add_instance ((h ++ more) ++ [x]) c (length (h ++ more))) as [c'|er] eqn:Ea; cbn [reading after].
      - rewrite <- app_assoc. apply IH. intros b Hb. unfold add_instance in Ea. destruct (of_option _ _); [|discriminate]. cbn [bind] in Ea.
        destruct (negb _); [discriminate|]. destruct (contains _ _ _); [discriminate|]. destruct (mapM _ _); [|discriminate].
        cbn [bind] in Ea. injection Ea as <-. cbn [insts] in Hb. apply in_app_iff in Hb. destruct Hb as [Hb|[<-|[]]]; auto.
        rewrite app_length. lia.
      - exists (more ++ [x]), c, (Some er). rewrite app_assoc. auto. }
    destruct (G it [] (new (cats d) (nums d))) as (m & c & e & E & F).
    { rewrite N. intros a []. }
    rewrite app_nil_r in E. exists m, c, e. auto.
  Qed.
  Lemma spares f : (forall h d, harmless_outcome h d (f h d)) -> spares_original f.
  Proof.
    intros Hf h d it h' d' r. unfold transforming. destruct (copying_new d it h) as (m & c & e & E & F). rewrite E.
    destruct e as [e|]; cbn [after].
    - intros X. injection X as <- <- <-. split; [auto|]. split; [|discriminate].
      intros a x Ex. rewrite nth_error_app1; auto. eapply nth_error_Some_lt; eauto.
    - destruct (Hf (h ++ m) c) as (A & B & C). destruct (f (h ++ m) c) as [[h2 c2] e2]. cbn [fst snd] in *.
      intros X. injection X as <- <- <-. split; [auto|]. split.
      + intros a x Ex. pose proof (nth_error_Some_lt _ _ _ Ex). rewrite C.
        * rewrite nth_error_app1; auto.
        * intros Hin. apply F in Hin. lia.
        * rewrite app_length. lia.
      + intros c' Ec. destruct e2; [discriminate|]. injection Ec as <-. rewrite A. auto.
  Qed.
End U.
Lemma harmless_scaling {I T} lo hi it (h : heap I Qc T) d : incl it (insts d) -> harmless_outcome h d (scaling lo hi it h d).
Proof.
  intros Hit. apply harmless_per. intros h1 d1 n us E. unfold scaling_attribute. repeat (apply harmless_reading; intros ? _).
  apply harmless_replacing. rewrite E. auto.
Qed.
Lemma harmless_discretizing {I T} show bins it (h : heap I val T) d : incl it (insts d) -> harmless_outcome h d (discretizing show bins it h d).
Proof.
  intros Hit. apply harmless_per. intros h1 d1 n us E. unfold discretizing_attribute. repeat (apply harmless_reading; intros ? _).
  apply harmless_replacing. rewrite E. auto.
Qed.
Lemma harmless_binning {I T} bins it (h : heap I val T) d : incl it (insts d) -> harmless_outcome h d (binning bins it h d).
Proof.
  intros Hit. apply harmless_per. intros h1 d1 n us E. unfold binning_attribute. repeat (apply harmless_reading; intros ? _).
  apply harmless_replacing. rewrite E. auto.
Qed.
Lemma update_nth {I V T} (h : heap I V T) g : forall a b, nth_error (update h a g) b = if Nat.eqb b a then option_map g (nth_error h b) else nth_error h b.
Proof. induction h as [|x h IH]; intros [|a] [|b]; cbn; auto. destruct (b =? a); auto. Qed.
Lemma harmless_noising {A I V} (f : nat -> list A -> result (nat * list A)) i it (h : heap I V (list A)) (d : dataset V) : incl it (insts d) ->
  harmless_outcome h d (noising_dataset f i it h d).
Proof.
  intros Hit. unfold noising_dataset.
  assert (G : forall l i h', incl l (insts d) -> length h' = length h -> (forall a, ~ In a (insts d) -> nth_error h' a = nth_error h a) ->
    length (snd (fst (noising f i h' l))) = length h /\ forall a, ~ In a (insts d) -> nth_error (snd (fst (noising f i h' l))) a = nth_error h a).
  { induction l as [|a l IH]; intros j h' Hl HL HN; cbn [noising]; [auto|].
    destruct (of_option _ _) as [x|]; [|auto]. destruct (f j (target x)) as [[j' s]|]; [|auto]. apply IH.
    - intros b Hb. apply Hl. cbn; auto.
    - rewrite update_length. auto.
    - intros b Hb. rewrite update_nth. destruct (Nat.eqb_spec b a) as [->|]; auto. exfalso. apply Hb, Hl. cbn; auto. }
  destruct (G it i h Hit) as [L N]; auto. destruct (noising f i h it) as [[j h'] e]. cbn [fst snd] in *.
  split; [auto|]. cbn [fst snd]. split; [lia|]. auto.
Qed.
