(** What failing transformations leave behind (C143) *)
From Coq Require Import Permutation QArith Qcanon String Sorted.
From Verif.Model Require Import Base Sort LogNoise Dataset Transformers Discretization FailingTransformers.
From Verif.Spec Require Import DatasetSpec TransformSpec QuantileSpec.
From Verif.Lib Require Import ListLib DictLib.
From Verif.Proofs Require Import PetriA ParallelB DatasetA DatasetB DatasetC TransformersA TransformersB TransformersC TransformersD Quantiles FailingA.
Open Scope string_scope.
Open Scope list_scope.
Open Scope nat_scope.

Section T.
  Context {I V T : Type} `{Base.Eq I} `{Base.Eq V}.
  Notation heap := (heap I V T).
  Notation dataset := (dataset V).
  Notation outcome := (outcome I V T).

  Lemma per_loop k f (d : dataset) (P : list string -> heap -> dataset -> Prop) (Fail : string -> list V -> error -> Prop) :
    NoDup (keys (attrs d)) ->
    (forall done n us h1 d1, kind_of d n = Some k -> uniques d n = Some us -> ~ In n done -> P done h1 d1 ->
       (exists h2 d2, f h1 d1 n us = (h2, d2, None) /\ P (n :: done) h2 d2) \/
       (exists e, f h1 d1 n us = (h1, d1, Some e) /\ Fail n us e)) ->
    (forall done n h1 d1, kind_of d n <> Some k -> P done h1 d1 -> P (n :: done) h1 d1) ->
    forall h, P [] h d ->
    exists h' d' e done rest, per_attribute k f h d = (h', d', e) /\ keys (attrs d) = rev done ++ rest /\ P done h' d' /\
      match e with
      | None => rest = []
      | Some e => exists n us rest', rest = n :: rest' /\ kind_of d n = Some k /\ uniques d n = Some us /\ Fail n us e
      end.
  Proof.
    intros Hn Hf Hskip h HP. unfold per_attribute.
    assert (G : forall l done h1 d1, (forall n y, In (n, y) l -> dict_get n (attrs d) = Some y) ->
      NoDup (keys l) -> (forall n, In n done -> ~ In n (keys l)) -> P done h1 d1 ->
      exists h' d' e more rest, loop (fun h d '(n, y) =>
            match akind y, k with
            | Categorical, Categorical | Numerical, Numerical => f h d n (auniq y)
            | _, _ => (h, d, None)
            end) l h1 d1 = (h', d', e) /\ keys l = rev more ++ rest /\ P (more ++ done) h' d' /\
        match e with
        | None => rest = []
        | Some e => exists n us rest', rest = n :: rest' /\ kind_of d n = Some k /\ uniques d n = Some us /\ Fail n us e
        end).
    { induction l as [|[n y] l IH]; intros done h1 d1 Hl Hnd Hdis HP1; cbn [loop]; cbv beta iota delta [FailingTransformers.outcome].
      - exists h1, d1, None, [], []. auto.
      - change (keys ((n, y) :: l)) with (n :: keys l) in *. inversion Hnd as [|? ? Hni Hnd']; subst.
        assert (Ey : dict_get n (attrs d) = Some y) by (apply Hl; cbn; auto).
        assert (Hstep : (exists h2 d2, match akind y, k with
             | Categorical, Categorical | Numerical, Numerical => f h1 d1 n (auniq y)
             | _, _ => (h1, d1, None)
             end = (h2, d2, None) /\ P (n :: done) h2 d2) \/
             (exists e, match akind y, k with
             | Categorical, Categorical | Numerical, Numerical => f h1 d1 n (auniq y)
             | _, _ => (h1, d1, None)
             end = (h1, d1, Some e) /\ kind_of d n = Some k /\ uniques d n = Some (auniq y) /\ Fail n (auniq y) e)).
        { assert (Hd : ~ In n done). { intros Hin. apply (Hdis n Hin). cbn; auto. }
          assert (Hk : kind_of d n = Some (akind y)) by (unfold kind_of; rewrite Ey; auto).
          assert (Hu : uniques d n = Some (auniq y)) by (unfold uniques; rewrite Ey; auto).
          destruct (akind y), k.
          2, 3: left; do 2 eexists; (split; [reflexivity|]); apply Hskip; auto; rewrite Hk; discriminate.
          - destruct (Hf done n (auniq y) h1 d1 Hk Hu Hd HP1) as [S|(e & A & B)]; [left; exact S|right; exists e; auto].
          - destruct (Hf done n (auniq y) h1 d1 Hk Hu Hd HP1) as [S|(e & A & B)]; [left; exact S|right; exists e; auto]. }
        destruct Hstep as [(h2 & d2 & E2 & P2)|(e & E2 & F1 & F2 & F3)].
        + rewrite E2. cbn [after]. destruct (IH (n :: done) h2 d2) as (h' & d' & e & more & rest & A & B & C & D).
          * intros m z Hin. apply Hl. cbn; auto.
          * auto.
          * intros m [<-|Hin]; auto. intros Hin'. apply (Hdis m Hin). cbn; auto.
          * auto.
          * exists h', d', e, (more ++ [n]), rest. split; [exact A|]. split; [rewrite rev_app_distr; cbn; rewrite B; auto|].
            split; [rewrite <- app_assoc; auto|]. auto.
        + rewrite E2. cbn [after]. exists h1, d1, (Some e), [], (n :: keys l). split; [auto|]. split; [auto|]. split; [auto|].
          exists n, (auniq y), (keys l). auto. }
    destruct (G (attrs d) [] h d) as (h' & d' & e & done & rest & A & B & C & D); auto.
    - intros n y Hin. apply dict_In_get; auto.
    - rewrite app_nil_r in C. exists h', d', e, done, rest. auto.
  Qed.
  (** which attributes are still as they were *)
  Lemma not_done (d : dataset) (done rest : list string) n : NoDup (keys (attrs d)) -> keys (attrs d) = rev done ++ rest -> In n rest -> ~ In n done.
  Proof.
    intros Hn E Hr Hd. rewrite E in Hn. apply in_rev in Hd. revert Hn Hd. clear - Hr.
    induction (rev done) as [|m l IH]; cbn; [auto|]. intros Hn [->|Hin]; inversion Hn; subst; auto.
    apply H1. apply in_app_iff. auto.
  Qed.

  Lemma last_fold (pv : list V) : forall k m v,
    (exists j, last_position pv v j /\ dict_get v (fold_left (fun m '(v, i) => dict_set v i m) (combine pv (seq k (length pv))) m) = Some (k + j)) \/
    (~ In v pv /\ dict_get v (fold_left (fun m '(v, i) => dict_set v i m) (combine pv (seq k (length pv))) m) = dict_get v m).
  Proof.
    induction pv as [|w pv IH]; intros k m v; cbn [length seq combine fold_left]; [right; auto|].
    destruct (IH (S k) (dict_set w k m) v) as [(j & [A B] & E)|[A E]]; rewrite E.
    - left. exists (S j). split; [|f_equal; lia]. split; [auto|]. intros [|i] Hi; [lia|]. cbn. apply B. lia.
    - rewrite dict_get_set. destruct (eqb_ok v w) as [->|Hne].
      + left. exists 0. split; [|f_equal; lia]. split; [auto|]. intros [|i] Hi; [lia|]. cbn. intros Ei. apply A. eapply nth_error_In; eauto.
      + right. split; [|auto]. intros [X|X]; auto.
  Qed.
  Lemma numbered_test (ofnat : nat -> V) isbool pv : reflect (numbered ofnat isbool pv)
    match pv with
    | [] => false
    | v :: _ => list_eqb pv (map ofnat (seq 0 (length pv))) && negb (isbool v)
    end.
  Proof.
    destruct pv as [|v pv]; [constructor; intros [(v & E & _) _]; discriminate|].
    destruct (list_eqb_ok (v :: pv) (map ofnat (seq 0 (length (v :: pv))))) as [E|E]; cbn [andb].
    - destruct (isbool v) eqn:B; constructor.
      + intros [(w & Ew & Bw) _]. injection Ew as <-. congruence.
      + split; [exists v; auto|]. intros k w Ew. pose proof (nth_error_Some_lt _ _ _ Ew) as Hlt. rewrite E, nth_error_map in Ew.
        rewrite nth_error_nth' with (d := 0) in Ew by (rewrite seq_length; auto). rewrite seq_nth in Ew by auto. cbn in Ew. congruence.
    - constructor. intros [_ A]. apply E. apply nth_error_ext. intros k. rewrite nth_error_map.
      destruct (nth_error (v :: pv) k) as [w|] eqn:Ew.
      + pose proof (nth_error_Some_lt _ _ _ Ew) as Hlt. rewrite nth_error_nth' with (d := 0) by (rewrite seq_length; auto).
        rewrite seq_nth by auto. cbn. f_equal. auto.
      + apply nth_error_None in Ew. rewrite (proj2 (nth_error_None _ _)); auto. rewrite seq_length. auto.
  Qed.
  Lemma mapM_or {X Y} (f : X -> result Y) l : (exists ys, mapM f l = Ok ys /\ Forall2 (fun x y => f x = Ok y) l ys) \/
    (exists x e, In x l /\ f x = Err e /\ mapM f l = Err e).
  Proof.
    induction l as [|x l IH]; cbn [mapM]; [left; exists []; auto|]. destruct (f x) as [y|e] eqn:E; cbn [bind].
    - destruct IH as [(ys & A & B)|(x' & e & A & B & C)].
      + left. rewrite A. cbn [bind]. exists (y :: ys). auto.
      + right. rewrite C. exists x', e. cbn. auto.
    - right. exists x, e. cbn; auto.
  Qed.
  Lemma mapM_length {X Y} (f : X -> result Y) l r : mapM f l = Ok r -> length r = length l.
  Proof. intros E. apply mapM_Ok in E. induction E; cbn; auto. Qed.
  Lemma replacing_ok (h : heap) d it k n vs :
    history true h d -> Permutation it (insts d) -> has_attribute d n -> length vs = length it ->
    exists h' d', replacing k h d it n vs = (h', d', None) /\
      history true h' d' /\ insts d' = insts d /\
      (forall m, kind_of d' m = if eqb m n then Some k else kind_of d m) /\
      (forall i a v, nth_error it i = Some a -> nth_error vs i = Some v ->
         forall m, value h' a m = if eqb m n then Some v else value h a m) /\
      only_features d h h'.
  Proof.
    intros Hh Hit Hn Hl. destruct (replace_step h d it k n vs Hh Hit Hn Hl) as (h' & d' & E & R).
    rewrite <- to_result_replacing in E. apply to_result_ok in E. exists h', d'. auto.
  Qed.
  (** the attributes that the list taken before the loop still holds *)
  Lemma candidates_cases possible (sorted : list V -> result (list V)) (d : dataset) n us : uniques d n = Some us ->
    (exists s pv, range_of possible d n s /\ sorted s = Ok pv /\ candidates possible sorted n us = Ok pv) \/
    (exists e, candidates possible sorted n us = Err e /\
       ((e = KeyError /\ forall s, ~ range_of possible d n s) \/ exists s, range_of possible d n s /\ sorted s = Err e)).
  Proof.
    intros Hu. unfold candidates, range_of. destruct possible as [m|].
    - destruct (dict_get n m) as [s|] eqn:E; cbn [of_option bind].
      + destruct (sorted s) as [pv|e] eqn:Es; [left; exists s, pv; auto|right; exists e; split; [auto|right; exists s; auto]].
      + right. exists KeyError. split; [auto|]. left. split; [auto|]. intros s. congruence.
    - destruct (sorted us) as [pv|e] eqn:Es; [left; exists us, pv; auto|right; exists e; split; [auto|right; exists us; auto]].
  Qed.
End T.

(*P C143 What a failing transformation leaves behind *)
(** Label encoding either works, or there is a first categorical attribute
    that cannot be encoded: its values are not among the predefined ones
    (KeyError), cannot be sorted, or one of them has no number (KeyError).
    Then the attributes before it are encoded completely and it and all
    attributes after it are as they were; in particular no attribute is lost
    or half encoded.  Attributes whose values are numbered already are left
    alone. *)
Lemma C143_label_encoding : forall (I V T : Type) (EI : Base.Eq I) (EV : Base.Eq V) possible
    (sorted : list V -> result (list V)) (ofnat : nat -> V) (isbool : V -> bool) (h : heap I V T) (d : dataset V) it,
  history true h d -> Permutation it (insts d) ->
  exists h' d' e done rest, labelling possible sorted ofnat isbool it h d = (h', d', e) /\
    keys (attrs d) = done ++ rest /\
    history true h' d' /\ insts d' = insts d /\ same_attributes d d' /\ only_features d h h' /\
    (forall a n, In a (insts d) -> In n rest \/ kind_of d n = Some Numerical -> value h' a n = value h a n) /\
    (forall n, In n done -> kind_of d n = Some Categorical -> exists s pv, range_of possible d n s /\ sorted s = Ok pv /\
       (numbered ofnat isbool pv -> forall a, In a (insts d) -> value h' a n = value h a n) /\
       (~ numbered ofnat isbool pv -> forall a, In a (insts d) -> exists v k,
          value h a n = Some v /\ last_position pv v k /\ value h' a n = Some (ofnat k))) /\
    match e with
    | None => rest = []
    | Some e => exists n rest', rest = n :: rest' /\ kind_of d n = Some Categorical /\
        ((e = KeyError /\ forall s, ~ range_of possible d n s) \/
         (exists s, range_of possible d n s /\ sorted s = Err e) \/
         (e = KeyError /\ exists s pv a v, range_of possible d n s /\ sorted s = Ok pv /\ ~ numbered ofnat isbool pv /\
            In a (insts d) /\ value h a n = Some v /\ ~ In v pv))
    end.
Proof.
  intros I V T EI EV possible sorted ofnat isbool h d it Hh Hit.
  pose proof (history_inv _ _ _ Hh) as Hi.
  set (P := fun (done : list string) (h1 : heap I V T) (d1 : dataset V) =>
    history true h1 d1 /\ insts d1 = insts d /\ same_attributes d d1 /\ only_features d h h1 /\
    (forall a n, In a (insts d) -> (~ In n done \/ kind_of d n <> Some Categorical) -> value h1 a n = value h a n) /\
    (forall n, In n done -> kind_of d n = Some Categorical -> exists s pv, range_of possible d n s /\ sorted s = Ok pv /\
       (numbered ofnat isbool pv -> forall a, In a (insts d) -> value h1 a n = value h a n) /\
       (~ numbered ofnat isbool pv -> forall a, In a (insts d) -> exists v k,
          value h a n = Some v /\ last_position pv v k /\ value h1 a n = Some (ofnat k)))).
  set (Fail := fun n (us : list V) e => ((e = KeyError /\ forall s, ~ range_of possible d n s) \/
         (exists s, range_of possible d n s /\ sorted s = Err e) \/
         (e = KeyError /\ exists s pv a v, range_of possible d n s /\ sorted s = Ok pv /\ ~ numbered ofnat isbool pv /\
            In a (insts d) /\ value h a n = Some v /\ ~ In v pv))).
  destruct (per_loop Categorical (labelling_attribute possible sorted ofnat isbool it) d P Fail) with (h := h)
    as (h' & d' & e & done & rest & E & Ek & (H1 & H2 & H3 & H4 & H5 & H6) & He).
  - apply Hi.
  - intros done n us h1 d1 Hk Hu Hnd (H1 & H2 & H3 & H4 & H5 & H6).
    assert (Hha : has_attribute d n) by (unfold has_attribute; rewrite Hk; discriminate).
    unfold labelling_attribute.
    destruct (candidates_cases possible sorted d n us Hu) as [(s & pv & Hr & Es & Ec)|(e & Ec & Hf)]; rewrite Ec; cbn [reading].
    2: { right. exists e. split; [auto|]. unfold Fail. tauto. }
    assert (Huniq : forall s' pv', range_of possible d n s' -> sorted s' = Ok pv' -> pv' = pv).
    { intros s' pv' Hr' Es'. unfold range_of in *. destruct possible; congruence. }
    destruct (numbered_test ofnat isbool pv) as [Nu|Nu].
    + left. exists h1, d1. split; [auto|]. split; [auto|]. split; [auto|]. split; [auto|]. split; [auto|]. split.
      * intros a m Ha [Hm|Hm]; apply H5; auto. left. intros Hin. apply Hm. cbn; auto.
      * intros m [<-|Hm] Hkm; [|auto]. exists s, pv. split; [auto|]. split; [auto|]. split; [intros _ a Ha; apply H5; auto|contradiction].
    + cbv zeta. set (vm := fold_left _ _ _).
      destruct (mapM_or (fun a => do v <- getitem h1 n a ; of_option KeyError (dict_get v vm)) it) as [(vs & Evs & Fvs)|(a & e & Ha & Ea & Ee)].
      2: { rewrite Ee. cbn [reading]. right. exists e. split; [auto|]. apply (Permutation_in _ Hit) in Ha.
           destruct (value_some true h d a n Hh Ha Hha) as (v & us' & Ev & _). rewrite (getitem_value h1 a n v) in Ea by (rewrite H5; auto).
           cbn [bind] in Ea. destruct (last_fold pv 0 [] v) as [(j & _ & Ej)|[Hni _]]; [fold vm in Ej; rewrite Ej in Ea; discriminate|].
           right. right. split; [|exists s, pv, a, v; auto 10]. destruct (dict_get v vm); cbn in Ea; congruence. }
      rewrite Evs. cbn [reading]. left.
      assert (Hit1 : Permutation it (insts d1)) by (rewrite H2; auto).
      destruct (replacing_ok h1 d1 it Categorical n (map ofnat vs) H1 Hit1) as (h2 & d2 & E2 & G1 & G2 & G3 & G4 & G5).
      { unfold has_attribute. rewrite (H3 n). auto. }
      { rewrite map_length. clear - Fvs. induction Fvs; cbn; auto. }
      exists h2, d2. split; [exact E2|].
      assert (Hpos : forall a, In a (insts d) -> exists i v k, nth_error it i = Some a /\ value h a n = Some v /\
        last_position pv v k /\ nth_error (map ofnat vs) i = Some (ofnat k)).
      { intros a Ha. pose proof (Permutation_in _ (Permutation_sym Hit) Ha) as Ha'. apply In_nth_error in Ha'.
        destruct Ha' as [i Ei]. destruct (Forall2_nth_error_l _ _ _ Fvs i a Ei) as (k' & Ek' & Ef).
        destruct (value_some true h d a n Hh Ha Hha) as (v & us' & Ev & _). rewrite (getitem_value h1 a n v) in Ef by (rewrite H5; auto).
        cbn [bind] in Ef. destruct (last_fold pv 0 [] v) as [(j & Lj & Ej)|[_ En]]; [|fold vm in En; rewrite En in Ef; discriminate].
        fold vm in Ej. rewrite Ej in Ef. cbn in Ef. injection Ef as <-. exists i, v, j. rewrite nth_error_map, Ek'. auto. }
      split; [auto|]. split; [congruence|]. split; [|split; [|split]].
      * intros m. rewrite G3. destruct (eqb_ok m n) as [->|]; auto.
      * eapply only_features_trans; eauto.
      * intros a m Ha Hm. destruct (Hpos a Ha) as (i & v & k & Ei & Ev & Ek & Eo).
        rewrite (G4 i a _ Ei Eo). destruct (eqb_ok m n) as [->|Hne].
        -- exfalso. destruct Hm as [Hm|Hm]; [apply Hm; cbn; auto|auto].
        -- apply H5; auto. destruct Hm as [Hm|Hm]; auto. left. intros Hin. apply Hm. cbn; auto.
      * intros m Hm Hkm. destruct (eqb_ok m n) as [->|Hne].
        -- exists s, pv. split; [auto|]. split; [auto|]. split; [contradiction|]. intros _ a Ha.
           destruct (Hpos a Ha) as (i & v & k & Ei & Ev & Ek & Eo). exists v, k. split; [auto|]. split; [auto|].
           rewrite (G4 i a _ Ei Eo), eqb_refl. auto.
        -- destruct Hm as [Hm|Hm]; [congruence|]. destruct (H6 m Hm Hkm) as (s' & pv' & A & B & C & D). exists s', pv'.
           assert (Esame : forall a, In a (insts d) -> value h2 a m = value h1 a m).
           { intros a Ha. destruct (Hpos a Ha) as (i & v & k & Ei & Ev & Ek & Eo). rewrite (G4 i a _ Ei Eo).
             destruct (eqb_ok m n); [contradiction|auto]. }
           split; [auto|]. split; [auto|]. split; intros X a Ha; rewrite (Esame a Ha); auto.
  - intros done n h1 d1 Hk (H1 & H2 & H3 & H4 & H5 & H6). split; [auto|]. split; [auto|]. split; [auto|]. split; [auto|]. split.
    + intros a m Ha [Hm|Hm]; apply H5; auto. left. intros Hin. apply Hm. cbn; auto.
    + intros m [<-|Hm] Hkm; [contradiction|auto].
  - split; [auto|]. split; [auto|]. split; [intros m; auto|]. split; [apply only_features_refl|]. split; auto. intros n [].
  - exists h', d', e, (rev done), rest. split; [exact E|]. split; [auto|]. split; [auto|]. split; [auto|]. split; [auto|]. split; [auto|].
    split; [|split].
    + intros a n Ha [Hr|Hk]; apply H5; auto; [left; eapply not_done; eauto; apply Hi|right; rewrite Hk; discriminate].
    + intros n Hin. apply H6. apply in_rev. auto.
    + destruct e as [e|]; [|auto]. destruct He as (n & us & rest' & A & B & _ & C). exists n, rest'. auto.
Qed.

(** Min-max scaling (in exact arithmetic) either works, or there is a first
    numerical attribute for which it is not defined: there are no instances
    (ValueError) or all have the same value (ZeroDivisionError).  Then the
    numerical attributes before it are scaled and everything else is as it
    was. *)
Lemma C143_min_max_scaling : forall (I T : Type) (EI : Base.Eq I) (lo hi : Qc) (h : heap I Qc T) (d : dataset Qc) it,
  history true h d -> Permutation it (insts d) ->
  exists h' d' e done rest, scaling lo hi it h d = (h', d', e) /\
    keys (attrs d) = done ++ rest /\
    history true h' d' /\ insts d' = insts d /\ same_attributes d d' /\ only_features d h h' /\
    (forall a n, In a (insts d) -> In n rest \/ kind_of d n = Some Categorical -> value h' a n = value h a n) /\
    (forall n, In n done -> kind_of d n = Some Numerical ->
       exists mn mx, least h d n mn /\ greatest h d n mx /\ (mn < mx)%Qc /\
         forall a v, In a (insts d) -> value h a n = Some v -> value h' a n = Some ((v - mn) / (mx - mn) * (hi - lo) + lo)%Qc) /\
    match e with
    | None => rest = []
    | Some e => exists n rest', rest = n :: rest' /\ kind_of d n = Some Numerical /\
        ((e = ValueError /\ insts d = []) \/
         (e = ZeroDivisionError /\ insts d <> [] /\ forall a b, In a (insts d) -> In b (insts d) -> value h a n = value h b n))
    end.
Proof.
  intros I T EI lo hi h d it Hh Hit. pose proof (history_inv _ _ _ Hh) as Hi.
  set (P := fun (done : list string) (h1 : heap I Qc T) (d1 : dataset Qc) =>
    history true h1 d1 /\ insts d1 = insts d /\ same_attributes d d1 /\ only_features d h h1 /\
    (forall a n, In a (insts d) -> (~ In n done \/ kind_of d n <> Some Numerical) -> value h1 a n = value h a n) /\
    (forall n, In n done -> kind_of d n = Some Numerical ->
       exists mn mx, least h d n mn /\ greatest h d n mx /\ (mn < mx)%Qc /\
         forall a v, In a (insts d) -> value h a n = Some v -> value h1 a n = Some (scaled lo hi mn mx v))).
  set (Fail := fun n (us : list Qc) e => ((e = ValueError /\ insts d = []) \/
         (e = ZeroDivisionError /\ insts d <> [] /\ forall a b, In a (insts d) -> In b (insts d) -> value h a n = value h b n))).
  assert (Hcong : forall (h1 : heap I Qc T) (d1 : dataset Qc) n m, insts d1 = insts d -> (forall a, In a (insts d) -> value h1 a n = value h a n) ->
     (least h1 d1 n m -> least h d n m) /\ (greatest h1 d1 n m -> greatest h d n m)).
  { intros h1 d1 n m E Ev. unfold least, greatest. rewrite E. split.
    - intros [(a & Ha & Em) Hall]. rewrite Ev in Em by auto. split; [eauto|].
      intros b v Hb Eb. rewrite <- Ev in Eb by auto. eauto.
    - intros [(a & Ha & Em) Hall]. rewrite Ev in Em by auto. split; [eauto|].
      intros b v Hb Eb. rewrite <- Ev in Eb by auto. eauto. }
  destruct (per_loop Numerical (scaling_attribute lo hi it) d P Fail) with (h := h)
    as (h' & d' & e & done & rest & E & Ek & (H1 & H2 & H3 & H4 & H5 & H6) & He).
  - apply Hi.
  - intros done n us h1 d1 Hk Hu Hnd (H1 & H2 & H3 & H4 & H5 & H6).
    assert (Hha : has_attribute d n) by (unfold has_attribute; rewrite Hk; discriminate).
    assert (Hsame : forall c, In c (insts d) -> value h1 c n = value h c n) by (intros; apply H5; auto).
    assert (Hne : insts d = [] \/ insts d <> []) by (destruct (insts d); [auto|right; discriminate]).
    destruct Hne as [Ei|Hne].
    { right. exists ValueError. split; [|left; auto]. rewrite Ei in Hit. apply Permutation_sym, Permutation_nil in Hit. subst it. reflexivity. }
    destruct (scale_step lo hi it h1 d1 n us H1) as (mn & mx & Hmn & Hmx & [[Em Ee]|(Hlt & h2 & d2 & E2 & G1 & G2 & G3 & G4 & G5 & G6)]).
    + rewrite H2. auto.
    + rewrite (H3 n). auto.
    + rewrite H2. auto.
    + right. exists ZeroDivisionError. apply (Hcong _ _ _ _ H2 Hsame) in Hmn. apply (Hcong _ _ _ _ H2 Hsame) in Hmx. subst mx.
      assert (Hall : forall a, In a (insts d) -> value h a n = Some mn).
      { intros a Ha. destruct (value_some true h d a n Hh Ha Hha) as (v & us' & Ev & _). rewrite Ev. f_equal.
        apply Qcle_antisym; [exact (proj2 Hmx _ _ Ha Ev)|exact (proj2 Hmn _ _ Ha Ev)]. }
      split; [|right; split; [auto|split; [auto|]]].
      * revert Ee. unfold scaling_attribute, scale_attribute.
        destruct (mapM (getitem h1 n) it) as [vs|] eqn:E1; cbn [bind reading]; [|congruence].
        destruct (Qc_min vs) as [mn'|]; cbn [bind reading]; [|congruence]. destruct (Qc_max vs) as [mx'|]; cbn [bind reading]; [|congruence].
        destruct (mapM _ vs) as [ws|] eqn:E4; cbn [bind reading]; [|congruence].
        intros Er. exfalso. rewrite <- to_result_replacing in Er.
        destruct (replacing_ok h1 d1 it Numerical n ws H1) as (h2 & d2 & E2 & _).
        -- rewrite H2. auto.
        -- unfold has_attribute. rewrite (H3 n). auto.
        -- rewrite (mapM_length _ _ _ E4). exact (mapM_length _ _ _ E1).
        -- rewrite E2 in Er. discriminate.
      * intros a b Ha Hb. rewrite !Hall; auto.
    + left. rewrite <- scaling_attribute_agrees in E2. apply to_result_ok in E2.
      exists h2, d2. split; [exact E2|]. split; [auto|]. split; [congruence|]. split; [|split; [|split]].
      * intros m. rewrite G3. auto.
      * eapply only_features_trans; eauto.
      * intros c m Hc Hm. destruct (eqb_ok m n) as [->|Hne'].
        -- exfalso. destruct Hm as [Hm|Hm]; [apply Hm; cbn; auto|auto].
        -- rewrite G6 by (auto; rewrite H2; auto). apply H5; auto.
           destruct Hm as [Hm|Hm]; auto. left. intros Hin. apply Hm. cbn; auto.
      * intros m Hm Hkm. destruct (eqb_ok m n) as [->|Hne'].
        -- exists mn, mx. split; [apply (Hcong _ _ _ _ H2 Hsame); auto|]. split; [apply (Hcong _ _ _ _ H2 Hsame); auto|].
           split; [auto|]. intros c u Hc Eu. apply G5; [rewrite H2; auto|]. rewrite Hsame; auto.
        -- destruct Hm as [Hm|Hm]; [congruence|]. destruct (H6 m Hm Hkm) as (mn' & mx' & A & B & C & D).
           exists mn', mx'. split; [auto|]. split; [auto|]. split; [auto|]. intros c u Hc Eu.
           rewrite G6 by (auto; rewrite H2; auto). auto.
  - intros done n h1 d1 Hk (H1 & H2 & H3 & H4 & H5 & H6). split; [auto|]. split; [auto|]. split; [auto|]. split; [auto|]. split.
    + intros a m Ha [Hm|Hm]; apply H5; auto. left. intros Hin. apply Hm. cbn; auto.
    + intros m [<-|Hm] Hkm; [contradiction|]. auto.
  - split; [auto|]. split; [auto|]. split; [intros m; auto|]. split; [apply only_features_refl|]. split; auto. intros n [].
  - exists h', d', e, (rev done), rest. split; [exact E|]. split; [auto|]. split; [auto|]. split; [auto|]. split; [auto|]. split; [auto|].
    split; [|split].
    + intros a n Ha [Hr|Hk]; apply H5; auto; [left; eapply not_done; eauto; apply Hi|right; rewrite Hk; discriminate].
    + intros n Hin. apply H6. apply in_rev. auto.
    + destruct e as [e|]; [|auto]. destruct He as (n & us & rest' & A & B & _ & C). exists n, rest'. auto.
Qed.
