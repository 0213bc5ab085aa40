(** The result cache (C63) *)
From Coq Require Import String.
From Verif.Model Require Import Base ResultCache.
From Verif.Spec Require Import CacheSpec.
From Verif.Lib Require Import ListLib DictLib.
Open Scope string_scope.
Open Scope list_scope.
Open Scope nat_scope.

Section P.
  Context {A R B : Type}.
  Notation call := (call A R).
  Notation world := (world B).
  Lemma wrapper_keeps (p : pickle R B) (c : call) k (w : world) f bytes :
    dict_get f (files w) = Some bytes -> dict_get f (files (fst (wrapper p c k w))) = Some bytes.
  Proof.
    intros Hf. unfold wrapper. destruct (cache_file c) as [file|e]; [|auto].
    destruct (dict_get file (files w)) as [b|] eqn:E.
    - destruct k; auto.
    - assert (Hne : f <> file) by congruence. cbv zeta.
      assert (Hs : forall v, dict_get f (dict_set file v (files w)) = Some bytes).
      { intros v. rewrite dict_get_set. destruct (eqb_ok f file); [contradiction|auto]. }
      destruct (function c (evaluations w) (args c)) as [r|e]; [|auto].
      destruct (dump p r) as [b e]. destruct k; cbn [fst files]; auto.
  Qed.
  Lemma run_keeps (p : pickle R B) l : forall (w : world) f bytes,
    dict_get f (files w) = Some bytes -> dict_get f (files (run (A:=A) p l w)) = Some bytes.
  Proof.
    induction l as [|[c k] l IH]; intros w f bytes Hf; cbn [run fold_left]; auto. apply IH. apply wrapper_keeps. auto.
  Qed.
  Lemma wrapper_hit (p : pickle R B) (c : call) (w : world) f bytes :
    cache_file c = Ok f -> dict_get f (files w) = Some bytes ->
    wrapper p c NotKilled w = (w, match load p bytes with Ok r => Returned r | Err e => RaisedExc e end).
  Proof. intros Ec Hf. unfold wrapper. rewrite Ec, Hf. auto. Qed.
End P.

(*P C63 Result cache *)

(** Once a call has returned a result, every later call that uses the same
    file returns the same result without evaluating the function or changing
    anything, whatever calls were made and whichever were killed in between. *)
Lemma C63_cached : forall (A R B : Type) (p : pickle R B) (c c' : call A R) f w w1 r (later : list (call A R * kill)),
  faithful p -> cache_file c = Ok f -> cache_file c' = Ok f ->
  wrapper p c NotKilled w = (w1, Returned r) ->
  wrapper p c' NotKilled (run p later w1) = (run p later w1, Returned r).
Proof.
  intros A R B p c c' f w w1 r later [Hp _] Ec Ec' E.
  assert (Hf : exists bytes, dict_get f (files w1) = Some bytes /\ load p bytes = Ok r).
  { unfold wrapper in E. rewrite Ec in E. destruct (dict_get f (files w)) as [b|] eqn:Eb.
    - injection E as <- E. exists b. split; auto. destruct (load p b); congruence.
    - destruct (function c (evaluations w) (args c)) as [r'|e]; [|discriminate].
      destruct (dump p r') as [b [e|]] eqn:Ed; [discriminate|]. injection E as <- <-. exists b. split; [|eauto].
      cbn [files]. rewrite dict_get_set, eqb_refl. auto. }
  destruct Hf as (bytes & Hf & Hl).
  rewrite (wrapper_hit p c' _ f bytes Ec'); [rewrite Hl; auto|]. apply run_keeps. auto.
Qed.

(** A call whose file does not exist evaluates its function; if that raises,
    so does the call, and nothing is cached: the next call evaluates again. *)
Lemma C63_exception_not_cached : forall (A R B : Type) (p : pickle R B) (c : call A R) f (w : world B) e,
  cache_file c = Ok f -> dict_get f (files w) = None ->
  function c (evaluations w) (args c) = Err e ->
  wrapper p c NotKilled w = (World (files w) (S (evaluations w)), RaisedExc e) /\
  forall k, evaluates p c k (World (files w) (S (evaluations w))).
Proof.
  intros A R B p c f w e Ec Hf Ef. unfold evaluates, wrapper. rewrite Ec, Hf, Ef. split; [auto|].
  intros k. cbn [files evaluations]. rewrite Hf. destruct (function c (S (evaluations w)) (args c)) as [r|]; [|auto].
  destruct (dump p r) as [b e']. destruct k; auto.
Qed.

(** A call evaluates its function exactly when its file does not exist, and
    then returns what the function returns if that can be pickled. *)
Lemma C63_evaluates : forall (A R B : Type) (p : pickle R B) (c : call A R) f (w : world B) k,
  cache_file c = Ok f ->
  (evaluates p c k w <-> dict_get f (files w) = None) /\
  (forall r bytes, dict_get f (files w) = None -> function c (evaluations w) (args c) = Ok r -> dump p r = (bytes, None) ->
     snd (wrapper p c NotKilled w) = Returned r).
Proof.
  intros A R B p c f w k Ec. unfold evaluates, wrapper. rewrite Ec. split.
  - destruct (dict_get f (files w)) eqn:Hf.
    + assert (E : evaluations w = S (evaluations w) <-> False) by lia. destruct k; cbn [fst]; split; try discriminate; lia.
    + split; [auto|]. intros _. destruct (function c (evaluations w) (args c)) as [r|]; [|auto].
      destruct (dump p r) as [b e']. destruct k; auto.
  - intros r bytes Hf Ef Ed. rewrite Hf, Ef, Ed. auto.
Qed.

(** A call touches no file but its own. *)
Lemma C63_no_interference : forall (A R B : Type) (p : pickle R B) (c : call A R) f g (w : world B) k,
  cache_file c = Ok f -> g <> f ->
  dict_get g (files (fst (wrapper p c k w))) = dict_get g (files w).
Proof.
  intros A R B p c f g w k Ec Hne. unfold wrapper. rewrite Ec.
  assert (Hs : forall v, dict_get g (dict_set f v (files w)) = dict_get g (files w)).
  { intros v. rewrite dict_get_set. destruct (eqb_ok g f); [contradiction|auto]. }
  destruct (dict_get f (files w)); [destruct k; auto|].
  destruct (function c (evaluations w) (args c)) as [r|]; [|auto]. destruct (dump p r) as [b e']. destruct k; cbn [fst files]; auto.
Qed.

(** But different functions or keys can share a file: it is enough that name
    and key give the same text, or that the decorator has no key function.
    Then the second call returns the result of the first. *)
Lemma C63_collision : forall (A R B : Type) (p : pickle R B) n1 n2 k1 k2 (f1 f2 : nat -> A -> result R) a1 a2 s1 s2 (w : world B) r bytes,
  faithful p -> k1 a1 = Ok s1 -> k2 a2 = Ok s2 -> (n1 ++ s1)%string = (n2 ++ s2)%string ->
  dict_get (n1 ++ s1)%string (files w) = None -> f1 (evaluations w) a1 = Ok r -> dump p r = (bytes, None) ->
  let w1 := fst (wrapper p (Call n1 (Some k1) f1 a1) NotKilled w) in
  wrapper p (Call n2 (Some k2) f2 a2) NotKilled w1 = (w1, Returned r).
Proof.
  intros A R B p n1 n2 k1 k2 f1 f2 a1 a2 s1 s2 w r bytes Hp E1 E2 Es Hf Ef Ed w1.
  assert (Ec1 : cache_file (Call n1 (Some k1) f1 a1) = Ok (n1 ++ s1)%string) by (unfold cache_file; cbn; rewrite E1; auto).
  assert (Ec2 : cache_file (Call n2 (Some k2) f2 a2) = Ok (n1 ++ s1)%string) by (unfold cache_file; cbn; rewrite E2, Es; auto).
  destruct (wrapper p (Call n1 (Some k1) f1 a1) NotKilled w) as [w1' e] eqn:E.
  assert (e = Returned r).
  { destruct (C63_evaluates _ _ _ p _ _ w NotKilled Ec1) as [_ G]. rewrite <- (G r bytes Hf Ef Ed), E. auto. }
  subst e. exact (C63_cached _ _ _ p _ _ _ w w1' r [] Hp Ec1 Ec2 E).
Qed.
Lemma C63_no_key : forall (A R B : Type) (p : pickle R B) n (f : nat -> A -> result R) a a' (w w1 : world B) r,
  faithful p -> wrapper p (Call n None f a) NotKilled w = (w1, Returned r) ->
  wrapper p (Call n None f a') NotKilled w1 = (w1, Returned r).
Proof.
  intros A R B p n f a a' w w1 r Hp E.
  exact (C63_cached _ _ _ p (Call n None f a) (Call n None f a') n w w1 r [] Hp eq_refl eq_refl E).
Qed.

(** If the process is killed while the result is written, or the result cannot
    be pickled, an incomplete file stays: from then on every call that uses
    it raises an exception without evaluating the function. *)
Lemma C63_incomplete_file : forall (A R B : Type) (p : pickle R B) (c c' : call A R) f (w : world B) k r bytes e (later : list (call A R * kill)),
  faithful p -> cache_file c = Ok f -> cache_file c' = Ok f ->
  dict_get f (files w) = None -> function c (evaluations w) (args c) = Ok r -> dump p r = (bytes, e) ->
  (k = NotKilled /\ e <> None) \/ (exists n, k = KilledAfter n /\ n < length bytes) ->
  let w1 := run p later (fst (wrapper p c k w)) in
  exists e', wrapper p c' NotKilled w1 = (w1, RaisedExc e').
Proof.
  intros A R B p c c' f w k r bytes e later [_ Hp] Ec Ec' Hf Ef Ed Hk w1.
  assert (H1 : exists b e', dict_get f (files (fst (wrapper p c k w))) = Some b /\ load p b = Err e').
  { unfold wrapper. rewrite Ec, Hf, Ef, Ed. destruct Hk as [[-> He]|(n & -> & Hn)]; cbn [fst files];
      rewrite dict_get_set, eqb_refl.
    - destruct (Hp r bytes e (length bytes) Ed) as [e' E']; [auto|]. rewrite firstn_all in E'. eauto.
    - destruct (Hp r bytes e n Ed) as [e' E']; [auto|]. eauto. }
  destruct H1 as (b & e' & Hb & Hl). exists e'.
  rewrite (wrapper_hit p c' _ f b Ec'); [rewrite Hl; auto|]. apply run_keeps. auto.
Qed.
(** A call that is killed before its file is opened changes no file, and one
    that raises or is killed never touches a file that exists; so afterwards
    the function is evaluated again if there was no file. *)
Lemma C63_killed_before : forall (A R B : Type) (p : pickle R B) (c : call A R) f (w : world B) k,
  cache_file c = Ok f -> k = KilledBefore \/ dict_get f (files w) <> None ->
  files (fst (wrapper p c k w)) = files w /\
  (dict_get f (files w) = None -> forall k', evaluates p c k' (fst (wrapper p c k w))).
Proof.
  intros A R B p c f w k Ec Hk.
  assert (E : files (fst (wrapper p c k w)) = files w).
  { unfold wrapper. rewrite Ec. destruct (dict_get f (files w)) as [b|] eqn:Ef; [destruct k; auto|].
    destruct Hk as [->|Hk]; [|congruence]. destruct (function c (evaluations w) (args c)) as [r|e]; [|auto]. destruct (dump p r). auto. }
  split; [auto|]. intros N k'. apply (proj1 (C63_evaluates _ _ _ p c f _ k' Ec)). rewrite E. auto.
Qed.
