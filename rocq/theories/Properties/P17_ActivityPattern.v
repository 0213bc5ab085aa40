(** Properties C95 to C99: activity patterns *)
From Coq Require Import String Ascii ZArith Permutation List Lia.
From Verif.Model Require Import Base PetriNet ActivityPattern.
From Verif.Spec Require Import PetriSpec ActivityPatternSpec.
From Verif.Proofs Require PetriC PetriD ApK ApL ApM ApP.
Open Scope string_scope.
Open Scope list_scope.
Open Scope nat_scope.
(** one activity between two places *)
Definition one_activity (x : string) : pattern :=
  match new_pattern in_order [] (PetriD.run_net [PetriD.AddP "s" 0; PetriD.AddP "e" 0; PetriD.AddT x; PetriD.Conn "s" x "e"]) (OneName x) with Ok (p, _) => p | Err _ => Pattern new_net [] end.
Example ex_order : any_order in_order.
Proof. exact ApM.any_in_order. Qed.
Example ex_made : forall x, In x ["a"; "b"; "c"] -> made (one_activity x) /\ complete (one_activity x) /\ connected (pnet (one_activity x)) /\
  plain (one_activity x) /\ no_underscore (one_activity x) /\ unquoted (one_activity x) /\ unshared (one_activity x) /\ forall st, ends_clean st (one_activity x).
Proof.
  intros x Hx. assert (M : made (one_activity x)) by (apply ApM.pattern_of_made; destruct Hx as [<-|[<-|[<-|[]]]]; vm_compute; auto).
  split; [auto|]. split; [apply (ApL.C95_made _ M); destruct Hx as [<-|[<-|[<-|[]]]]; vm_compute; auto|].
  split; [apply ApM.connected_b; destruct Hx as [<-|[<-|[<-|[]]]]; vm_compute; auto|].
  assert (I : forall id, has_id (one_activity x) id -> In id ["s"; "e"; x]).
  { intros id [H|H]; destruct Hx as [<-|[<-|[<-|[]]]]; vm_compute in H; cbn; intuition. }
  split; [intros id H Q; apply I in H; destruct Hx as [<-|[<-|[<-|[]]]]; repeat (destruct H as [<-|H]; [vm_compute in Q; intuition discriminate|]); destruct H|].
  split.
  { intros id H u Q. apply I in H. assert (L : String.length id = 1) by (destruct Hx as [<-|[<-|[<-|[]]]]; repeat (destruct H as [<-|H]; [reflexivity|]); destruct H).
    destruct u as [|c [|d u]]; subst id; cbn in L; try discriminate. destruct Hx as [<-|[<-|[<-|[]]]]; repeat (destruct H as [H|H]; [vm_compute in H; discriminate|]); destruct H. }
  split; [exact (ApP.single_unquoted x Hx)|]. split; [|intros st; exact (ApP.single_clean st x Hx)].
  left. replace (pnet (one_activity x)) with (PetriD.run_net [PetriD.AddP "s" 0; PetriD.AddP "e" 0; PetriD.AddT x; PetriD.Conn "s" x "e"]); [apply PetriD.run_built|].
  destruct Hx as [<-|[<-|[<-|[]]]]; reflexivity.
Qed.

(** C95: Activity patterns: construction, markings, copies and pruning *)
(** The constructor keeps a workflow net and makes other nets one; it raises
    ValueError if a visible transition has no name, and no error but those of
    the transformation otherwise. *)
Theorem C95_constructor : forall ord st n m, built n -> any_order ord ->
  let result := if is_workflow_net n then Ok (n, st) else transform_to_workflow_net ord st n in
  match m with
  | Named d =>
    (mapped n d -> forall n' st', result = Ok (n', st') -> new_pattern ord st n m = Ok (Pattern n' d, st')) /\
    (mapped n d -> forall e, result = Err e -> e = ValueError /\ new_pattern ord st n m = Err ValueError) /\
    (~ mapped n d -> new_pattern ord st n m = Err ValueError)
  | OneName s =>
    (forall n' st', result = Ok (n', st') -> exists p, new_pattern ord st n m = Ok (p, st') /\ pnet p = n' /\
      forall t, dict_get t (amap p) = if dict_has t (transitions n) then Some s else None) /\
    (forall e, result = Err e -> e = ValueError /\ new_pattern ord st n m = Err ValueError)
  end.
Proof. exact @ApL.C95_constructor. Qed.
Print Assumptions C95_constructor.
(** Whatever way a pattern was made: it has at most one source and one sink,
    and it is a workflow net exactly if it has both; all its visible
    transitions are named. *)
Theorem C95_made : forall p, made p ->
  (forall x y, source (pnet p) x -> source (pnet p) y -> x = y) /\ (forall x y, sink (pnet p) x -> sink (pnet p) y -> x = y) /\
  (is_workflow_net (pnet p) = true <-> complete p) /\ mapped (pnet p) (amap p).
Proof. exact @ApL.C95_made. Qed.
Print Assumptions C95_made.
(** The standard markings have one token, on the source and on the sink
    respectively, and an entry for every place; they can be given to the net. A
    missing source or sink is a KeyError. *)
Theorem C95_markings : forall ord p, any_order ord -> made p ->
  (forall i, source (pnet p) i -> exists m n', get_standard_initial_marking ord p = Ok m /\ keys m = keys (places (pnet p)) /\
     (forall q, has_place (pnet p) q -> dict_get q m = Some (one_at i q)) /\
     set_marking m (pnet p) = Ok n' /\ same_structure (pnet p) n' /\ forall q, tokens n' q = one_at i q) /\
  (forall o, sink (pnet p) o -> exists m n', get_standard_final_marking ord p = Ok m /\ keys m = keys (places (pnet p)) /\
     (forall q, has_place (pnet p) q -> dict_get q m = Some (one_at o q)) /\
     set_marking m (pnet p) = Ok n' /\ same_structure (pnet p) n' /\ forall q, tokens n' q = one_at o q) /\
  ((forall i, ~ source (pnet p) i) -> get_standard_initial_marking ord p = Err KeyError) /\
  ((forall o, ~ sink (pnet p) o) -> get_standard_final_marking ord p = Err KeyError).
Proof. exact @ApL.C95_markings. Qed.
Print Assumptions C95_markings.
(** A pattern can always be copied; the copy has the same places, transitions,
    names and words. *)
Theorem C95_copy : forall ord st p, made p -> exists p' st', copy_pattern ord st p = Ok (p', st') /\
  places (pnet p') = places (pnet p) /\ transitions (pnet p') = transitions (pnet p) /\ amap p' = amap p /\
  forall st w, speaks st p' w <-> speaks st p w.
Proof. exact @ApL.C95_copy. Qed.
Print Assumptions C95_copy.
(** Pruning a pattern never fails; it prunes the net, drops the names of exactly
    the transitions that went and keeps the source and the sink. *)
Theorem C95_prune : forall ord p, any_order ord -> unshared p -> exists p', prune_pattern ord p = Ok p' /\
  prune ord (pnet p) = Ok (pnet p') /\
  (forall t, dict_get t (amap p') = if dict_has t (transitions (pnet p')) then dict_get t (amap p) else None) /\
  (forall x, source (pnet p') x <-> source (pnet p) x) /\ (forall x, sink (pnet p') x <-> sink (pnet p) x).
Proof. exact @ApL.C95_prune. Qed.
Print Assumptions C95_prune.
(** The words of a pattern stay the same when it is pruned, if no two end
    places of a transition become one. *)
Theorem C95_prune_words : forall ord p p', any_order ord -> unshared p -> prune_pattern ord p = Ok p' ->
  nothing_merged (pnet p) (pnet p') -> forall st w, speaks st p' w <-> speaks st p w.
Proof. exact @ApL.C95_prune_words. Qed.
Print Assumptions C95_prune_words.
Example C95_example : exists p st', copy_pattern in_order [] (one_activity "a") = Ok (p, st') /\ amap p = [("a", "a")].
Proof. do 2 eexists. split; [vm_compute; reflexivity|reflexivity]. Qed.

(** C96: When compositions of activity patterns succeed *)
(** Compositions of patterns fail with a KeyError exactly when one of them has
    no source or no sink, and otherwise succeed or fail with a ValueError. What
    they give is a workflow net. *)
Theorem C96_errors : forall ord st a b (f : order -> store -> pattern -> pattern -> result (pattern * store)),
  any_order ord -> made a -> made b -> In f [sequence; choice; parallel; interleaving] ->
  match f ord st a b with
  | Ok (p, _) => complete a /\ complete b /\ made p /\ is_workflow_net (pnet p) = true
  | Err KeyError => ~ (complete a /\ complete b)
  | Err ValueError => complete a /\ complete b
  | Err _ => False
  end.
Proof. exact @ApK.C96_errors. Qed.
Print Assumptions C96_errors.
(** A repetition always succeeds, if there is a source and a sink. *)
Theorem C96_repetition : forall ord st a, any_order ord -> made a ->
  (complete a -> exists p st', unbounded_repetition ord st a = Ok (p, st') /\ made p /\ is_workflow_net (pnet p) = true) /\
  (~ complete a -> unbounded_repetition ord st a = Err KeyError).
Proof. exact @ApK.C96_repetition. Qed.
Print Assumptions C96_repetition.
(** A sequence succeeds if no transition has an id like the one of the
    transition between the two patterns. *)
Theorem C96_sequence : forall ord st a b s2 e1, any_order ord -> made a -> made b -> complete a -> complete b ->
  sink (pnet a) e1 -> source (pnet b) s2 ->
  (forall k, let id := (e1 ++ "," ++ quoted s2 k)%string in ~ has_transition (pnet a) id /\ unlike (pnet b) id) ->
  exists p st', sequence ord st a b = Ok (p, st').
Proof. exact @ApK.C96_sequence. Qed.
Print Assumptions C96_sequence.
(** Patterns without commas in their ids can be composed: always in sequence
    and as a choice, in parallel if the source of the first has not the id of
    a transition, and interleaved if no id ends with an underscore. *)
Theorem C96_plain : forall ord st a b, any_order ord -> made a -> made b -> complete a -> complete b -> plain a -> plain b ->
  (exists p st', sequence ord st a b = Ok (p, st')) /\
  (exists p st', choice ord st a b = Ok (p, st')) /\
  (forall s1, source (pnet a) s1 -> ~ has_transition (pnet a) s1 -> unlike (pnet b) s1 -> exists p st', parallel ord st a b = Ok (p, st')) /\
  (no_underscore a -> no_underscore b -> exists p st', interleaving ord st a b = Ok (p, st')).
Proof. exact @ApK.C96_plain. Qed.
Print Assumptions C96_plain.
(** Sequences and parallel nets of patterns with the same ids can be nested to
    the left but not to the right. *)
Theorem C96_nesting_witness : exists a b c, made a /\ made b /\ made c /\ complete a /\ complete b /\ complete c /\
  forall f, In f [sequence; parallel] ->
    (exists p st p' st', f in_order [] a b = Ok (p, st) /\ f in_order st p c = Ok (p', st')) /\
    (exists p st, f in_order [] b c = Ok (p, st) /\ f in_order st a p = Err ValueError).
Proof. exact @ApM.C96_nesting_witness. Qed.
Print Assumptions C96_nesting_witness.
Example C96_example : (exists p st', parallel in_order [] (one_activity "a") (one_activity "b") = Ok (p, st')) /\
  exists s, source (pnet (one_activity "a")) s /\ ~ has_transition (pnet (one_activity "a")) s /\ unlike (pnet (one_activity "b")) s.
Proof.
  split; [do 2 eexists; vm_compute; reflexivity|]. exists "s". split.
  - apply (ApM.works_ends (one_activity "a")) with (o := "e"); [apply ex_made; cbn; auto|vm_compute; auto..].
  - split; [intros H; vm_compute in H; destruct H as [H|[]]; discriminate|].
    intros t k Ht Q. vm_compute in Ht. destruct Ht as [<-|[]]. pose proof (PetriC.quoted_length "b" k) as L. rewrite <- Q in L. cbn in L.
    assert (k = 0) by lia. subst k. discriminate.
Qed.

(** C97: Words of composed activity patterns *)
(** A word of the first pattern and a word of the second pattern one after the
    other are a word of the sequence, and there are no others if the first
    pattern never puts two tokens on its sink. *)
Theorem C97_sequence : forall ord st a b p st', any_order ord -> made a -> made b -> sequence ord st a b = Ok (p, st') ->
  (forall st u v, speaks st a u -> speaks st b v -> speaks st p (u ++ v)) /\
  (forall st w, connected (pnet a) -> connected (pnet b) -> ends_once st a ->
    speaks st p w -> exists u v, w = u ++ v /\ speaks st a u /\ speaks st b v).
Proof. exact @ApK.C97_sequence. Qed.
Print Assumptions C97_sequence.
(** The words of a choice are those of the one and those of the other. *)
Theorem C97_choice : forall ord st a b p st', any_order ord -> made a -> made b -> choice ord st a b = Ok (p, st') ->
  connected (pnet a) -> connected (pnet b) -> forall st w, speaks st p w <-> speaks st a w \/ speaks st b w.
Proof. exact @ApK.C97_choice. Qed.
Print Assumptions C97_choice.
(** The words of a parallel net are the interleavings of the words of both. *)
Theorem C97_parallel : forall ord st a b p st', any_order ord -> made a -> made b -> parallel ord st a b = Ok (p, st') ->
  forall st w, speaks st p w <-> exists u v, shuffle u v w /\ speaks st a u /\ speaks st b v.
Proof. exact @ApK.C97_parallel. Qed.
Print Assumptions C97_parallel.
(** One or more words of a pattern one after the other are a word of its
    repetition, and there are no others if nothing is left behind in the
    pattern when a token arrives at its sink. *)
Theorem C97_repetition : forall ord st a p st', any_order ord -> made a -> unbounded_repetition ord st a = Ok (p, st') ->
  (forall st w, repeated (speaks st a) w -> speaks st p w) /\
  (forall st w, connected (pnet a) -> ends_clean st a -> speaks st p w -> repeated (speaks st a) w).
Proof. exact @ApK.C97_repetition. Qed.
Print Assumptions C97_repetition.
(** However sequences, choices, parallel nets and repetitions are nested: the
    words of the net are the words that the nesting should have, and nothing is
    ever left behind when a token arrives at the sink. *)
Theorem C97_nested : forall st x p, assembled x p -> (forall a, In a (tree_leaves x) -> connected (pnet a) /\ ends_clean st a) ->
  connected (pnet p) /\ ends_clean st p /\ forall w, speaks st p w <-> words st x w.
Proof. exact @ApK.C97_nested. Qed.
Print Assumptions C97_nested.
(** Without the condition that no second token comes to the sink, a sequence can
    have words although neither part has any. *)
Theorem C97_sequence_witness : exists a b p st' w, made a /\ made b /\ connected (pnet a) /\ connected (pnet b) /\
  sequence in_order [] a b = Ok (p, st') /\ (forall st u, ~ speaks st a u) /\ (forall st v, ~ speaks st b v) /\ forall st, speaks st p w.
Proof. exact @ApM.C97_sequence_witness. Qed.
Print Assumptions C97_sequence_witness.
(** Without the condition that nothing is left behind, a repetition can have
    words although the pattern has none. *)
Theorem C97_repetition_witness : exists a p st' w, made a /\ connected (pnet a) /\ unbounded_repetition in_order [] a = Ok (p, st') /\
  (forall st u, ~ speaks st a u) /\ forall st, speaks st p w.
Proof. exact @ApM.C97_repetition_witness. Qed.
Print Assumptions C97_repetition_witness.
(** a and then a choice of b and c, repeated *)
Example C97_example : exists p, assembled (Loop (Then (Leaf (one_activity "a")) (Or (Leaf (one_activity "b")) (Leaf (one_activity "c"))))) p.
Proof.
  destruct (choice in_order [] (one_activity "b") (one_activity "c")) as [[p st]|] eqn:E; [|vm_compute in E; discriminate].
  destruct (sequence in_order st (one_activity "a") p) as [[q st']|] eqn:E'; [|vm_compute in E; injection E as <- <-; vm_compute in E'; discriminate].
  destruct (unbounded_repetition in_order st' q) as [[r st'']|] eqn:E''; [|vm_compute in E; injection E as <- <-; vm_compute in E'; injection E' as <- <-; vm_compute in E''; discriminate].
  exists r. assert (M : forall x, In x ["a"; "b"; "c"] -> made (one_activity x)) by (intros; apply ex_made; auto).
  refine (as_loop in_order st' _ q r st'' (as_then in_order st _ _ _ p q st' (as_leaf _ _) (as_or in_order [] _ _ _ _ p st (as_leaf _ _) (as_leaf _ _) ex_order E) ex_order E') ex_order E''); apply M; cbn; auto.
Qed.

(** C98: Interleavings of activity patterns *)
(** The net that interleaves two patterns never gets rid of its mutex token: no
    word leads to the marking with one token on the sink and no other. *)
Theorem C98_no_words : forall ord st a b p st', any_order ord -> made a -> made b -> interleaving ord st a b = Ok (p, st') ->
  forall st w, ~ speaks st p w.
Proof. exact @ApM.C98_no_words. Qed.
Print Assumptions C98_no_words.
(** The words with which a token comes to its sink are all the interleavings of
    such words of both patterns: they do not exclude one another. *)
Theorem C98_arrives : forall ord st a b p st', any_order ord -> made a -> made b -> interleaving ord st a b = Ok (p, st') ->
  forall st w, arrives st p w <-> exists u v, shuffle u v w /\ arrives st a u /\ arrives st b v.
Proof. exact @ApM.C98_arrives. Qed.
Print Assumptions C98_arrives.
(** so the activities of one pattern come between those of the other *)
Theorem C98_mutex_witness : exists a b p st' u1 u2 v1 v2, made a /\ made b /\ interleaving in_order [] a b = Ok (p, st') /\
  (forall st w, speaks st a w <-> w = [u1; u2]) /\ (forall st w, speaks st b w <-> w = [v1; v2]) /\ forall st, arrives st p [u1; v1; u2; v2].
Proof. exact @ApM.C98_mutex_witness. Qed.
Print Assumptions C98_mutex_witness.
Example C98_example : exists p st', interleaving in_order [] (one_activity "a") (one_activity "b") = Ok (p, st').
Proof. do 2 eexists. vm_compute. reflexivity. Qed.

(** C99: Choices of a list of activity patterns *)
(** The choice of no pattern or of a single pattern fails with a ValueError, and
    a choice with a pattern without source or sink with a KeyError. *)
Theorem C99_errors : forall ord st, any_order ord ->
  choice_list ord st [] = Err ValueError /\
  (forall a, made a -> complete a -> unquoted a -> choice_list ord st [a] = Err ValueError) /\
  (forall l, (forall a, In a l -> made a) -> (exists a, In a l /\ ~ complete a) -> choice_list ord st l = Err KeyError).
Proof. exact @ApP.C99_errors. Qed.
Print Assumptions C99_errors.
(** Otherwise the result is a workflow net with source and sink, or the joined
    ids clash and there is a ValueError. *)
Theorem C99_result : forall ord st l, any_order ord -> (forall a, In a l -> made a /\ complete a /\ unquoted a) ->
  choice_list ord st l = Err ValueError \/
  exists p st', choice_list ord st l = Ok (p, st') /\ 2 <= length l /\ made p /\ complete p /\ is_workflow_net (pnet p) = true.
Proof. exact @ApP.C99_result. Qed.
Print Assumptions C99_result.
(** Two or more patterns without commas in their ids can be joined. *)
Theorem C99_plain : forall ord st l, any_order ord -> (forall a, In a l -> made a /\ complete a /\ unquoted a /\ plain a) -> 2 <= length l ->
  exists p st', choice_list ord st l = Ok (p, st').
Proof. exact @ApP.C99_plain. Qed.
Print Assumptions C99_plain.
(** The words of the result are the words of the patterns, and it ends clean if
    they all do. *)
Theorem C99_words : forall ord st l p st', any_order ord -> (forall a, In a l -> made a /\ unquoted a /\ connected (pnet a)) ->
  choice_list ord st l = Ok (p, st') ->
  connected (pnet p) /\
  (forall st w, speaks st p w <-> exists a, In a l /\ speaks st a w) /\
  (forall st, (forall a, In a l -> ends_clean st a) -> ends_clean st p).
Proof. exact @ApP.C99_words. Qed.
Print Assumptions C99_words.
(** Without the condition that no place id is another one with apostrophes, the
    choice of a pattern and a repetition of a pattern with the same ids can fail,
    since the new ids are given out place by place. *)
Theorem C99_repetition_witness : exists a b p st, made a /\ made b /\ plain a /\ plain b /\
  unbounded_repetition in_order [] b = Ok (p, st) /\ made p /\ complete a /\ complete p /\
  choice_list in_order st [a; p] = Err ValueError /\ exists q st', choice in_order st a p = Ok (q, st').
Proof. exact @ApP.C99_repetition_witness. Qed.
Print Assumptions C99_repetition_witness.
(** It can also succeed with a net in which transitions lead to and from a place
    that the net does not have. *)
Theorem C99_lost_place_witness : exists a b p st', made a /\ made b /\ complete a /\ complete b /\
  choice_list in_order [] [a; b] = Ok (p, st') /\
  exists q t u, In q (ends (pnet p) t) /\ In q (starts (pnet p) u) /\ ~ has_place (pnet p) q.
Proof. exact @ApP.C99_lost_place_witness. Qed.
Print Assumptions C99_lost_place_witness.
Example C99_example : exists p st', choice_list in_order [] [one_activity "a"; one_activity "b"; one_activity "c"] = Ok (p, st').
Proof. do 2 eexists. vm_compute. reflexivity. Qed.
