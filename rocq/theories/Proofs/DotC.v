(** Drawings of transition systems, prefix trees and petri nets *)
From Coq Require Import String Ascii Permutation ZArith DecimalString Sorted.
From Verif.Model Require Import Base Dot Drawings Lts PrefixTree PetriNet.
From Verif.Spec Require Import DotSpec TreeSpec PetriSpec.
From Verif.Lib Require Import ListLib DictLib.
From Verif.Proofs Require Import DotA.
From Verif.Proofs Require Lts PrefixTree PetriA PetriD Selection.
Open Scope string_scope.
Open Scope list_scope.
Open Scope nat_scope.

Lemma append_inj a : forall s t, (a ++ s = a ++ t)%string -> s = t.
Proof. induction a as [|c a IH]; intros s t E; cbn in E; [auto|]. injection E as E. auto. Qed.
Lemma ordinary_app s t : ordinary s -> ordinary t -> ~ In "<"%char (list_ascii_of_string s) -> ~ In "<"%char (list_ascii_of_string t) -> ordinary (s ++ t)%string.
Proof.
  intros A B L M. unfold ordinary in *. change list_ascii_of_string with chars in *. rewrite !chars_app, !in_app_iff. intuition.
Qed.
Lemma ordinary_app_word s t : ordinary s -> ordinary t -> ~ In "<"%char (list_ascii_of_string s) -> ~ In ">"%char (list_ascii_of_string s) -> ordinary (s ++ t)%string.
Proof.
  intros A B L M. unfold ordinary in *. change list_ascii_of_string with chars in *. rewrite !chars_app, !in_app_iff. intuition.
Qed.
Lemma mapM_map {X Y} (f : X -> result Y) (h : X -> Y) l : (forall x, In x l -> f x = Ok (h x)) -> mapM f l = Ok (map h l).
Proof. induction l as [|x l IH]; intros E; [auto|]. cbn. rewrite E by (left; auto). cbn. rewrite IH by (intros; apply E; right; auto). auto. Qed.
Lemma mapM_err {X Y} (f : X -> result Y) e l : (forall x, In x l -> f x = Err e \/ exists y, f x = Ok y) -> (exists x, In x l /\ f x = Err e) -> mapM f l = Err e.
Proof.
  induction l as [|x l IH]; intros H (y & Hy & Ey); [destruct Hy|]. cbn. destruct (H x (or_introl eq_refl)) as [->|[z Ez]]; [auto|]. rewrite Ez. cbn.
  rewrite IH; [auto|intros; apply H; right; auto|]. destruct Hy as [<-|Hy]; [congruence|eauto].
Qed.

(** *** transition systems *)
Section L.
  Context {A S : Type} `{EA : Eq A} `{ES : Eq S}.
  Definition lid (i : nat) : string := ("s" ++ str (Z.of_nat i))%string.
  Lemma lid_inj i j : lid i = lid j -> i = j.
  Proof. unfold lid. intros E. injection E as E. apply str_inj in E. lia. Qed.
  Lemma ids_ok (l : list S) : forall k d, NoDup l -> (forall s, In s l -> dict_get s d = None) ->
    forall s, dict_get s (fold_left (fun d '(i, s) => dict_set s (lid i) d) (combine (seq k (length l)) l) d) =
      match find (fun i => match nth_error l i with Some x => eqb s x | None => false end) (seq 0 (length l)) with Some i => Some (lid (k + i)) | None => dict_get s d end.
  Proof.
    induction l as [|x l IH]; intros k d N D s; [auto|]. cbn [length seq combine fold_left]. inversion N as [|? ? Nx Nl]; subst. rewrite IH; [|auto|].
    - cbn [find nth_error]. destruct (eqb_ok s x) as [->|Ne].
      + rewrite Nat.add_0_r. destruct (find _ (seq 0 (length l))) as [i|] eqn:F; [|rewrite dict_get_set, eqb_refl; auto].
        apply find_some in F. destruct F as [_ F]. destruct (nth_error l i) as [y|] eqn:Q; [|discriminate]. destruct (eqb_ok x y); [|discriminate]. subst y. apply nth_error_In in Q. contradiction.
      + rewrite <- seq_shift. assert (G : forall m, find (fun i => match nth_error (x :: l) i with Some x0 => eqb s x0 | None => false end) (map Datatypes.S m) = match find (fun i => match nth_error l i with Some x0 => eqb s x0 | None => false end) m with Some i => Some (Datatypes.S i) | None => None end).
        { induction m as [|i m IHm]; [auto|]. cbn [map find nth_error]. destruct (match nth_error l i with Some x0 => eqb s x0 | None => false end); auto. }
        rewrite G. destruct (find _ (seq 0 (length l))) as [i|]; [f_equal; f_equal; lia|]. rewrite dict_get_set. destruct (eqb_ok s x); [contradiction|auto].
    - intros y Hy. rewrite dict_get_set. destruct (eqb_ok y x); [subst; contradiction|]. apply D. right. auto.
  Qed.
  Definition index (l : list S) (s : S) : nat := match find (fun i => match nth_error l i with Some x => eqb s x | None => false end) (seq 0 (length l)) with Some i => i | None => 0 end.
  Lemma find_index (l : list S) s : In s l -> exists i, find (fun i => match nth_error l i with Some x => eqb s x | None => false end) (seq 0 (length l)) = Some i /\ nth_error l i = Some s.
  Proof.
    intros H. destruct (find _ _) as [i|] eqn:F.
    - exists i. split; [auto|]. apply find_some in F. destruct F as [_ F]. destruct (nth_error l i); [|discriminate]. destruct (eqb_ok s s0); [congruence|discriminate].
    - exfalso. apply In_nth_error in H. destruct H as [i H]. assert (I : In i (seq 0 (length l))) by (apply in_seq; split; [lia|]; cbn; apply nth_error_Some; congruence).
      pose proof (find_none _ _ F i I) as Q. cbn in Q. rewrite H, eqb_refl in Q. discriminate.
  Qed.
  Lemma index_nth (l : list S) i s : NoDup l -> nth_error l i = Some s -> index l s = i.
  Proof.
    intros N E. destruct (find_index l s) as (j & F & G); [eapply nth_error_In; eauto|]. unfold index. rewrite F. apply (proj1 (NoDup_nth_error l) N j i); [apply nth_error_Some; congruence|congruence].
  Qed.
  Lemma no_index (l : list S) s : ~ In s l -> find (fun i => match nth_error l i with Some x => eqb s x | None => false end) (seq 0 (length l)) = None.
  Proof.
    intros H. destruct (find _ _) as [i|] eqn:F; [|auto]. exfalso. apply H. apply find_some in F. destruct F as [_ F]. destruct (nth_error l i) eqn:Q; [|discriminate]. destruct (eqb_ok s s0); [|discriminate]. subst. eapply nth_error_In; eauto.
  Qed.
  Lemma combine_map {Y} (f : nat -> S -> Y) (g : S -> Y) (l : list S) k : (forall i s, nth_error l i = Some s -> f (k + i) s = g s) -> map (fun '(i, s) => f i s) (combine (seq k (length l)) l) = map g l.
  Proof.
    revert k. induction l as [|x l IH]; intros k E; [auto|]. cbn [length seq combine map]. f_equal; [rewrite <- (E 0 x eq_refl); f_equal; lia|]. apply IH. intros i s Q. rewrite <- (E (Datatypes.S i) s Q). f_equal. lia.
  Qed.
End L.

(*P C125 Drawings of transition systems *)
Lemma C125_drawing : forall (A S : Type) (EA : Eq A) (ES : Eq S) sorted show_state show_event (m : lts A S),
  NoDup (states m) -> Permutation sorted (states m) ->
  (forall s e s', In (s, e, s') (transition_list m) -> In s (states m) /\ In s' (states m)) ->
  exists (name border : S -> string),
    (forall s s', In s (states m) -> In s' (states m) -> name s = name s' -> s = s') /\ (forall s, ordinary (name s)) /\
    (forall s, (In s (end_states m) -> border s = "2") /\ (~ In s (end_states m) -> border s = "1")) /\
    lts_plot sorted show_state show_event m = Ok (
      map (fun s => match show_state with
                    | None => NodeStatement (name s) (Some (name s)) [("peripheries", border s); ("shape", "circle")]
                    | Some f => NodeStatement (name s) (Some (f s)) [("peripheries", border s); ("shape", "rectangle")]
                    end) sorted
      ++ map (fun '(s, e, s') => EdgeStatement (name s) (name s') (Some (show_event e)) []) (transition_list m)).
Proof.
  intros A S EA ES sorted show_state show_event m ND P T. assert (NS : NoDup sorted) by (eapply Permutation_NoDup; [symmetry; exact P|auto]).
  exists (fun s => lid (index sorted s)), (fun s => if mem s (end_states m) then "2" else "1").
  assert (I : forall s, In s (states m) <-> In s sorted) by (intros s; split; apply Permutation_in; [symmetry|]; auto).
  assert (D : forall s, In s (states m) -> dict_get s (fold_left (fun d '(i, s) => dict_set s (lid i) d) (combine (seq 0 (length sorted)) sorted) []) = Some (lid (index sorted s))).
  { intros s Hs. rewrite ids_ok by auto. apply I in Hs. destruct (find_index sorted s Hs) as (i & F & _). unfold index. rewrite F. auto. }
  split; [|split; [|split]].
  - intros s s' Hs Hs' E. apply lid_inj in E. apply I in Hs, Hs'. destruct (find_index sorted s Hs) as (i & F & G). destruct (find_index sorted s' Hs') as (j & F' & G'). unfold index in E. rewrite F, F' in E. subst j. congruence.
  - intros s. unfold lid. apply ordinary_app_word; [|apply str_ordinary| |]; cbn; unfold ordinary; cbn; intuition discriminate.
  - intros s. destruct (mem s (end_states m)) eqn:M; [apply mem_In in M|apply mem_not_In in M]; tauto.
  - unfold lts_plot. fold lid. rewrite (mapM_map _ (fun '(s, e, s') => EdgeStatement (lid (index sorted s)) (lid (index sorted s')) (Some (show_event e)) [])).
    + cbn [bind]. f_equal. f_equal. apply (combine_map (fun i s => let '(shape, label) := match show_state with Some f => ("rectangle", f s) | None => ("circle", lid i) end in NodeStatement (lid i) (Some label) [("peripheries", if mem s (end_states m) then "2" else "1"); ("shape", shape)])).
      intros i s E. rewrite (index_nth sorted i s NS E). destruct show_state; auto.
    + intros [[s e] s'] Hin. destruct (T s e s' Hin) as [H1 H2]. pose proof (D s H1) as D1. pose proof (D s' H2) as D2. unfold lid in D1, D2 |- *. cbv beta zeta. rewrite D1. cbn [of_option bind]. rewrite D2. auto.
Qed.
(** the transition systems of sequences can be drawn, whatever represents the states *)
Lemma C125_sequences : forall (A S : Type) (EA : Eq A) (ES : Eq S) (f : list A -> S) (ls : list (list A)), let m := add_all f ls in
  NoDup (states m) /\ forall s e s', In (s, e, s') (transition_list m) -> In s (states m) /\ In s' (states m).
Proof.
  intros A S EA ES f ls m. destruct (Lts.C49_states A S EA ES f ls) as (H1 & _ & _ & H4 & _). fold m in H1, H4. split; [auto|]. intros s e s' Hin.
  destruct (Lts.add_all_sets f ls) as [_ _ _ _ _ _ R1 R2]. apply Lts.transition_list_In in Hin; [|auto|auto].
  assert (G : get_next_state m s e = Ok s') by (unfold get_next_state; fold (Lts.get m s e); rewrite Hin; auto).
  apply (proj1 (Lts.C49_last_step_wins A S EA ES f ls s e)) in G. destruct G as (j & l & k & El & (Q1 & -> & ->) & _). apply nth_error_In in El.
  split; apply H1; [exists l, (firstn k l), (skipn k l)|exists l, (firstn (k + 1) l), (skipn (k + 1) l)]; (split; [auto|]; split; [symmetry; apply firstn_skipn|auto]).
Qed.
(** a transition from or to something that was not added as a state *)
Lemma C125_error : forall (A S : Type) (EA : Eq A) (ES : Eq S) sorted show_state show_event (m : lts A S),
  NoDup (states m) -> Permutation sorted (states m) ->
  (exists s e s', In (s, e, s') (transition_list m) /\ ~ (In s (states m) /\ In s' (states m))) ->
  lts_plot sorted show_state show_event m = Err KeyError.
Proof.
  intros A S EA ES sorted show_state show_event m ND P (s & e & s' & Hin & N). assert (NS : NoDup sorted) by (eapply Permutation_NoDup; [symmetry; exact P|auto]).
  assert (I : forall s, In s (states m) <-> In s sorted) by (intros x; split; apply Permutation_in; [symmetry|]; auto).
  unfold lts_plot. fold lid. rewrite (mapM_err _ KeyError); [auto| |].
  - intros [[a b] c] _. destruct (dict_get a _); cbn; [|auto]. destruct (dict_get c _); cbn; eauto.
  - exists (s, e, s'). split; [auto|]. pose proof (ids_ok sorted 0 [] NS (fun _ _ => eq_refl)) as D. unfold lid in D. cbv beta zeta. rewrite !D. destruct (in_dec (fun x y => match eqb_ok x y with ReflectT _ p => left p | ReflectF _ p => right p end) s sorted) as [H|H].
    + destruct (find_index sorted s H) as (i & -> & _). cbn [of_option bind]. rewrite no_index; [auto|]. rewrite !I in N. tauto.
    + rewrite no_index; auto.
Qed.

(** *** prefix trees *)
Section T.
  Context {A : Type} `{EA : Eq A}.
  Notation ptree := (ptree A).
  (** the nodes below a tree, in some order *)
  Fixpoint below (t : ptree) : list (A * ptree) :=
    let 'PT _ _ cs := t in fold_right (fun xt l => xt :: below (snd xt) ++ l) [] cs.
  Definition under (q : list (A * ptree)) : list (A * ptree) := flat_map (fun xt => xt :: below (snd xt)) q.
  Lemma below_under t : below t = under (get_children t).
  Proof. destruct t as [i n cs]. cbn. induction cs as [|[x u] cs IH]; cbn; [auto|]. rewrite IH. auto. Qed.
  Lemma size_below t : size t = length (below t).
  Proof.
    revert t. fix IH 1. intros [i n cs]. cbn. induction cs as [|[x u] cs IHc]; cbn; [auto|]. rewrite app_length, <- IHc, (IH u). auto.
  Qed.
  Lemma under_app q r : under (q ++ r) = under q ++ under r.
  Proof. apply flat_map_app. Qed.
  Lemma under_perm q r : Permutation q r -> Permutation (under q) (under r).
  Proof. apply Permutation_flat_map. Qed.
  Lemma level_perm fuel : forall q l, level_order fuel q = Ok l -> Permutation l (under q).
  Proof.
    induction fuel as [|fuel IH]; intros [|[x t] q] l E; cbn [level_order] in E; try discriminate; try (injection E as <-; constructor).
    destruct (level_order fuel (q ++ get_children t)) as [l'|] eqn:F; [|discriminate]. cbn in E. injection E as <-. apply IH in F. rewrite under_app in F.
    cbn. constructor. rewrite F, below_under. apply Permutation_app_comm.
  Qed.
  Lemma depth_perm (show : A -> string) fuel : forall q, length (under q) <= fuel -> exists order, Permutation order (under q) /\ tree_nodes fuel show q = Ok (flat_map (fun '(x, u) => tree_node show x u) order).
  Proof.
    induction fuel as [|fuel IH]; intros [|[x t] q] L; cbn [tree_nodes]; try (exists []; split; [constructor|reflexivity]); cbn [under flat_map app length] in L; [lia|].
    destruct (IH (rev (get_children t) ++ q)) as (order & P & E).
    - rewrite (Permutation_length (under_perm _ (get_children t ++ q) (Permutation_app_tail q (Permutation_sym (Permutation_rev _))))). rewrite under_app, <- below_under. unfold under. cbn [snd] in L. lia.
    - exists ((x, t) :: order). split; [|rewrite E; auto]. cbn [under flat_map app snd]. constructor. rewrite P.
      rewrite (under_perm _ (get_children t ++ q) (Permutation_app_tail q (Permutation_sym (Permutation_rev _)))). rewrite under_app, <- below_under. auto.
  Qed.
  Lemma tree_plot_ok (show : A -> string) t nodes : traverse_level_order t = Ok nodes -> exists order, Permutation order nodes /\ tree_plot show t = Ok (flat_map (fun '(x, u) => tree_node show x u) order).
  Proof.
    intros E. apply level_perm in E. unfold tree_plot. destruct (depth_perm show (size t) (rev (get_children t))) as (order & P & Q).
    - rewrite (Permutation_length (under_perm _ _ (Permutation_sym (Permutation_rev _)))), <- below_under, size_below. auto.
    - exists order. split; [|auto]. rewrite P, E. apply under_perm. symmetry. apply Permutation_rev.
  Qed.
End T.
Definition digits (s : string) : Prop := Forall (fun c => is_digit c = true) (chars s).
Lemma str_digits k : digits (str (Z.of_nat k)).
Proof.
  assert (U : forall u, digits (NilEmpty.string_of_uint u)) by (unfold digits; induction u; cbn; constructor; auto).
  unfold str. destruct k as [|k]; [repeat constructor|]. apply U.
Qed.
Lemma chars_cat l : chars (String.concat "" l) = concat (map chars l).
Proof.
  induction l as [|s l IH]; [auto|]. cbn [map concat]. rewrite <- IH. destruct l as [|t l]; [cbn; rewrite app_nil_r; auto|].
  change (String.concat "" (s :: t :: l)) with (s ++ "" ++ String.concat "" (t :: l))%string. rewrite chars_app. auto.
Qed.
Lemma split_digits a : forall b r s, Forall (fun c => is_digit c = true) a -> Forall (fun c => is_digit c = true) b ->
  (forall c x, r = c :: x -> is_digit c = false) -> (forall c x, s = c :: x -> is_digit c = false) -> a ++ r = b ++ s -> a = b /\ r = s.
Proof.
  induction a as [|c a IH]; intros [|d b] r s FA FB R S E; cbn in E; auto.
  - exfalso. inversion FB; subst. specialize (R d (b ++ s) eq_refl). congruence.
  - exfalso. inversion FA; subst. specialize (S c (a ++ r) eq_refl). congruence.
  - injection E as -> E. inversion FA; inversion FB; subst. destruct (IH b r s) as [-> ->]; auto.
Qed.
Lemma dotted_inj a : forall b, dotted a = dotted b -> a = b.
Proof.
  assert (C : forall a, chars (dotted a) = concat (map (fun k => "."%char :: chars (str (Z.of_nat k))) a)).
  { intros l. unfold dotted. rewrite chars_cat, map_map. auto. }
  assert (H : forall a c x, chars (dotted a) = c :: x -> is_digit c = false).
  { intros [|k l] c x; rewrite C; cbn; [discriminate|]. intros E. injection E as <- _. auto. }
  induction a as [|k a IH]; intros [|j b] E; auto; apply (f_equal chars) in E.
  - rewrite !C in E. discriminate.
  - rewrite !C in E. discriminate.
  - rewrite !C in E. cbn [map concat app] in E. assert (E2 : chars (str (Z.of_nat k)) ++ chars (dotted a) = chars (str (Z.of_nat j)) ++ chars (dotted b)) by (rewrite !C; congruence).
    apply split_digits in E2; [|apply str_digits|apply str_digits|apply H|apply H]. destruct E2 as [E2 E3]. apply chars_inj, str_inj in E2. apply chars_inj, IH in E3. f_equal; [lia|auto].
Qed.

Lemma NoDup_of_map {X Y} (f : X -> Y) l : NoDup (map f l) -> NoDup l.
Proof. apply NoDup_map_inv. Qed.
Lemma NoDup_flat {X Y} (f : X -> list Y) l : NoDup l -> (forall x, In x l -> NoDup (f x)) -> (forall x y z, In x l -> In y l -> In z (f x) -> In z (f y) -> x = y) -> NoDup (flat_map f l).
Proof.
  induction l as [|x l IH]; intros N H D; [constructor|]. inversion N as [|? ? N1 N2]; subst. cbn [flat_map]. apply Selection.NoDup_app_disjoint.
  - apply H. left. auto.
  - apply IH; [auto|intros; apply H; right; auto|intros y y' z Hy Hy'; apply D; right; auto].
  - intros z Hz Hz'. apply in_flat_map in Hz'. destruct Hz' as (y & Hy & Hz'). apply N1. rewrite (D x y z); [auto|left; auto|right; auto|auto|auto].
Qed.
Lemma NoDup_map_on {X Y} (f : X -> Y) l : (forall x y, In x l -> In y l -> f x = f y -> x = y) -> NoDup l -> NoDup (map f l).
Proof.
  intros H N. induction N as [|x l Hx N IH]; cbn [map]; constructor.
  - intros Hi. apply in_map_iff in Hi. destruct Hi as (y & Q & Hy). apply Hx. rewrite (H x y); [auto|left; auto|right; auto|auto].
  - apply IH. intros y z Hy Hz. apply H; right; auto.
Qed.
(*P C126 Drawings of prefix trees *)
Lemma C126_drawing : forall (A : Type) (EA : Eq A) (ltb : A -> A -> bool) show (ss : list (list A)) t, strict_total ltb -> append_all ltb ss = Ok t ->
  exists l, tree_plot show t = Ok l /\ NoDup (node_names l) /\ NoDup l /\
    (forall w w' u u', node_at t w u -> node_at t w' u' -> dotted (get_node_id u) = dotted (get_node_id u') -> w = w') /\
    (forall name label attrs, In (NodeStatement name label attrs) l <-> exists w x u, node_at t (w ++ [x]) u /\
       name = dotted (get_node_id u) /\ label = Some (show x ++ " | " ++ str (Z.of_nat (get_nr_of_sequences u)))%string /\ attrs = [("shape", "rectangle")]) /\
    forall tail head label attrs, In (EdgeStatement tail head label attrs) l <-> exists w x u c, w <> [] /\ node_at t w u /\ node_at t (w ++ [x]) c /\
       tail = dotted (get_node_id u) /\ head = dotted (get_node_id c) /\ label = Some (str (Z.of_nat (get_nr_of_sequences c))) /\ attrs = [].
Proof.
  intros A EA ltb show ss t Ho E. destruct (PrefixTree.C48_level_order A EA ltb ss t Ho E) as (ws & nodes & EL & F2 & N & _ & W).
  destruct (tree_plot_ok show t nodes EL) as (order & P & EP). eexists. split; [exact EP|].
  assert (IJ : forall w w' u u', node_at t w u -> node_at t w' u' -> dotted (get_node_id u) = dotted (get_node_id u') -> w = w').
  { intros w w' u u' H H' Q. apply dotted_inj in Q. exact (PrefixTree.C48_node_ids A EA ltb ss t w u w' u' Ho E H H' Q). }
  destruct (PrefixTree.C48_nodes_are_the_prefixes A EA ltb ss Ho) as (t' & E' & _ & UN). rewrite E in E'. injection E' as <-.
  assert (NI : forall x u, In (x, u) order <-> exists w, node_at t (w ++ [x]) u).
  { intros x u. assert (X : In (x, u) order <-> In (x, u) nodes) by (split; apply Permutation_in; [|symmetry]; auto). rewrite X. split.
    - intros Hin. clear - F2 Hin. induction F2 as [|w [y v] ws nodes [Q [p ->]] F IH]; [destruct Hin|]. destruct Hin as [Hin|Hin]; [injection Hin as -> ->; eauto|auto].
    - intros [w Hn]. assert (I : In (w ++ [x]) ws) by (apply W; split; [destruct w; discriminate|eauto]). clear - F2 I Hn UN.
      induction F2 as [|w0 [y v] ws nodes [Q [p ->]] F IH]; [destruct I|]. destruct I as [I|I]; [|right; auto]. apply app_inj_tail in I. destruct I as [-> ->]. left. f_equal. eapply UN; eauto. }
  assert (ND : NoDup (map (fun '(x, u) => dotted (get_node_id u)) order)).
  { apply (Permutation_NoDup (Permutation_map _ (Permutation_sym P))). clear - F2 N IJ.
    induction F2 as [|w [x u] ws nodes [Q [p ->]] F IH]; [constructor|]. inversion N as [|? ? N1 N2]; subst. cbn [map]. constructor; [|auto].
    intros Hin. apply in_map_iff in Hin. destruct Hin as ([y v] & Ed & Hin). apply N1. clear - F Hin Ed IJ Q.
    induction F as [|w' [z v'] ws nodes [Q' [p' ->]] F IH]; [destruct Hin|]. destruct Hin as [Hin|Hin]; [|right; auto]. injection Hin as -> ->. left. exact (IJ _ _ _ _ Q' Q Ed). }
  split; [|split; [|split; [exact IJ|split]]].
  - assert (NN : node_names (flat_map (fun '(x, u) => tree_node show x u) order) = map (fun '(x, u) => dotted (get_node_id u)) order).
    { clear. induction order as [|[x u] order IH]; [auto|]. cbn [flat_map map]. unfold node_names in *. rewrite flat_map_app, IH. unfold tree_node. cbn [flat_map app]. f_equal.
      assert (Z : forall (cs : list (A * ptree A)), flat_map (fun s => match s with NodeStatement n _ _ => [n] | EdgeStatement _ _ _ _ => [] end)
         (map (fun '(_, c) => EdgeStatement (dotted (get_node_id u)) (dotted (get_node_id c)) (Some (str (Z.of_nat (get_nr_of_sequences c)))) []) cs) = []) by (induction cs as [|[y c] cs IHc]; auto).
      rewrite Z. auto. }
    rewrite NN. exact ND.
  - apply NoDup_flat; [exact (NoDup_map_inv _ _ ND)| |].
    + intros [x u] Hin. apply NI in Hin. destruct Hin as [w Hu]. unfold tree_node. constructor; [intros Hi; apply in_map_iff in Hi; destruct Hi as ([? ?] & Q & _); discriminate|].
      assert (NC : NoDup (map fst (get_children u))).
      { assert (SS := PrefixTree.C48_children_sorted A EA ltb ss t _ u Ho E Hu). destruct Ho as (Ir & _). clear - SS Ir. induction SS as [|y ys SS IH F]; constructor; auto.
        intros Hy. rewrite Forall_forall in F. apply F in Hy. rewrite Ir in Hy. discriminate. }
      apply NoDup_map_inv in NC. apply NoDup_map_on; [|exact NC]. intros [y c] [y' c'] Hy Hy' Q. injection Q as Q _.
      pose proof (IJ _ _ _ _ (PrefixTree.node_snoc _ _ _ _ _ Hu Hy) (PrefixTree.node_snoc _ _ _ _ _ Hu Hy') Q) as W'. apply app_inj_tail in W'. destruct W' as [_ ->].
      f_equal. eapply UN; eapply PrefixTree.node_snoc; eauto.
    + intros [x u] [x' u'] z Hx Hx' Hz Hz'. apply (PrefixTree.NoDup_map_at (fun '(x, u) => dotted (get_node_id u)) order); auto. unfold tree_node in Hz, Hz'.
      destruct Hz as [Hz|Hz], Hz' as [Hz'|Hz'].
      * subst z. injection Hz' as Q _. auto.
      * subst z. apply in_map_iff in Hz'. destruct Hz' as ([? ?] & Q & _). discriminate.
      * subst z. apply in_map_iff in Hz. destruct Hz as ([? ?] & Q & _). discriminate.
      * apply in_map_iff in Hz, Hz'. destruct Hz as ([? ?] & <- & _), Hz' as ([? ?] & Q & _). injection Q as Q _ _. auto.
  - intros name label attrs. rewrite in_flat_map. split.
    + intros ([x u] & Hin & [Hs|Hs]); [|apply in_map_iff in Hs; destruct Hs as ([? ?] & Q & _); discriminate]. apply NI in Hin. destruct Hin as [w Hw]. injection Hs as <- <- <-. exists w, x, u. auto.
    + intros (w & x & u & Hn & -> & -> & ->). exists (x, u). split; [apply NI; eauto|left; auto].
  - intros tail head label attrs. rewrite in_flat_map. split.
    + intros ([x u] & Hin & [Hs|Hs]); [discriminate|]. apply in_map_iff in Hs. destruct Hs as ([y c] & Q & Hc). injection Q as <- <- <- <-. apply NI in Hin. destruct Hin as [w Hw].
      exists (w ++ [x]), y, u, c. split; [destruct w; discriminate|]. split; [auto|]. split; [eapply PrefixTree.node_snoc; eauto|auto].
    + intros (w & y & u & c & Hw & Hu & Hc & -> & -> & -> & ->). destruct w as [|x w] using rev_ind; [congruence|]. clear IHw. exists (x, u). split; [apply NI; eauto|]. right. apply in_map_iff. exists (y, c). split; [auto|].
      assert (X : forall v (a b : ptree A), node_at a (v ++ [y]) b -> exists d, node_at a v d /\ In (y, b) (get_children d)).
      { clear. induction v as [|z v IH]; intros a b H; cbn in H; inversion H as [|? ? c' ? ? Hin Hn]; subst; [inversion Hn; subst; exists a; split; [constructor|auto]|]. destruct (IH _ _ Hn) as (d & D1 & D2). exists d. split; [econstructor; eauto|auto]. }
      apply X in Hc. destruct Hc as (d & D1 & D2). rewrite (UN _ _ _ Hu D1). auto.
Qed.

Lemma names_places (ps : dict string place) : flat_map (fun s => match s with NodeStatement n _ _ => [n] | EdgeStatement _ _ _ _ => [] end)
  (map (fun '(id, p) => NodeStatement ("place_" ++ id)%string (Some (if (p_tokens p =? 0)%Z then "" else str (p_tokens p))) [("shape", "circle"); ("xlabel", p_label p)]) ps)
  = map (fun id => ("place_" ++ id)%string) (keys ps).
Proof. induction ps as [|[id p] ps IH]; [auto|]. cbn [map flat_map app]. rewrite IH. auto. Qed.
Lemma names_edges {X} (f : X -> string * string) l : flat_map (fun s => match s with NodeStatement n _ _ => [n] | EdgeStatement _ _ _ _ => [] end)
  (map (fun x => EdgeStatement (fst (f x)) (snd (f x)) None []) l) = [].
Proof. induction l; auto. Qed.
Lemma names_transitions ord b (ts : dict string transition) : flat_map (fun s => match s with NodeStatement n _ _ => [n] | EdgeStatement _ _ _ _ => [] end)
  (flat_map (fun '(id, t) =>
       NodeStatement ("transition_" ++ id)%string (Some (t_label t))
         ((if negb (t_visible t) && negb b then [("fillcolor", "black")] else [])
          ++ [("shape", "rectangle")] ++ (if t_visible t then [] else [("style", "filled")]))
       :: map (fun p => EdgeStatement ("place_" ++ p)%string ("transition_" ++ id)%string None []) (ord (t_start t))
       ++ map (fun p => EdgeStatement ("transition_" ++ id)%string ("place_" ++ p)%string None []) (ord (t_end t))) ts)
  = map (fun id => ("transition_" ++ id)%string) (keys ts).
Proof.
  induction ts as [|[id t] ts IH]; [auto|]. cbn [flat_map]. rewrite flat_map_app, IH. cbn [flat_map]. rewrite flat_map_app.
  rewrite (names_edges (fun p => (("place_" ++ p)%string, ("transition_" ++ id)%string))), (names_edges (fun p => (("transition_" ++ id)%string, ("place_" ++ p)%string))). auto.
Qed.

(*P C127 Drawings of petri nets *)
Lemma C127_nodes : forall ord show_labels n, built n -> any_order ord ->
  NoDup (node_names (net_plot ord show_labels n)) /\
  forall name label attrs, In (NodeStatement name label attrs) (net_plot ord show_labels n) <->
    (exists p pl, dict_get p (places n) = Some pl /\ name = ("place_" ++ p)%string /\
       label = Some (if (tokens n p =? 0)%Z then "" else str (tokens n p)) /\ attrs = [("shape", "circle"); ("xlabel", p_label pl)]) \/
    (exists t tr, dict_get t (transitions n) = Some tr /\ name = ("transition_" ++ t)%string /\ label = Some (t_label tr) /\
       attrs = if t_visible tr then [("shape", "rectangle")]
               else if show_labels then [("shape", "rectangle"); ("style", "filled")]
               else [("fillcolor", "black"); ("shape", "rectangle"); ("style", "filled")]).
Proof.
  intros ord show_labels n B O. apply PetriD.built_wf in B as W. unfold net_plot. split.
  - unfold node_names. rewrite flat_map_app. apply Selection.NoDup_app_disjoint.
    + rewrite names_places. apply FinFun.Injective_map_NoDup; [|apply W]. intros a b Q. apply append_inj in Q. auto.
    + rewrite names_transitions. apply FinFun.Injective_map_NoDup; [|apply W]. intros a b Q. apply append_inj in Q. auto.
    + rewrite names_places, names_transitions. intros x H1 H2. apply in_map_iff in H1, H2. destruct H1 as (a & <- & _). destruct H2 as (b & Q & _). discriminate.
  - intros name label attrs. rewrite in_app_iff, in_map_iff, in_flat_map. split.
    + intros [([p pl] & Q & Hin)|([t tr] & Hin & [Q|Q])].
      * left. injection Q as <- <- <-. apply dict_In_get in Hin; [|apply W]. exists p, pl. unfold tokens. rewrite Hin. auto.
      * right. injection Q as <- <- <-. apply dict_In_get in Hin; [|apply W]. exists t, tr. split; [auto|]. split; [auto|]. split; [auto|]. destruct (t_visible tr), show_labels; auto.
      * exfalso. apply in_app_or in Q. destruct Q as [Q|Q]; apply in_map_iff in Q; destruct Q as (? & Q & _); discriminate.
    + intros [(p & pl & Ep & -> & -> & ->)|(t & tr & Et & -> & -> & ->)].
      * left. exists (p, pl). split; [unfold tokens; rewrite Ep; auto|]. apply dict_get_In. auto.
      * right. exists (t, tr). split; [apply dict_get_In; auto|]. left. f_equal. destruct (t_visible tr), show_labels; auto.
Qed.
Lemma C127_edges : forall ord show_labels n, built n -> any_order ord ->
  NoDup (net_plot ord show_labels n) /\
  (forall tail head label attrs, In (EdgeStatement tail head label attrs) (net_plot ord show_labels n) <->
    label = None /\ attrs = [] /\ exists p t,
      (In p (starts n t) /\ tail = ("place_" ++ p)%string /\ head = ("transition_" ++ t)%string) \/
      (In p (ends n t) /\ tail = ("transition_" ++ t)%string /\ head = ("place_" ++ p)%string)) /\
  forall tail head label attrs, In (EdgeStatement tail head label attrs) (net_plot ord show_labels n) ->
    In tail (node_names (net_plot ord show_labels n)) /\ In head (node_names (net_plot ord show_labels n)).
Proof.
  intros ord show_labels n B O. apply PetriD.built_wf in B as W.
  assert (OI : forall x l, In x (ord l) <-> In x l) by (intros x l; split; apply Permutation_in; [|symmetry]; apply O).
  assert (SE : forall t tr, In (t, tr) (transitions n) -> starts n t = t_start tr /\ ends n t = t_end tr).
  { intros t tr Hin. apply dict_In_get in Hin; [|apply W]. unfold starts, ends. rewrite Hin. auto. }
  assert (EE : forall tail head label attrs, In (EdgeStatement tail head label attrs) (net_plot ord show_labels n) <->
    label = None /\ attrs = [] /\ exists p t,
      (In p (starts n t) /\ tail = ("place_" ++ p)%string /\ head = ("transition_" ++ t)%string) \/
      (In p (ends n t) /\ tail = ("transition_" ++ t)%string /\ head = ("place_" ++ p)%string)).
  { intros tail head label attrs. unfold net_plot. rewrite in_app_iff, in_map_iff, in_flat_map. split.
    - intros [([p pl] & Q & _)|([t tr] & Hin & [Q|Q])]; [discriminate|discriminate|]. destruct (SE t tr Hin) as [S1 S2].
      apply in_app_or in Q. destruct Q as [Q|Q]; apply in_map_iff in Q; destruct Q as (p & Q & Hp); injection Q as <- <- <- <-; apply (proj1 (OI _ _)) in Hp; (split; [auto|]; split; [auto|]; exists p, t); rewrite S1, S2; (left; split; [auto|]; split; reflexivity) || (right; split; [auto|]; split; reflexivity).
    - intros (-> & -> & p & t & [(Hp & -> & ->)|(Hp & -> & ->)]); right.
      + pose proof (PetriA.starts_has n t p Hp) as Ht. apply dict_get_key in Ht. destruct Ht as [tr Ht]. apply dict_get_In in Ht. exists (t, tr). split; [auto|]. right. apply in_or_app. left. apply in_map_iff. exists p. split; [auto|]. apply OI. rewrite <- (proj1 (SE t tr Ht)). auto.
      + pose proof (PetriA.ends_has n t p Hp) as Ht. apply dict_get_key in Ht. destruct Ht as [tr Ht]. apply dict_get_In in Ht. exists (t, tr). split; [auto|]. right. apply in_or_app. right. apply in_map_iff. exists p. split; [auto|]. apply OI. rewrite <- (proj2 (SE t tr Ht)). auto. }
  split; [|split; [exact EE|]].
  - unfold net_plot. apply Selection.NoDup_app_disjoint.
    + apply (NoDup_of_map (fun s => match s with NodeStatement x _ _ => x | EdgeStatement x _ _ _ => x end)). rewrite map_map.
      rewrite (map_ext _ (fun e => ("place_" ++ fst e)%string)) by (intros [? ?]; auto). rewrite <- map_map. apply FinFun.Injective_map_NoDup; [|apply W]. intros a b Q. apply append_inj in Q. auto.
    + apply NoDup_flat.
      * apply (NoDup_of_map fst). apply W.
      * intros [t tr] Hin. destruct (SE t tr Hin) as [S1 S2]. constructor.
        -- intros Q. apply in_app_or in Q. destruct Q as [Q|Q]; apply in_map_iff in Q; destruct Q as (p & Q & _); discriminate.
        -- apply Selection.NoDup_app_disjoint.
           ++ apply FinFun.Injective_map_NoDup; [intros a b Q; injection Q as Q; auto|]. eapply Permutation_NoDup; [symmetry; apply O|]. rewrite <- S1. apply W.
           ++ apply FinFun.Injective_map_NoDup; [intros a b Q; injection Q as Q; auto|]. eapply Permutation_NoDup; [symmetry; apply O|]. rewrite <- S2. apply W.
           ++ intros x H1 H2. apply in_map_iff in H1, H2. destruct H1 as (p & <- & _). destruct H2 as (q & Q & _). discriminate.
      * intros [t tr] [t' tr'] s Hin Hin' H1 H2. assert (X : t = t').
        { destruct H1 as [<-|H1]; destruct H2 as [H2|H2].
          - injection H2 as H2. auto.
          - exfalso. apply in_app_or in H2. destruct H2 as [Q|Q]; apply in_map_iff in Q; destruct Q as (p & Q & _); discriminate.
          - exfalso. subst s. apply in_app_or in H1. destruct H1 as [Q|Q]; apply in_map_iff in Q; destruct Q as (p & Q & _); discriminate.
          - apply in_app_or in H1, H2. destruct H1 as [H1|H1], H2 as [H2|H2]; apply in_map_iff in H1, H2; destruct H1 as (p & <- & _); destruct H2 as (q & Q & _); try discriminate; injection Q; auto. }
        subst t'. apply dict_In_get in Hin, Hin'; try apply W. congruence.
    + intros x H1 H2. apply in_map_iff in H1. destruct H1 as ([p pl] & <- & _). apply in_flat_map in H2. destruct H2 as ([t tr] & _ & [Q|Q]); [discriminate|].
      apply in_app_or in Q. destruct Q as [Q|Q]; apply in_map_iff in Q; destruct Q as (q & Q & _); discriminate.
  - intros tail head label attrs Hin. apply EE in Hin. destruct Hin as (_ & _ & p & t & H).
    assert (NP : has_place n p -> In ("place_" ++ p)%string (node_names (net_plot ord show_labels n))).
    { intros Q. unfold net_plot, node_names. rewrite flat_map_app. apply in_or_app. left. fold (node_names (map (fun '(id, p) => NodeStatement ("place_" ++ id)%string (Some (if (p_tokens p =? 0)%Z then "" else str (p_tokens p))) [("shape", "circle"); ("xlabel", p_label p)]) (places n))). unfold node_names. rewrite names_places. apply in_map. auto. }
    assert (NT : has_transition n t -> In ("transition_" ++ t)%string (node_names (net_plot ord show_labels n))).
    { intros Q. unfold net_plot, node_names. rewrite flat_map_app. apply in_or_app. right. rewrite names_transitions. apply in_map. auto. }
    destruct H as [(Hp & -> & ->)|(Hp & -> & ->)].
    + split; [apply NP; eapply PetriA.w_sp; eauto|apply NT; eapply PetriA.starts_has; eauto].
    + split; [apply NT; eapply PetriA.ends_has; eauto|apply NP; eapply PetriA.w_ep; eauto].
Qed.
(** in the text, an edge ends at the nodes that it is meant for, if ids are ordinary *)
Lemma C127_text : forall id, ordinary id ->
  quote_edge ("place_" ++ id) = quote ("place_" ++ id) /\ quote_edge ("transition_" ++ id) = quote ("transition_" ++ id).
Proof.
  intros id O. split; apply quote_edge_id; apply ordinary_app_word; auto; unfold ordinary; cbn; intuition discriminate.
Qed.
(** what stands behind a colon is taken for a port of another node *)
Lemma C127_colon_witness : exists n1 n2 n3 n, add_place "p:1" "in" 1 new_net = Ok n1 /\ add_place "q" "out" 0 n1 = Ok n2 /\ add_transition "t" None true n2 = Ok n3 /\
  add_connection "p:1" "t" "q" n3 = Ok n /\
  Dot.source (net_plot (fun l => l) false n) = ("digraph {" ++ newline
    ++ String tabulator ("""place_p:1"" [label=1 shape=circle xlabel=in]" ++ newline)
    ++ String tabulator ("place_q [label="""" shape=circle xlabel=out]" ++ newline)
    ++ String tabulator ("transition_t [label=t shape=rectangle]" ++ newline)
    ++ String tabulator ("place_p:1 -> transition_t" ++ newline)
    ++ String tabulator ("transition_t -> place_q" ++ newline) ++ "}" ++ newline)%string.
Proof. do 4 eexists. do 4 (split; [vm_compute; reflexivity|]). vm_compute. reflexivity. Qed.
