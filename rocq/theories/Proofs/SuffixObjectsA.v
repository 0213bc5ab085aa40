(** The objects of a suffix tree represent the tree *)
From Verif.Model Require Import Base Sort ListUtils Patterns SuffixTree SuffixObjects.
From Verif.Spec Require Import Lists Words.
From Verif.Lib Require Import ListLib SortLib.
From Verif.Proofs Require Import SuffixTree SuffixTreeB.
From Coq Require Import Sorted Permutation.
Open Scope nat_scope.

Definition num (t : tree) : nat := match t with Node k _ => k end.
Fixpoint table (par : option nat) (t : tree) : list (nat * object) :=
  match t with Node k cs => (k, Object par k (map (fun c => num (snd c)) cs)) :: flat_map (fun c => table (Some k) (snd c)) cs end.
Fixpoint tedges (t : tree) : list ((nat * nat) * (nat * nat)) :=
  match t with Node k cs => flat_map (fun c => ((k, num (snd c)), fst c) :: tedges (snd c)) cs end.
Definition has (h : objects) (l : list (nat * object)) : Prop := forall k o, In (k, o) l -> nth_error (objs h) k = Some o.
Definition has_edges (h : objects) (l : list ((nat * nat) * (nat * nat))) : Prop := forall e v, In (e, v) l -> dict_get e (edges h) = Some v.
(** [l'] is [l] with [z'] instead of [z] *)
Definition swap {X} (z z' l l' : list X) : Prop := exists r, Permutation l (z ++ r) /\ Permutation l' (z' ++ r).
Lemma swap_frame {X} (z z' l l' a b : list X) : swap z z' l l' -> swap z z' (a ++ l ++ b) (a ++ l' ++ b).
Proof.
  intros (r & P & P'). exists (a ++ r ++ b). rewrite P, P'. split.
  - rewrite <- app_assoc, !(app_assoc a z), !(app_assoc z a). apply Permutation_app_tail, Permutation_app_comm.
  - rewrite <- app_assoc, !(app_assoc a z'), !(app_assoc z' a). apply Permutation_app_tail, Permutation_app_comm.
Qed.
Lemma swap_cons {X} (z z' l l' : list X) x : swap z z' l l' -> swap z z' (x :: l) (x :: l').
Proof. intros S. assert (Q := swap_frame z z' l l' [x] [] S). rewrite !app_nil_r in Q. exact Q. Qed.
Lemma swap_In {X} (z z' l l' : list X) x : swap z z' l l' -> In x z -> In x l.
Proof. intros (r & P & _) Hx. apply (Permutation_in _ (Permutation_sym P)), in_or_app. auto. Qed.

Lemma pick1 {X} (a b c : X) (l1 l2 m : list X) : Permutation (l1 ++ l2 ++ a :: c :: m ++ [b]) (a :: b :: c :: l1 ++ m ++ l2).
Proof.
  symmetry. replace (l1 ++ l2 ++ a :: c :: m ++ [b]) with ((l1 ++ l2) ++ a :: c :: m ++ [b]) by (rewrite <- app_assoc; auto). apply Permutation_cons_app.
  replace ((l1 ++ l2) ++ c :: m ++ [b]) with (((l1 ++ l2) ++ c :: m) ++ b :: []) by (rewrite <- !app_assoc; auto). apply Permutation_cons_app. rewrite app_nil_r.
  apply Permutation_cons_app. rewrite <- app_assoc. apply Permutation_app_head, Permutation_app_comm.
Qed.
Lemma pick2 {X} (a b c : X) (l1 l2 m : list X) : Permutation (l1 ++ l2 ++ a :: b :: m ++ [c]) (a :: b :: c :: l1 ++ m ++ l2).
Proof.
  rewrite pick1. apply perm_skip, perm_swap.
Qed.
Section S.
  Context {A : Type} `{Eq A} (dollar : A) (W : list A).
  Notation n := (length W).

  (** what a step of [insert] does to the objects *)
  Definition appended (next p st : nat) (T T' : list (nat * object)) (D D' : list ((nat * nat) * (nat * nat))) : Prop :=
    exists q ch, swap [(p, Object q p ch)] [(p, Object q p (ch ++ [next])); (next, Object (Some p) next [])] T T' /\ swap [] [((p, next), (st, n))] D D'.
  Definition cut (next c st : nat) (T T' : list (nat * object)) (D D' : list ((nat * nat) * (nat * nat))) : Prop :=
    exists p q l1 l2 g ps pe len, insert_len (n + 1) W st ps 0 = Ok len /\
      swap [(p, Object q p (l1 ++ c :: l2)); (c, Object (Some p) c g)]
           [(p, Object q p (l1 ++ l2 ++ [next])); (next, Object (Some p) next [c; next + 1]); (next + 1, Object (Some next) (next + 1) []); (c, Object (Some next) c g)] T T' /\
      swap [((p, c), (ps, pe))] [((p, next), (ps, ps + len - 1)); ((next, c), (ps + len - 1, pe)); ((next, next + 1), (st + len - 1, n))] D D'.
  Definition change (next : nat) (pos : nat * nat * bool) T T' D D' : Prop :=
    let '(k, st, overlap) := pos in if (overlap : bool) then cut next k st T T' D D' else appended next k st T T' D D'.
  Definition cannot_cut (h : objects) (c st : nat) (e : error) : Prop :=
    exists p o ps pe, nth_error (objs h) c = Some o /\ parent o = Some p /\ dict_get (p, c) (edges h) = Some (ps, pe) /\ insert_len (n + 1) W st ps 0 = Err e.

  Lemma visit_ok rec hrec next start h k : forall cs,
    (forall c, In c cs -> dict_get (k, num (snd c)) (edges h) = Some (fst c)) ->
    match insert_children rec W next start cs with
    | Ok NotFound => visit_children hrec W h start k (map (fun c => num (snd c)) cs) = Ok (k, start, false)
    | Ok (InPlace cs') => exists l1 es ee c l2 c' st, cs = l1 ++ ((es, ee), c) :: l2 /\ cs' = l1 ++ ((es, ee), c') :: l2 /\ rec st c = Ok c' /\
        visit_children hrec W h start k (map (fun c => num (snd c)) cs) = hrec st (num c)
    | Ok (Removed cs' nn) => exists l1 es ee c l2, cs = l1 ++ ((es, ee), c) :: l2 /\ cs' = l1 ++ l2 /\ split_edge W next start es ee c = Ok nn /\
        visit_children hrec W h start k (map (fun c => num (snd c)) cs) = Ok (num c, start, true)
    | Err e => visit_children hrec W h start k (map (fun c => num (snd c)) cs) = Err e \/
        (exists es ee c st, In ((es, ee), c) cs /\ rec st c = Err e /\ visit_children hrec W h start k (map (fun c => num (snd c)) cs) = hrec st (num c)) \/
        (exists es ee c, In ((es, ee), c) cs /\ split_edge W next start es ee c = Err e /\ visit_children hrec W h start k (map (fun c => num (snd c)) cs) = Ok (num c, start, true))
    end.
  Proof.
    induction cs as [|[[es ee] c] cs IH]; intros He; cbn [insert_children visit_children map]. { reflexivity. }
    rewrite (He _ (or_introl eq_refl)). cbn [of_option fst snd bind].
    destruct (eqb (slice W start (start + ee - es)) (slice W es ee)) eqn:E1.
    - destruct (rec (start + ee - es) c) as [c'|e] eqn:Er; cbn [bind].
      + exists [], es, ee, c, cs, c', (start + ee - es). auto.
      + right. left. exists es, ee, c, (start + ee - es). split; [left; auto|auto].
    - destruct (of_option IndexError (nth_error W es)) as [x|e] eqn:Ex; cbn [bind]; [|auto].
      destruct (of_option IndexError (nth_error W start)) as [y|e] eqn:Ey; cbn [bind]; [|auto].
      destruct (eqb x y).
      + destruct (split_edge W next start es ee c) as [nn|e] eqn:Es; cbn [bind].
        * exists [], es, ee, c, cs. auto.
        * right. right. exists es, ee, c. split; [left; auto|auto].
      + specialize (IH (fun c Hc => He c (or_intror Hc))). fold (insert_children rec W next start). fold (visit_children hrec W h start k).
        destruct (insert_children rec W next start cs) as [o|e]; cbn [bind].
        * destruct o as [|cs'|cs' nn].
          -- exact IH.
          -- destruct IH as (l1 & es' & ee' & c1 & l2 & c' & st & -> & -> & E2 & E3). exists (((es, ee), c) :: l1), es', ee', c1, l2, c', st. auto.
          -- destruct IH as (l1 & es' & ee' & c1 & l2 & -> & -> & E2 & E3). exists (((es, ee), c) :: l1), es', ee', c1, l2. auto.
        * destruct IH as [IH|[(es' & ee' & c1 & st & Hi & E2 & E3)|(es' & ee' & c1 & Hi & E2 & E3)]]; [auto| |].
          -- right. left. exists es', ee', c1, st. split; [right; auto|auto].
          -- right. right. exists es', ee', c1. split; [right; auto|auto].
  Qed.

  Lemma table_node par k cs : table par (Node k cs) = (k, Object par k (map (fun c => num (snd c)) cs)) :: flat_map (fun c => table (Some k) (snd c)) cs.
  Proof. reflexivity. Qed.
  Lemma tedges_node k cs : tedges (Node k cs) = flat_map (fun c => ((k, num (snd c)), fst c) :: tedges (snd c)) cs.
  Proof. reflexivity. Qed.
  Lemma table_num par t : exists g, In (num t, Object par (num t) g) (table par t) /\ exists r, table par t = (num t, Object par (num t) g) :: r.
  Proof. destruct t as [k cs]. cbn [num]. rewrite table_node. eexists. split; [left; reflexivity|eauto]. Qed.
  Lemma size_child k cs c : In c cs -> size (snd c) < size (Node k cs).
  Proof.
    intros Hc. cbn [size]. induction cs as [|x cs IH]; [destruct Hc|]. cbn [map list_sum fold_right]. change (fold_right Nat.add 0) with list_sum. destruct Hc as [->|Hc]; [lia|]. specialize (IH Hc). lia.
  Qed.

  Lemma insert_objects next h : forall t par start fuel, has h (table par t) -> has_edges h (tedges t) -> size t <= fuel ->
    match insert W next start t with
    | Ok t' => num t' = num t /\ exists pos, insert_position fuel W h start (num t) = Ok pos /\ change next pos (table par t) (table par t') (tedges t) (tedges t')
    | Err e => insert_position fuel W h start (num t) = Err e \/ exists c st, insert_position fuel W h start (num t) = Ok (c, st, true) /\ cannot_cut h c st e
    end.
  Proof.
    induction t as [k cs IH] using tree_ind'. intros par start fuel Hh He Hs. rewrite Forall_forall in IH.
    destruct fuel as [|fuel]; [cbn [size] in Hs; lia|].
    cbn [insert num insert_position]. unfold object_at. rewrite (Hh k (Object par k (map (fun c => num (snd c)) cs))) by (rewrite table_node; left; auto). cbn [of_option bind children].
    set (rec := fun st c => insert W next st c). set (hrec := fun start c => insert_position fuel W h start c).
    assert (Hc : forall c, In c cs -> has h (table (Some k) (snd c)) /\ has_edges h (tedges (snd c)) /\ size (snd c) <= fuel /\ dict_get (k, num (snd c)) (edges h) = Some (fst c)).
    { intros c Hc. split; [|split; [|split]].
      - intros a o Ha. apply Hh. rewrite table_node. right. apply in_flat_map. eauto.
      - intros a o Ha. apply He. rewrite tedges_node. apply in_flat_map. exists c. split; [auto|right; auto].
      - pose proof (size_child k cs c Hc). lia.
      - apply He. rewrite tedges_node. apply in_flat_map. exists c. split; [auto|left; auto]. }
    assert (V := visit_ok rec hrec next start h k cs (fun c i => proj2 (proj2 (proj2 (Hc c i))))).
    destruct (insert_children rec W next start cs) as [[|cs'|cs' nn]|e]; cbn [bind].
    - split; [reflexivity|]. eexists. split; [exact V|]. cbn [change]. exists par, (map (fun c => num (snd c)) cs). rewrite !table_node, !tedges_node, !map_app, !flat_map_app. cbn [map flat_map snd num fst table tedges app]. split.
      + exists (flat_map (fun c => table (Some k) (snd c)) cs). split; [reflexivity|]. cbn [app]. apply perm_skip. symmetry. apply Permutation_cons_append.
      + exists (flat_map (fun c => ((k, num (snd c)), fst c) :: tedges (snd c)) cs). split; [reflexivity|]. cbn [app]. symmetry. apply Permutation_cons_append.
    - destruct V as (l1 & es & ee & c & l2 & c' & st & -> & -> & Er & Ev). split; [reflexivity|].
      destruct (Hc ((es, ee), c)) as (H1 & H2 & H3 & _); [apply in_or_app; right; left; auto|].
      specialize (IH ((es, ee), c) ltac:(apply in_or_app; right; left; reflexivity) (Some k) st fuel H1 H2 H3). cbn [snd] in IH. unfold rec in Er. rewrite Er in IH. destruct IH as (En & pos & Ep & Ch).
      exists pos. split; [rewrite Ev; exact Ep|]. rewrite !table_node, !tedges_node, !map_app, !flat_map_app. cbn [map flat_map snd num fst]. rewrite En.
      assert (F1 : forall z z', swap z z' (table (Some k) c) (table (Some k) c') ->
         swap z z' ((k, Object par k (map (fun c0 => num (snd c0)) l1 ++ num c :: map (fun c0 => num (snd c0)) l2)) :: flat_map (fun c0 => table (Some k) (snd c0)) l1 ++ table (Some k) c ++ flat_map (fun c0 => table (Some k) (snd c0)) l2)
                   ((k, Object par k (map (fun c0 => num (snd c0)) l1 ++ num c :: map (fun c0 => num (snd c0)) l2)) :: flat_map (fun c0 => table (Some k) (snd c0)) l1 ++ table (Some k) c' ++ flat_map (fun c0 => table (Some k) (snd c0)) l2)).
      { intros z z' S. apply swap_cons, swap_frame, S. }
      assert (F2 : forall z z', swap z z' (tedges c) (tedges c') -> forall x a b, swap z z' (a ++ (x :: tedges c) ++ b) (a ++ (x :: tedges c') ++ b)).
      { intros z z' S x a b. apply swap_frame, swap_cons, S. }
      destruct pos as [[p0 st0] [|]]; cbn [change] in *.
      + destruct Ch as (p & q & m1 & m2 & g & ps & pe & len & El & S1 & S2). exists p, q, m1, m2, g, ps, pe, len. split; [auto|]. split; [apply F1, S1|]. apply F2, S2.
      + destruct Ch as (q & ch & S1 & S2). exists q, ch. split; [apply F1, S1|apply F2, S2].
    - destruct V as (l1 & es & ee & c & l2 & -> & -> & Es & Ev). split; [reflexivity|]. eexists. split; [exact Ev|]. cbn [change].
      unfold split_edge in Es. destruct (insert_len (n + 1) W start es 0) as [len|] eqn:El; cbn [bind] in Es; [|discriminate]. injection Es as <-.
      destruct c as [kc cc]. cbn [num].
      exists k, par, (map (fun c => num (snd c)) l1), (map (fun c => num (snd c)) l2), (map (fun c => num (snd c)) cc), es, ee, len. split; [auto|].
      rewrite !table_node, !tedges_node, !map_app, !flat_map_app. cbn [map flat_map snd num fst table tedges app]. rewrite ?app_nil_r. split.
      + exists (flat_map (fun c => table (Some k) (snd c)) l1 ++ flat_map (fun c => table (Some kc) (snd c)) cc ++ flat_map (fun c => table (Some k) (snd c)) l2). split.
        * cbn [app]. apply perm_skip. symmetry. apply Permutation_middle.
        * cbn [app]. rewrite <- !app_assoc. apply perm_skip.
          apply pick1.
      + exists (flat_map (fun c => ((k, num (snd c)), fst c) :: tedges (snd c)) l1 ++ flat_map (fun c => ((kc, num (snd c)), fst c) :: tedges (snd c)) cc ++ flat_map (fun c => ((k, num (snd c)), fst c) :: tedges (snd c)) l2). split.
        * cbn [app]. symmetry. apply Permutation_middle.
        * cbn [app]. rewrite <- !app_assoc. apply pick2.
    - destruct V as [V|[(es & ee & c & st & Hi & Er & Ev)|(es & ee & c & Hi & Es & Ev)]].
      + left. exact V.
      + destruct (Hc _ Hi) as (H1 & H2 & H3 & _). specialize (IH _ Hi (Some k) st fuel H1 H2 H3). cbn [snd] in IH. unfold rec in Er. rewrite Er in IH. rewrite Ev. exact IH.
      + right. exists (num c), start. split; [exact Ev|]. destruct (Hc _ Hi) as (H1 & H2 & _ & H4). cbn [snd fst] in *. destruct (table_num (Some k) c) as (g & Ig & _).
        exists k, (Object (Some k) (num c) g), es, ee. split; [apply H1; auto|]. split; [auto|]. split; [auto|].
        unfold split_edge in Es. destruct (insert_len (n + 1) W start es 0) as [len|]; cbn [bind] in Es; [discriminate|congruence].
  Qed.
End S.
