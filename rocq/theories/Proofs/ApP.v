(** Activity patterns, part 16: choices of a list *)
From Coq Require Import String Ascii ZArith Permutation.
From Verif.Model Require Import Base PetriNet ActivityPattern.
From Verif.Spec Require Import PetriSpec ActivityPatternSpec.
From Verif.Lib Require Import ListLib DictLib.
From Verif.Proofs Require Import PetriA PetriC PetriD PetriH ApA ApC ApH ApI ApJ ApN ApO ApK ApL ApM.
Open Scope string_scope.
Open Scope list_scope.
Open Scope nat_scope.

(** joined ids *)
Lemma join_cons x y l : String.concat "," (x :: y :: l) = (x ++ "," ++ String.concat "," (y :: l))%string.
Proof. reflexivity. Qed.
Lemma string_assoc (a b c : string) : ((a ++ b) ++ c = a ++ b ++ c)%string.
Proof. induction a as [|x a IH]; cbn; [auto|]. f_equal. auto. Qed.
Lemma join_snoc l p : l <> [] -> (String.concat "," l ++ "," ++ p)%string = String.concat "," (l ++ [p]).
Proof.
  induction l as [|x [|y l] IH]; intros H; [congruence|reflexivity|]. rewrite join_cons. cbn [app]. rewrite join_cons.
  rewrite !string_assoc. rewrite IH; [reflexivity|discriminate].
Qed.
Lemma join_inj : forall l m, l <> [] -> m <> [] -> Forall no_comma l -> Forall no_comma m -> String.concat "," l = String.concat "," m -> l = m.
Proof.
  induction l as [|x l IH]; intros m H1 H2 F1 F2 E; [congruence|]. destruct m as [|y m]; [congruence|]. inversion F1 as [|? ? Nx F1']; subst. inversion F2 as [|? ? Ny F2']; subst.
  destruct l as [|x' l], m as [|y' m].
  - cbn in E. congruence.
  - rewrite join_cons in E. exfalso. cbn [String.concat] in E. rewrite E in Nx. apply (comma_app _ _ Nx).
  - rewrite join_cons in E. exfalso. cbn [String.concat] in E. rewrite <- E in Ny. apply (comma_app _ _ Ny).
  - rewrite !join_cons in E. apply split_comma in E; auto. destruct E as [-> E]. f_equal. apply IH; auto; discriminate.
Qed.
Lemma join_comma x y l : ~ no_comma (String.concat "," (x :: y :: l)).
Proof. rewrite join_cons. apply comma_app. Qed.

(*P C99 Choices of a list of activity patterns *)
(** The choice of no pattern or of a single pattern fails with a ValueError, and
    a choice with a pattern without source or sink with a KeyError. *)
Lemma C99_errors : forall ord st, any_order ord ->
  choice_list ord st [] = Err ValueError /\
  (forall a, made a -> complete a -> unquoted a -> choice_list ord st [a] = Err ValueError) /\
  (forall l, (forall a, In a l -> made a) -> (exists a, In a l /\ ~ complete a) -> choice_list ord st l = Err KeyError).
Proof.
  intros ord st HO. split; [reflexivity|]. split.
  - intros a Ma Ca Ua. pose proof (made_good _ Ma) as Ga.
    destruct (choice_list_case ord st [a] HO) as [[E _]|(p & st' & _ & _ & N & _)]; auto; try discriminate. exfalso. apply (N a). auto.
  - intros l Ml (a & Ha & Na).
    destruct (choice_list_parts ord st l HO) as (_ & _ & _ & _ & _ & _ & _ & E); [apply Forall_forall; intros; apply made_good; auto|].
    apply E. intros F. rewrite Forall_forall in F. apply Na, F, Ha.
Qed.
(** Otherwise the result is a workflow net with source and sink, or the joined
    ids clash and there is a ValueError. *)
Lemma C99_result : forall ord st l, any_order ord -> (forall a, In a l -> made a /\ complete a /\ unquoted a) ->
  choice_list ord st l = Err ValueError \/
  exists p st', choice_list ord st l = Ok (p, st') /\ 2 <= length l /\ made p /\ complete p /\ is_workflow_net (pnet p) = true.
Proof.
  intros ord st l HO H. destruct l as [|a l]; [left; reflexivity|].
  destruct (choice_list_case ord st (a :: l) HO) as [[E _]|(p & st' & E & W & N & _)]; try (apply Forall_forall; intros; apply H || (apply made_good; apply H); auto); [discriminate|auto|].
  right. exists p, st'. split; [auto|]. split.
  - destruct l as [|b l]; [exfalso; apply (N a); auto|cbn; lia].
  - assert (M : made p) by (apply (m_choice_list ord st (a :: l) p st'); auto; intros; apply H; auto).
    split; [auto|]. assert (Q : is_workflow_net (pnet p) = true) by apply W. split; [apply (C95_made _ M); auto|auto].
Qed.
(** Two or more patterns without commas in their ids can be joined. *)
Lemma C99_plain : forall ord st l, any_order ord -> (forall a, In a l -> made a /\ complete a /\ unquoted a /\ plain a) -> 2 <= length l ->
  exists p st', choice_list ord st l = Ok (p, st').
Proof.
  intros ord st l HO H L. assert (NE : l <> []) by (intros ->; cbn in L; lia).
  destruct (choice_list_case ord st l HO) as [[E C]|(p & st' & E & _)]; [apply Forall_forall; intros; apply made_good; apply H; auto|apply Forall_forall; intros; apply H; auto|apply Forall_forall; intros; apply H; auto|auto| |eauto].
  exfalso. destruct C as (ss & es & Ls & Le & ND & HP & C). cbv zeta in C.
  assert (Np : forall x, list_place l x -> no_comma x) by (intros x (a & u & k & Ha & Hu & ->); apply no_comma_quoted; apply (H a Ha); left; auto).
  assert (Nt : forall x, list_trans l x -> no_comma x) by (intros x (a & u & k & Ha & Hu & ->); apply no_comma_quoted; apply (H a Ha); right; auto).
  assert (Fs : Forall no_comma ss) by (apply Forall_forall; intros x Hx; apply Np, HP, in_app_iff; auto).
  assert (Fe : Forall no_comma es) by (apply Forall_forall; intros x Hx; apply Np, HP, in_app_iff; auto).
  destruct ss as [|s1 [|s2 ss]]; try (cbn in Ls; lia). destruct es as [|e1 [|e2 es]]; try (cbn in Le; lia).
  destruct C as [C|[C|[C|[(p & Hp & C)|[(p & Hp & C)|(p & q & Hp & Hq & C)]]]]].
  - apply Np in C. apply (join_comma _ _ _ C).
  - apply Np in C. apply (join_comma _ _ _ C).
  - apply join_inj in C; auto; try discriminate. inversion ND as [|? ? Q _]; subst. apply Q. right. apply in_app_iff. right. left. congruence.
  - apply Nt in C. apply (comma_app _ _ C).
  - apply Nt in C. apply (comma_app _ _ C).
  - rewrite join_snoc in C by discriminate. replace (q ++ "," ++ String.concat "," (e1 :: e2 :: es))%string with (String.concat "," (q :: e1 :: e2 :: es)) in C by reflexivity.
    apply join_inj in C; try discriminate.
    + cbn [app] in C. injection C as -> _. inversion ND as [|? ? Q _]; subst. apply Q. right. apply in_app_iff. right. auto.
    + apply Forall_app. split; [auto|]. constructor; [|constructor]. rewrite Forall_forall in Fs. apply Fs. auto.
    + constructor; [|auto]. rewrite Forall_forall in Fe. apply Fe. auto.
Qed.
(** The words of the result are the words of the patterns, and it ends clean if
    they all do. *)
Lemma C99_words : forall ord st l p st', any_order ord -> (forall a, In a l -> made a /\ unquoted a /\ connected (pnet a)) ->
  choice_list ord st l = Ok (p, st') ->
  connected (pnet p) /\
  (forall st w, speaks st p w <-> exists a, In a l /\ speaks st a w) /\
  (forall st, (forall a, In a l -> ends_clean st a) -> ends_clean st p).
Proof.
  intros ord st l p st' HO H E.
  assert (G : Forall good l) by (apply Forall_forall; intros; apply made_good; apply H; auto).
  assert (C : Forall complete l).
  { apply Forall_forall. intros a Ha. destruct (complete_dec a) as [C|C]; [apply made_good; apply H; auto|auto|]. exfalso.
    destruct (choice_list_parts ord st l HO G) as (_ & _ & _ & _ & _ & _ & _ & F). rewrite F in E; [discriminate|].
    intros Q. rewrite Forall_forall in Q. destruct (Q a Ha) as [[i Hi] [o Ho]]. destruct C as [C|C]; eapply C; eauto. }
  destruct (choice_list_case ord st l HO G C) as [[F _]|(p' & st'' & F & _ & _ & R)]; [apply Forall_forall; intros; apply H; auto|intros ->; cbn in E; discriminate|congruence|].
  assert (p' = p) by congruence. subst p'. destruct R as (R1 & R2 & R3); [apply Forall_forall; intros; apply H; auto|].
  split; [auto|]. split; [auto|]. intros st0 Q. apply R2. apply Forall_forall. auto.
Qed.
(** Without the condition that no place id is another one with apostrophes, the
    choice of a pattern and a repetition of a pattern with the same ids can fail,
    since the new ids are given out place by place. *)
Lemma C99_repetition_witness : exists a b p st, made a /\ made b /\ plain a /\ plain b /\
  unbounded_repetition in_order [] b = Ok (p, st) /\ made p /\ complete a /\ complete p /\
  choice_list in_order st [a; p] = Err ValueError /\ exists q st', choice in_order st a p = Ok (q, st').
Proof.
  exists (single_activity "a"), (single_activity "b").
  assert (Ma : made (single_activity "a")) by (apply pattern_of_made; vm_compute; auto).
  assert (Mb : made (single_activity "b")) by (apply pattern_of_made; vm_compute; auto).
  assert (Ca : complete (single_activity "a")) by (apply (C95_made _ Ma); vm_compute; auto).
  destruct (unbounded_repetition in_order [] (single_activity "b")) as [[p st]|] eqn:E; [|vm_compute in E; discriminate].
  exists p, st. assert (Mp : made p) by (exact (m_repetition in_order [] _ _ _ Mb any_in_order E)).
  split; [auto|]. split; [auto|]. split.
  { intros id H. vm_compute in H. intros Q. decompose [or] H; subst; vm_compute in Q; intuition discriminate. }
  split.
  { intros id H. vm_compute in H. intros Q. decompose [or] H; subst; vm_compute in Q; intuition discriminate. }
  split; [auto|]. split; [auto|]. split; [auto|].
  vm_compute in E. injection E as <- <-. split; [apply (C95_made _ Mp); vm_compute; auto|]. split; [vm_compute; reflexivity|].
  do 2 eexists. vm_compute. reflexivity.
Qed.
(** the place m' lies between the place m and the sink *)
Definition ticked : pattern := pattern_of [AddP "s" 0; AddP "m" 0; AddP "m'" 0; AddP "e" 0; AddT "c"; AddT "d"; AddT "f"; Conn "s" "c" "m"; Conn "m" "d" "m'"; Conn "m'" "f" "e"] "n".
(** It can also succeed with a net in which transitions lead to and from a place
    that the net does not have. *)
Lemma C99_lost_place_witness : exists a b p st', made a /\ made b /\ complete a /\ complete b /\
  choice_list in_order [] [a; b] = Ok (p, st') /\
  exists q t u, In q (ends (pnet p) t) /\ In q (starts (pnet p) u) /\ ~ has_place (pnet p) q.
Proof.
  exists (two_steps "a" "b"), ticked.
  assert (Ma : made (two_steps "a" "b")) by (apply pattern_of_made; vm_compute; auto).
  assert (Mb : made ticked) by (apply pattern_of_made; vm_compute; auto).
  destruct (choice_list in_order [] [two_steps "a" "b"; ticked]) as [[p st]|] eqn:E; [|vm_compute in E; discriminate].
  exists p, st. split; [auto|]. split; [auto|]. split; [apply (C95_made _ Ma); vm_compute; auto|]. split; [apply (C95_made _ Mb); vm_compute; auto|]. split; [auto|].
  vm_compute in E. injection E as <- <-. exists "m''", "d", "f". split; [vm_compute; auto|]. split; [vm_compute; auto|].
  intros H. vm_compute in H. decompose [or] H; discriminate || contradiction.
Qed.
Lemma single_clean st x : In x ["a"; "b"; "c"] -> ends_clean st (single_activity x).
Proof.
  intros Hx o M Ho (i & l & Hi & R) Hm q.
  assert (Md : made (single_activity x)) by (apply pattern_of_made; destruct Hx as [<-|[<-|[<-|[]]]]; vm_compute; auto).
  assert (S : source (pnet (single_activity x)) "s" /\ sink (pnet (single_activity x)) "e") by (apply works_ends; auto; destruct Hx as [<-|[<-|[<-|[]]]]; vm_compute; auto).
  destruct S as [So Si]. assert (i = "s") by (apply (g_src _ (made_good _ Md)); auto). assert (o = "e") by (apply (g_snk _ (made_good _ Md)); auto). subst i o.
  assert (T : forall t, has_transition (pnet (single_activity x)) t -> t = x) by (intros t Ht; destruct Hx as [<-|[<-|[<-|[]]]]; vm_compute in Ht; destruct Ht as [<-|[]]; auto).
  assert (T1 : In "s" (starts (pnet (single_activity x)) x)) by (destruct Hx as [<-|[<-|[<-|[]]]]; vm_compute; auto).
  assert (T2 : map (effect (pnet (single_activity x)) x) ["s"; "e"] = [-1; 1]%Z) by (destruct Hx as [<-|[<-|[<-|[]]]]; vm_compute; auto).
  assert (K : forall p, has_place (pnet (single_activity x)) p -> p = "s" \/ p = "e") by (intros p Hp; destruct Hx as [<-|[<-|[<-|[]]]]; vm_compute in Hp; destruct Hp as [<-|[<-|[]]]; auto).
  assert (Z : ~ has_place (pnet (single_activity x)) q -> M q = 0%Z).
  { intros N. rewrite (run_tokens _ _ _ _ _ q R). rewrite (sum_ext _ (fun _ => 0%Z)); [|intros t _; apply effect_no_place; [apply (made_good _ Md)|auto]]. rewrite sum_0.
    rewrite one_at_other; [auto|]. intros ->; apply N. apply source_place; auto; apply (made_good _ Md). }
  cbn [map] in T2. injection T2 as A1 A2.
  assert (O1 : one_at "s" "s" = 1%Z) by reflexivity. assert (O3 : one_at "s" "e" = 0%Z) by reflexivity.
  destruct l as [|t l]; [pose proof (run_nil_inv _ _ _ _ R "e"); lia|].
  apply run_cons_inv in R. destruct R as (M1 & F & R). apply fires_from in F. destruct F as (F1 & F2 & F3). apply T in F1. subst t.
  pose proof (F3 "s") as G1. pose proof (F3 "e") as G3.
  destruct l as [|t l].
  - pose proof (run_nil_inv _ _ _ _ R "s") as B1. pose proof (run_nil_inv _ _ _ _ R "e") as B2.
    destruct (in_dec string_dec q (keys (places (pnet (single_activity x))))) as [Hq|Hq].
    + destruct (K q Hq) as [-> | ->]; [replace (one_at "e" "s") with 0%Z by reflexivity|replace (one_at "e" "e") with 1%Z by reflexivity]; lia.
    + rewrite (Z Hq), one_at_other; [auto|]. intros ->. apply Hq. apply sink_place; auto; apply (made_good _ Md).
  - apply run_cons_inv in R. destruct R as (M2 & F & _). apply fires_from in F. destruct F as (F4 & F5 & _). apply T in F4. subst t. specialize (F5 "s" T1). lia.
Qed.
Lemma single_unquoted x : In x ["a"; "b"; "c"] -> unquoted (single_activity x).
Proof.
  intros Hx p k H Q. assert (J : forall y, has_place (pnet (single_activity x)) y -> String.length y = 1) by (intros y Hy; destruct Hx as [<-|[<-|[<-|[]]]]; vm_compute in Hy; destruct Hy as [<-|[<-|[]]]; auto).
  apply J in H, Q. rewrite quoted_length in Q. lia.
Qed.
