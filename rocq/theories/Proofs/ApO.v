(** Activity patterns, part 14: the invariant of all patterns *)
From Coq Require Import String Ascii ZArith Permutation.
From Verif.Model Require Import Base PetriNet ActivityPattern.
From Verif.Spec Require Import PetriSpec ActivityPatternSpec.
From Verif.Lib Require Import ListLib DictLib.
From Verif.Proofs Require Import PetriA PetriC PetriD PetriH ApA ApB ApC ApD ApE ApF ApG ApS ApH ApI ApJ ApN.
Open Scope string_scope.
Open Scope list_scope.
Open Scope nat_scope.

Ltac both a b Ga Gb HO st0 K :=
  let s1 := fresh in let S1 := fresh in let e1 := fresh in let E1 := fresh in let s2 := fresh in let S2 := fresh in let e2 := fresh in let E2 := fresh in
  let C := fresh "C" in let F := fresh "F" in
  destruct (complete_dec a Ga) as [[[s1 S1] [e1 E1]]|C];
    [|destruct (composition_fails _ st0 a b HO Ga Gb) as (? & ? & ? & ?); [unfold complete; intros [[[? ?] [? ?]] _]; destruct C as [C|C]; eapply C; eauto|congruence]];
  destruct (complete_dec b Gb) as [[[s2 S2] [e2 E2]]|C];
    [|destruct (composition_fails _ st0 a b HO Ga Gb) as (? & ? & ? & ?); [unfold complete; intros [_ [[? ?] [? ?]]]; destruct C as [C|C]; eapply C; eauto|congruence]];
  destruct (K _ st0 a b s1 e1 s2 e2 HO Ga Gb S1 E1 S2 E2) as [[F _]|(? & ? & F & ? & _)]; [congruence|].

Lemma made_good p : made p -> good p.
Proof.
  induction 1.
  - eapply new_good; eauto. apply built_wf; auto.
  - eapply copy_good; eauto.
  - both a b IHmade1 IHmade2 H1 st sequence_case. match goal with W : works ?q |- good p => assert (q = p) by congruence; subst; apply W end.
  - both a b IHmade1 IHmade2 H1 st choice_case. match goal with W : works ?q |- good p => assert (q = p) by congruence; subst; apply W end.
  - both a b IHmade1 IHmade2 H1 st parallel_case. match goal with W : works ?q |- good p => assert (q = p) by congruence; subst; apply W end.
  - both a b IHmade1 IHmade2 H1 st interleaving_case. match goal with W : works ?q |- good p => assert (q = p) by congruence; subst; apply W end.
  - destruct (complete_dec a IHmade) as [[[? ?] [? ?]]|C].
    + edestruct (repetition_case ord st a) as (? & ? & F & W & _); eauto. assert (x1 = p) by congruence. subst. apply W.
    + rewrite repetition_fails in H1; auto; [discriminate|]. unfold complete. intros [[? ?] [? ?]]. destruct C as [C|C]; eapply C; eauto.
  - assert (G : Forall good l) by (apply Forall_forall; auto). assert (U : Forall unquoted l) by (apply Forall_forall; auto).
    assert (Cd : Forall complete l \/ ~ Forall complete l).
    { clear - G. induction G as [|a l Ga G IH]; [left; constructor|]. destruct (complete_dec a Ga) as [Ca|Na].
      - destruct IH as [IH|IH]; [left; constructor; auto|right]. intros Q. inversion Q; auto.
      - right. intros Q. inversion Q as [|? ? Ca _]; subst. destruct Ca as [[? ?] [? ?]]. destruct Na as [Na|Na]; eapply Na; eauto. }
    destruct Cd as [C|C].
    + destruct l as [|a l]; [cbn in H3; discriminate|].
      destruct (choice_list_case ord st (a :: l) H2 G C U) as [[F _]|(p' & st'' & F & W & _)]; [discriminate|congruence|]. assert (p' = p) by congruence. subst. apply W.
    + destruct (choice_list_parts ord st l H2 G) as (_ & _ & _ & _ & _ & _ & _ & F). rewrite (F C) in H3. discriminate.
Qed.
