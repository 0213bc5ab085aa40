(** Properties C87 and C88: discretization of numerical attributes *)
From Coq Require Import String ZArith QArith Qcanon Permutation Sorted.
From Verif.Model Require Import Base Sort Dataset Discretization.
From Verif.Spec Require Import DatasetSpec QuantileSpec.
From Verif.Proofs Require Quantiles.
Open Scope string_scope.
Open Scope list_scope.
Open Scope nat_scope.
(** five instances with the values 1, 2, 4, 8, 8 *)
Definition q (z : Z) : val := Num (of_Z z).
Definition ex_h : heap nat val unit :=
  map (fun '(i, v) => {| iid := i; feats := [("colour", Txt "red"); ("x", q v)]; target := tt |}) [(0, 1%Z); (1, 8%Z); (2, 4%Z); (3, 2%Z); (4, 8%Z)].
Definition ex_d : dataset val :=
  match foldM (add_instance ex_h) [0; 1; 2; 3; 4] (new ["colour"] ["x"]) with Ok d => d | Err _ => new [] [] end.
Definition ex_it := [4; 3; 2; 1; 0].
Example ex_history : history true ex_h ex_d.
Proof.
  assert (P : proper ex_h).
  { intros a x E. do 5 (destruct a as [|a]; [injection E as <-; repeat constructor; cbn; intuition discriminate|]).
    destruct a; discriminate. }
  eapply (hist_add true ex_h _ 4); [eapply (hist_add true ex_h _ 3); [eapply (hist_add true ex_h _ 2);
    [eapply (hist_add true ex_h _ 1); [eapply (hist_add true ex_h _ 0)|]|]|]|];
    [apply (hist_new true ex_h ["colour"] ["x"])| | | | |]; try (vm_compute; reflexivity); auto.
  intros _. repeat constructor; cbn; intuition discriminate.
Qed.
Example ex_order : Permutation ex_it (insts ex_d).
Proof. change (insts ex_d) with (rev ex_it). apply Permutation_rev. Qed.
Example ex_numbers : forall a n v, In a (insts ex_d) -> kind_of ex_d n = Some Numerical -> value ex_h a n = Some v -> exists q, v = Num q.
Proof.
  intros a n v Ha Hk Ev. assert (n = "x").
  { unfold kind_of in Hk. change (attrs ex_d) with [("colour", {| akind := Categorical; auniq := [Txt "red"] |}); ("x", {| akind := Numerical; auniq := [q 1; q 8; q 4; q 2] |})] in Hk.
    cbn [dict_get] in Hk. destruct (eqb_ok n "colour"); [discriminate|]. destruct (eqb_ok n "x"); [auto|discriminate]. }
  subst n. change (insts ex_d) with [0; 1; 2; 3; 4] in Ha. cbn in Ha. intuition; subst a; injection Ev as <-; eexists; reflexivity.
Qed.
Definition ex_show (x : Qc) : string :=
  if eqb x (of_Z 1) then "1" else if eqb x (of_Z 2) then "2" else if eqb x (of_Z 4) then "4" else if eqb x (of_Z 8) then "8" else "?".
Definition shown (r : result (heap nat val unit * dataset val)) : result (list (option val)) :=
  do (h, d) <- r ; Ok (map (fun a => value h a "x") [0; 1; 2; 3; 4]).

(** C87: Quantile based discretization *)
(** All numerical attributes become categorical, everything else is unchanged.
    If there are more than nr_of_bins different values, the new value is the
    text of the interval the old one lies in; the inner bounds of the intervals
    are the (ascending) quantiles.  Otherwise it is the text of the old value. *)
Theorem C87_discretization : forall (I T : Type) (EI : Base.Eq I) (show : Qc -> string) (bins : nat) (h : heap I val T) (d : dataset val) it,
  history true h d -> Permutation it (insts d) -> 2 <= bins ->
  (forall a n v, In a (insts d) -> kind_of d n = Some Numerical -> value h a n = Some v -> exists q, v = Num q) ->
  exists h' d', discretize show (Z.of_nat bins) it h d = Ok (h', d') /\
    history true h' d' /\ insts d' = insts d /\ only_features d h h' /\
    (forall n, kind_of d' n = option_map (fun _ => Categorical) (kind_of d n)) /\
    (forall a n, In a (insts d) -> kind_of d n = Some Categorical -> value h' a n = value h a n) /\
    (forall n us, kind_of d n = Some Numerical -> uniques d n = Some us ->
       (length us <= bins -> printed show h h' d n) /\ (bins < length us -> binned show bins h h' d n)).
Proof. exact @Quantiles.C87_discretization. Qed.
Print Assumptions C87_discretization.
(** A value lies in only one of the intervals. *)
Theorem C87_one_interval : forall (show : Qc -> string) mn mx cuts v l l',
  StronglySorted (fun x y => (x <= y)%Qc) cuts ->
  interval_text show mn mx cuts v l -> interval_text show mn mx cuts v l' -> l = l'.
Proof. exact @Quantiles.C87_one_interval. Qed.
Print Assumptions C87_one_interval.
(** A single bin (or none, or a negative number) is an error as soon as an
    attribute has more different values. *)
Theorem C87_undefined : forall (I T : Type) (EI : Base.Eq I) (show : Qc -> string) (bins : Z) (h : heap I val T) (d : dataset val) it n us,
  history true h d -> Permutation it (insts d) ->
  (forall a n v, In a (insts d) -> kind_of d n = Some Numerical -> value h a n = Some v -> exists q, v = Num q) ->
  kind_of d n = Some Numerical -> uniques d n = Some us -> (bins < Z.of_nat (length us))%Z ->
  (bins = 1%Z -> discretize show bins it h d = Err IndexError) /\
  ((bins < 1)%Z -> discretize show bins it h d = Err ValueError).
Proof. exact @Quantiles.C87_undefined. Qed.
Print Assumptions C87_undefined.
Example C87_example :
  (shown (discretize ex_show 2 ex_it ex_h ex_d), shown (discretize ex_show 4 ex_it ex_h ex_d),
   shown (discretize ex_show 1 ex_it ex_h ex_d), shown (discretize ex_show 0 ex_it ex_h ex_d)) =
  (Ok [Some (Txt "[1, 4]"); Some (Txt "(4, 8]"); Some (Txt "[1, 4]"); Some (Txt "[1, 4]"); Some (Txt "(4, 8]")],
   Ok [Some (Txt "1"); Some (Txt "8"); Some (Txt "4"); Some (Txt "2"); Some (Txt "8")],
   Err IndexError, Err ValueError).
Proof. vm_compute. reflexivity. Qed.
(** the third of the quartiles of 0, 1, 10, 20 lies at position 9/4, a quarter
    of the way from 10 to 20 *)
Example C87_example_cuts :
  quantiles [of_Z 20; of_Z 1; of_Z 0; of_Z 10] 4 = Ok [(of_Z 3 / of_Z 4)%Qc; (of_Z 11 / of_Z 2)%Qc; (of_Z 25 / of_Z 2)%Qc] /\
  cut_point [of_Z 0; of_Z 1; of_Z 10; of_Z 20] 4 3 (of_Z 25 / of_Z 2)%Qc.
Proof.
  split.
  - match goal with |- ?x = _ => let y := eval vm_compute in x in change x with y end.
    repeat (f_equal; try (apply Qc_is_canon; reflexivity)).
  - exists 2, (of_Z 10), (of_Z 20). split; [reflexivity|]. split; [reflexivity|]. split; [cbn; lia|]. apply Qc_is_canon. reflexivity.
Qed.

(** C88: Discretization with trained bins *)
(** All numerical attributes become categorical, everything else is unchanged.
    The new value is the text of the first bin that contains the old one; a
    value in no bin - above all bins, below all bins or in a gap - gets the
    text of the last bin. *)
Theorem C88_trained_bins : forall (I T : Type) (EI : Base.Eq I) (bins : dict string (list (Qc * Qc * string))) (h : heap I val T) (d : dataset val) it,
  history true h d -> Permutation it (insts d) ->
  (forall n, kind_of d n = Some Numerical -> exists b, dict_get n bins = Some b /\ b <> []) ->
  (forall a n v, In a (insts d) -> kind_of d n = Some Numerical -> value h a n = Some v -> exists q, v = Num q) ->
  exists h' d', discretize_trained bins it h d = Ok (h', d') /\
    history true h' d' /\ insts d' = insts d /\ only_features d h h' /\
    (forall n, kind_of d' n = option_map (fun _ => Categorical) (kind_of d n)) /\
    (forall a n, In a (insts d) -> kind_of d n = Some Categorical -> value h' a n = value h a n) /\
    (forall n b, kind_of d n = Some Numerical -> dict_get n bins = Some b -> in_bins b h h' d n).
Proof. exact @Quantiles.C88_trained_bins. Qed.
Print Assumptions C88_trained_bins.
(** A numerical attribute that was not trained is a KeyError, if the others
    can be transformed. *)
Theorem C88_untrained : forall (I T : Type) (EI : Base.Eq I) (bins : dict string (list (Qc * Qc * string))) (h : heap I val T) (d : dataset val) it n,
  history true h d -> Permutation it (insts d) ->
  kind_of d n = Some Numerical -> dict_get n bins = None ->
  (forall m b, kind_of d m = Some Numerical -> dict_get m bins = Some b -> b <> []) ->
  (forall a n v, In a (insts d) -> kind_of d n = Some Numerical -> value h a n = Some v -> exists q, v = Num q) ->
  discretize_trained bins it h d = Err KeyError.
Proof. exact @Quantiles.C88_untrained. Qed.
Print Assumptions C88_untrained.
(** the trained bins are (2, 4] and (4, 6]; the value 1 lies below both and is
    labelled like the greatest ones *)
Definition ex_bins : dict string (list (Qc * Qc * string)) := [("x", [(of_Z 2, of_Z 4, "(2, 4]"); (of_Z 4, of_Z 6, "(4, 6]")])].
Example C88_example :
  (shown (discretize_trained ex_bins ex_it ex_h ex_d), shown (discretize_trained [] ex_it ex_h ex_d)) =
  (Ok [Some (Txt "(4, 6]"); Some (Txt "(4, 6]"); Some (Txt "(2, 4]"); Some (Txt "(4, 6]"); Some (Txt "(4, 6]")], Err KeyError).
Proof. vm_compute. reflexivity. Qed.
