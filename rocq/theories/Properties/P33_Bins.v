(** Properties C133 and C134: sizes of the bins of discretization, training of
    bins *)
From Coq Require Import String Ascii ZArith QArith Qcanon Permutation Sorted.
From Verif.Model Require Import Base Sort Dataset Discretization.
From Verif.Spec Require Import DatasetSpec QuantileSpec.
From Verif.Proofs Require EqualBins QcutA.
Open Scope string_scope.
Open Scope list_scope.
Open Scope nat_scope.
(** five instances with the values 1, 8, 4, 2, 16 *)
Definition ex_h : heap nat val unit :=
  map (fun '(i, v) => {| iid := i; feats := [("x", Num (of_Z v))]; target := tt |}) [(0, 1%Z); (1, 8%Z); (2, 4%Z); (3, 2%Z); (4, 16%Z)].
Definition ex_d : dataset val :=
  match foldM (add_instance ex_h) [0; 1; 2; 3; 4] (new [] ["x"]) with Ok d => d | Err _ => new [] [] end.
Example ex_history : history true ex_h ex_d /\ Permutation [4; 3; 2; 1; 0] (insts ex_d) /\ length (insts ex_d) = 5 /\ kind_of ex_d "x" = Some Numerical.
Proof.
  split; [|split; [apply Permutation_sym, (Permutation_rev [0; 1; 2; 3; 4])|split; reflexivity]].
  apply (QcutA.history_fold ex_h [0; 1; 2; 3; 4] (new [] ["x"])); [|vm_compute; reflexivity].
  apply hist_new; [|intros _; repeat constructor; intros []].
  intros a x E. do 5 (destruct a as [|a]; [injection E as <-; repeat constructor; intros []|]). destruct a; discriminate.
Qed.
Example ex_distinct : NoDup (map (fun a => value ex_h a "x") (insts ex_d)).
Proof. apply (NoDup_map_inv (fun o => match o with Some (Num q) => Some (this q) | _ => None end)). vm_compute. repeat (constructor; [cbn; intuition discriminate|]). constructor. Qed.
Example ex_numbers : forall a n v, In a (insts ex_d) -> kind_of ex_d n = Some Numerical -> value ex_h a n = Some v -> exists q, v = Num q.
Proof.
  intros a n v Ha Hk Ev. assert (n = "x").
  { unfold kind_of in Hk. destruct (eqb_ok n "x") as [E|N]; [auto|]. exfalso. change (attrs ex_d) with [("x", {| akind := Numerical; auniq := map (fun z => Num (of_Z z)) [1; 8; 4; 2; 16]%Z |})] in Hk.
    cbn [dict_get] in Hk. destruct (eqb_ok n "x"); [contradiction|discriminate]. }
  subst n. change (insts ex_d) with [0; 1; 2; 3; 4] in Ha. cbn in Ha. intuition; subst a; injection Ev as <-; eexists; reflexivity.
Qed.
Example ex_values : forall n us, kind_of ex_d n = Some Numerical -> uniques ex_d n = Some us -> 2 <= length us.
Proof.
  intros n us _ Hu. unfold uniques in Hu. change (attrs ex_d) with [("x", {| akind := Numerical; auniq := map (fun z => Num (of_Z z)) [1; 8; 4; 2; 16]%Z |})] in Hu.
  cbn [dict_get] in Hu. destruct (eqb_ok n "x"); [|discriminate]. injection Hu as <-. cbn. lia.
Qed.
Definition ex_show (x : Qc) : string :=
  if eqb x (of_Z 1) then "1" else if eqb x (of_Z 4) then "4" else if eqb x (of_Z 16) then "16" else if eqb x (of_Z 0) then "0" else "?".
Definition shown (r : result (heap nat val unit * dataset val)) : result (list (option val)) :=
  do (h, d) <- r ; Ok (map (fun a => value h a "x") [0; 1; 2; 3; 4]).

(** C133: Equal-sized buckets *)
(** If all instances have different values, the instances of each interval get
    its text, the intervals follow one another, and the numbers of instances in
    them differ by at most one.  The texts differ if the texts of numbers do and
    have no comma. *)
Theorem C133_equal_sized : forall (I T : Type) (EI : Base.Eq I) (show : Qc -> string) (bins : nat) (h : heap I val T) (d : dataset val) it n,
  history true h d -> Permutation it (insts d) -> 2 <= bins < length (insts d) ->
  (forall a n v, In a (insts d) -> kind_of d n = Some Numerical -> value h a n = Some v -> exists q, v = Num q) ->
  kind_of d n = Some Numerical -> NoDup (map (fun a => value h a n) (insts d)) ->
  exists h' d' groups labels, discretize show (Z.of_nat bins) it h d = Ok (h', d') /\
    length groups = bins /\ length labels = bins /\ Permutation (concat groups) (insts d) /\
    (forall k g l, nth_error groups k = Some g -> nth_error labels k = Some l ->
       (length (insts d) - 1) / bins <= length g <= (length (insts d) - 1) / bins + 1 /\
       forall a, In a g -> value h' a n = Some (Txt l)) /\
    (forall k k' g g' a a' q q', k < k' -> nth_error groups k = Some g -> nth_error groups k' = Some g' -> In a g -> In a' g' ->
       value h a n = Some (Num q) -> value h a' n = Some (Num q') -> (q < q')%Qc) /\
    ((forall x y, show x = show y -> x = y) -> (forall x, ~ In ","%char (list_ascii_of_string (show x))) -> NoDup labels).
Proof. exact @EqualBins.C133_equal_sized. Qed.
Print Assumptions C133_equal_sized.
(** three instances in the first and two in the second interval *)
Example C133_example : shown (discretize ex_show 2 [4; 3; 2; 1; 0] ex_h ex_d) =
  Ok [Some (Txt "[1, 4]"); Some (Txt "(4, 16]"); Some (Txt "[1, 4]"); Some (Txt "[1, 4]"); Some (Txt "(4, 16]")].
Proof. vm_compute. reflexivity. Qed.

(** C134: Training of bins *)
(** The bins of a numerical attribute lie between neighbouring quantiles of its
    values; there are not more than asked for. *)
Theorem C134_bins : forall (I T : Type) (EI : Base.Eq I) show rnd gap (bins : nat) (h : heap I val T) (d : dataset val) it,
  history true h d -> Permutation it (insts d) -> 1 <= bins ->
  (forall a n v, In a (insts d) -> kind_of d n = Some Numerical -> value h a n = Some v -> exists q, v = Num q) ->
  (forall n us, kind_of d n = Some Numerical -> uniques d n = Some us -> 2 <= length us) ->
  exists bd, train show rnd gap (Z.of_nat bins) it h d = Ok bd /\
    (forall n, kind_of d n <> Some Numerical -> dict_get n bd = None) /\
    (forall n, kind_of d n = Some Numerical -> exists edges b, dict_get n bd = Some b /\
       quantile_edges_of bins h d n edges /\ bins_between show (rnd edges) (gap edges) edges b /\ 1 <= length b <= bins).
Proof. exact @QcutA.C134_bins. Qed.
Print Assumptions C134_bins.
(** If rounding changes the least value by less than the gap, no value of the
    data the bins were trained with lies below its bin, and only the greatest
    ones, in the last bin, can lie above. *)
Theorem C134_training_data : forall (I T : Type) (EI : Base.Eq I) show rnd gap (bins : nat) (h : heap I val T) (d : dataset val) it it' bd,
  history true h d -> Permutation it (insts d) -> Permutation it' (insts d) -> 1 <= bins ->
  (forall a n v, In a (insts d) -> kind_of d n = Some Numerical -> value h a n = Some v -> exists q, v = Num q) ->
  (forall n us, kind_of d n = Some Numerical -> uniques d n = Some us -> 2 <= length us) ->
  (forall edges e, nth_error edges 0 = Some e -> (rnd edges e - gap edges < e)%Qc) ->
  train show rnd gap (Z.of_nat bins) it h d = Ok bd ->
  exists h' d', discretize_trained bd it' h d = Ok (h', d') /\
    forall n a q, kind_of d n = Some Numerical -> In a (insts d) -> value h a n = Some (Num q) ->
      exists b k lo hi l, dict_get n bd = Some b /\ nth_error b k = Some (lo, hi, l) /\ value h' a n = Some (Txt l) /\
        (lo < q)%Qc /\ ((q <= hi)%Qc \/ k + 1 = length b).
Proof. exact @QcutA.C134_training_data. Qed.
Print Assumptions C134_training_data.
(** If edges are not rounded and all instances have different values, the
    numbers of instances in the bins differ by at most one. *)
Theorem C134_equal_sized : forall (I T : Type) (EI : Base.Eq I) show rnd gap (bins : nat) (h : heap I val T) (d : dataset val) it it' n,
  history true h d -> Permutation it (insts d) -> Permutation it' (insts d) -> 1 <= bins < length (insts d) ->
  (forall a n v, In a (insts d) -> kind_of d n = Some Numerical -> value h a n = Some v -> exists q, v = Num q) ->
  (forall n us, kind_of d n = Some Numerical -> uniques d n = Some us -> 2 <= length us) ->
  (forall edges e, In e edges -> rnd edges e = e) -> (forall edges, (0 < gap edges)%Qc) ->
  kind_of d n = Some Numerical -> NoDup (map (fun a => value h a n) (insts d)) ->
  exists bd h' d' b groups, train show rnd gap (Z.of_nat bins) it h d = Ok bd /\ discretize_trained bd it' h d = Ok (h', d') /\
    dict_get n bd = Some b /\ length b = bins /\ length groups = bins /\ Permutation (concat groups) (insts d) /\
    forall k g lo hi l, nth_error groups k = Some g -> nth_error b k = Some (lo, hi, l) ->
      (length (insts d) - 1) / bins <= length g <= (length (insts d) - 1) / bins + 1 /\
      forall a, In a g -> value h' a n = Some (Txt l) /\ forall q, value h a n = Some (Num q) -> (lo < q)%Qc /\ (q <= hi)%Qc.
Proof. exact @QcutA.C134_equal_sized. Qed.
Print Assumptions C134_equal_sized.
(** Rounding can make the bins very different: of eleven instances with
    different values one is in the first and ten are in the second of two bins. *)
Theorem C134_rounding_witness : exists (h : heap nat val unit) (d : dataset val) bd h' d' b first second,
  history true h d /\ length (insts d) = 11 /\ NoDup (map (fun a => value h a "x") (insts d)) /\
  (forall a n v, In a (insts d) -> kind_of d n = Some Numerical -> value h a n = Some v -> exists q, v = Num q) /\
  (forall e, (round3 e - of_Z 1 / of_Z 1000 < e)%Qc) /\
  train (fun q => if Qc_leb q (of_Z 0) then "-0.001" else if Qc_leb (of_Z 1) q then "1.0" else "0.333") (fun _ => round3) (fun _ => of_Z 1 / of_Z 1000)%Qc 2 (insts d) h d = Ok bd /\
  discretize_trained bd (insts d) h d = Ok (h', d') /\ dict_get "x" bd = Some b /\ map snd b = [first; second] /\ first = "(-0.001, 0.333]" /\ second = "(0.333, 1.0]" /\
  map (fun a => value h' a "x") (insts d) = Some (Txt first) :: repeat (Some (Txt second)) 10.
Proof. exact @QcutA.C134_rounding_witness. Qed.
Print Assumptions C134_rounding_witness.
Definition ex_trained := train ex_show (fun _ q => q) (fun _ => of_Z 1) 2 [4; 3; 2; 1; 0] ex_h ex_d.
Example C134_example :
  (do bd <- ex_trained ; Ok (map (fun '(n, b) => (n, map snd b)) bd)) = Ok [("x", ["(0, 4]"; "(4, 16]"])] /\
  (do bd <- ex_trained ; shown (discretize_trained bd [4; 3; 2; 1; 0] ex_h ex_d)) =
    Ok [Some (Txt "(0, 4]"); Some (Txt "(4, 16]"); Some (Txt "(0, 4]"); Some (Txt "(0, 4]"); Some (Txt "(4, 16]")].
Proof. split; vm_compute; reflexivity. Qed.
(** neither rounding nor its absence violates the hypotheses *)
Example C134_example_rounding : (forall e : Qc, (e - of_Z 1 < e)%Qc) /\ (forall e, (round3 e - of_Z 1 / of_Z 1000 < e)%Qc).
Proof.
  split; [|exact QcutA.round3_close]. intros e. apply Qclt_minus_iff. replace (e + - (e - of_Z 1))%Qc with (of_Z 1) by ring. reflexivity.
Qed.
