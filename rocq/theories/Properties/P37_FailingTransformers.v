(** Property C143: what a failing transformation leaves behind *)
From Coq Require Import String ZArith QArith Qcanon Permutation.
From Verif.Model Require Import Base LogNoise Dataset Transformers Discretization FailingTransformers.
From Verif.Spec Require Import DatasetSpec TransformSpec QuantileSpec FailingSpec.
From Verif.Proofs Require FailingB FailingC.
Open Scope string_scope.
Open Scope list_scope.
Open Scope nat_scope.
(** two instances with the numerical attributes x (1 and 3), y (5 and 5) and z (2 and 4) *)
Definition q (z : Z) : Qc := Q2Qc (inject_Z z).
Definition ex_h : heap nat Qc (list nat) :=
  [ {| iid := 0; feats := [("x", q 1); ("y", q 5); ("z", q 2)]; target := [1; 2] |};
    {| iid := 1; feats := [("x", q 3); ("y", q 5); ("z", q 4)]; target := [] |} ].
Definition ex_d : dataset Qc :=
  match foldM (add_instance ex_h) [0; 1] (new [] ["x"; "y"; "z"]) with Ok d => d | Err _ => new [] [] end.
Example ex_history : history true ex_h ex_d.
Proof.
  assert (P : proper ex_h).
  { intros a x E. do 2 (destruct a as [|a]; [injection E as <-; repeat constructor; cbn; intuition discriminate|]).
    destruct a; discriminate. }
  eapply (hist_add true ex_h _ 1); [eapply (hist_add true ex_h _ 0)|];
    [apply (hist_new true ex_h [] ["x"; "y"; "z"])| |]; try (vm_compute; reflexivity); auto.
  intros _. repeat constructor; cbn; intuition discriminate.
Qed.
Example ex_order : Permutation [1; 0] (insts ex_d).
Proof. change (insts ex_d) with (rev [1; 0]). apply Permutation_rev. Qed.
(** the same with texts and numbers *)
Definition ex_hv : heap nat val (list nat) :=
  [ {| iid := 0; feats := [("c", Txt "a"); ("x", Num (q 1)); ("y", Num (q 5))]; target := [1; 2] |};
    {| iid := 1; feats := [("c", Txt "b"); ("x", Num (q 3)); ("y", Num (q 6))]; target := [] |} ].
Definition ex_dv (cs ns : list string) : dataset val :=
  match foldM (add_instance ex_hv) [0; 1] (new cs ns) with Ok d => d | Err _ => new [] [] end.
Definition seen {X} (r : heap nat X (list nat) * dataset X * option error) (ns : list string) :=
  let '(h, d, e) := r in (map (fun n => map (fun a => value h a n) [0; 1]) ns, map (kind_of d) ns, e).

(** C143: What a failing transformation leaves behind *)
(** Label encoding either works, or there is a first categorical attribute
    that cannot be encoded: its values are not among the predefined ones
    (KeyError), cannot be sorted, or one of them has no number (KeyError).
    Then the attributes before it are encoded completely and it and all
    attributes after it are as they were; in particular no attribute is lost
    or half encoded.  Attributes whose values are numbered already are left
    alone. *)
Theorem C143_label_encoding : forall (I V T : Type) (EI : Base.Eq I) (EV : Base.Eq V) possible
    (sorted : list V -> result (list V)) (ofnat : nat -> V) (isbool : V -> bool) (h : heap I V T) (d : dataset V) it,
  history true h d -> Permutation it (insts d) ->
  exists h' d' e done rest, labelling possible sorted ofnat isbool it h d = (h', d', e) /\
    keys (attrs d) = done ++ rest /\
    history true h' d' /\ insts d' = insts d /\ same_attributes d d' /\ only_features d h h' /\
    (forall a n, In a (insts d) -> In n rest \/ kind_of d n = Some Numerical -> value h' a n = value h a n) /\
    (forall n, In n done -> kind_of d n = Some Categorical -> exists s pv, range_of possible d n s /\ sorted s = Ok pv /\
       (numbered ofnat isbool pv -> forall a, In a (insts d) -> value h' a n = value h a n) /\
       (~ numbered ofnat isbool pv -> forall a, In a (insts d) -> exists v k,
          value h a n = Some v /\ last_position pv v k /\ value h' a n = Some (ofnat k))) /\
    match e with
    | None => rest = []
    | Some e => exists n rest', rest = n :: rest' /\ kind_of d n = Some Categorical /\
        ((e = KeyError /\ forall s, ~ range_of possible d n s) \/
         (exists s, range_of possible d n s /\ sorted s = Err e) \/
         (e = KeyError /\ exists s pv a v, range_of possible d n s /\ sorted s = Ok pv /\ ~ numbered ofnat isbool pv /\
            In a (insts d) /\ value h a n = Some v /\ ~ In v pv))
    end.
Proof. exact @FailingB.C143_label_encoding. Qed.
Print Assumptions C143_label_encoding.
(** Min-max scaling (in exact arithmetic) either works, or there is a first
    numerical attribute for which it is not defined: there are no instances
    (ValueError) or all have the same value (ZeroDivisionError).  Then the
    numerical attributes before it are scaled and everything else is as it
    was. *)
Theorem C143_min_max_scaling : forall (I T : Type) (EI : Base.Eq I) (lo hi : Qc) (h : heap I Qc T) (d : dataset Qc) it,
  history true h d -> Permutation it (insts d) ->
  exists h' d' e done rest, scaling lo hi it h d = (h', d', e) /\
    keys (attrs d) = done ++ rest /\
    history true h' d' /\ insts d' = insts d /\ same_attributes d d' /\ only_features d h h' /\
    (forall a n, In a (insts d) -> In n rest \/ kind_of d n = Some Categorical -> value h' a n = value h a n) /\
    (forall n, In n done -> kind_of d n = Some Numerical ->
       exists mn mx, least h d n mn /\ greatest h d n mx /\ (mn < mx)%Qc /\
         forall a v, In a (insts d) -> value h a n = Some v -> value h' a n = Some ((v - mn) / (mx - mn) * (hi - lo) + lo)%Qc) /\
    match e with
    | None => rest = []
    | Some e => exists n rest', rest = n :: rest' /\ kind_of d n = Some Numerical /\
        ((e = ValueError /\ insts d = []) \/
         (e = ZeroDivisionError /\ insts d <> [] /\ forall a b, In a (insts d) -> In b (insts d) -> value h a n = value h b n))
    end.
Proof. exact @FailingB.C143_min_max_scaling. Qed.
Print Assumptions C143_min_max_scaling.
(** One-hot encoding, if the names of the new columns are new and distinct:
    either it works, or there is a first categorical attribute whose values
    are not among the predefined ones (KeyError) or cannot be sorted.  Then the
    attributes before it are replaced by their columns, no column of another
    attribute was added, and it and all attributes after it are as they were. *)
Theorem C143_one_hot : forall (I V T : Type) (EI : Base.Eq I) (EV : Base.Eq V) possible
    (sorted : list V -> result (list V)) (zero one : V) join (show : V -> string) (h : heap I V T) (d : dataset V) it,
  let encoded := fun n pv => kind_of d n = Some Categorical /\ pv <> [zero; one] /\
                   exists s, range_of possible d n s /\ sorted s = Ok pv in
  let column := fun n v => (n ++ join ++ show v)%string in
  history true h d -> Permutation it (insts d) ->
  (forall n s pv, kind_of d n = Some Categorical -> range_of possible d n s -> sorted s = Ok pv -> NoDup pv) ->
  (forall n pv v, encoded n pv -> In v pv -> ~ has_attribute d (column n v)) ->
  (forall n pv v n' pv' v', encoded n pv -> In v pv -> encoded n' pv' -> In v' pv' ->
     column n v = column n' v' -> n = n' /\ v = v') ->
  exists h' d' e done rest, one_hot_encoding possible sorted zero one join show it h d = (h', d', e) /\
    keys (attrs d) = done ++ rest /\
    history true h' d' /\ insts d' = insts d /\ only_features d h h' /\
    (forall n pv, In n done -> encoded n pv -> ~ has_attribute d' n) /\
    (forall n pv v, In n done -> encoded n pv -> In v pv -> kind_of d' (column n v) = Some Categorical /\
       forall a, In a (insts d) -> (value h a n = Some v -> value h' a (column n v) = Some one) /\
                                   (value h a n <> Some v -> value h' a (column n v) = Some zero)) /\
    (forall m, (forall pv, In m done -> ~ encoded m pv) -> (forall n pv v, In n done -> encoded n pv -> In v pv -> m <> column n v) ->
       kind_of d' m = kind_of d m /\ forall a, In a (insts d) -> value h' a m = value h a m) /\
    match e with
    | None => rest = []
    | Some e => exists n rest', rest = n :: rest' /\ kind_of d n = Some Categorical /\
        ((e = KeyError /\ forall s, ~ range_of possible d n s) \/ (exists s, range_of possible d n s /\ sorted s = Err e))
    end.
Proof. exact @FailingC.C143_one_hot. Qed.
Print Assumptions C143_one_hot.
(** Quantile based discretization of numbers either works, or there are fewer
    than two bins and there is a first numerical attribute with more different
    values than bins.  Then the numerical attributes before it, which have at
    most as many different values as there are bins, have become the texts of
    their values, and everything else is as it was. *)
Theorem C143_discretization : forall (I T : Type) (EI : Base.Eq I) (show : Qc -> string) (bins : Z) (h : heap I val T) (d : dataset val) it,
  history true h d -> Permutation it (insts d) ->
  (forall a n v, In a (insts d) -> kind_of d n = Some Numerical -> value h a n = Some v -> exists q, v = Num q) ->
  exists h' d' e done rest, discretizing show bins it h d = (h', d', e) /\
    keys (attrs d) = done ++ rest /\
    history true h' d' /\ insts d' = insts d /\ only_features d h h' /\
    (forall n, In n done -> kind_of d' n = Some Categorical) /\
    (forall n, ~ In n done -> kind_of d' n = kind_of d n) /\
    (forall a n, In a (insts d) -> In n rest \/ kind_of d n = Some Categorical -> value h' a n = value h a n) /\
    (forall n us, In n done -> kind_of d n = Some Numerical -> uniques d n = Some us ->
       ((Z.of_nat (length us) <= bins)%Z -> printed show h h' d n) /\
       ((bins < Z.of_nat (length us))%Z -> (2 <= bins)%Z /\ binned show (Z.to_nat bins) h h' d n)) /\
    match e with
    | None => rest = []
    | Some e => exists n us rest', rest = n :: rest' /\ kind_of d n = Some Numerical /\ uniques d n = Some us /\
        (bins < Z.of_nat (length us))%Z /\ ((e = IndexError /\ bins = 1%Z) \/ (e = ValueError /\ (bins < 1)%Z))
    end.
Proof. exact @FailingC.C143_discretization. Qed.
Print Assumptions C143_discretization.
(** Discretization of numbers with trained bins either works, or there is a
    first numerical attribute that was not trained (KeyError) or has no bin
    although there are instances (IndexError).  Then the numerical attributes
    before it are discretized and everything else is as it was. *)
Theorem C143_trained_bins : forall (I T : Type) (EI : Base.Eq I) (bins : dict string (list (Qc * Qc * string))) (h : heap I val T) (d : dataset val) it,
  history true h d -> Permutation it (insts d) ->
  (forall a n v, In a (insts d) -> kind_of d n = Some Numerical -> value h a n = Some v -> exists q, v = Num q) ->
  exists h' d' e done rest, binning bins it h d = (h', d', e) /\
    keys (attrs d) = done ++ rest /\
    history true h' d' /\ insts d' = insts d /\ only_features d h h' /\
    (forall n, In n done -> kind_of d' n = Some Categorical) /\
    (forall n, ~ In n done -> kind_of d' n = kind_of d n) /\
    (forall a n, In a (insts d) -> In n rest \/ kind_of d n = Some Categorical -> value h' a n = value h a n) /\
    (forall n, In n done -> kind_of d n = Some Numerical -> exists b, dict_get n bins = Some b /\ in_bins b h h' d n) /\
    match e with
    | None => rest = []
    | Some e => exists n rest', rest = n :: rest' /\ kind_of d n = Some Numerical /\
        ((e = KeyError /\ dict_get n bins = None) \/ (e = IndexError /\ dict_get n bins = Some [] /\ insts d <> []))
    end.
Proof. exact @FailingC.C143_trained_bins. Qed.
Print Assumptions C143_trained_bins.
(** Noise: the instances are changed one after the other, with one generator.
    If an instance cannot be changed, the ones before it have their noisy
    sequences and it and all other objects are as they were. *)
Theorem C143_noise : forall (A I V : Type) (EI : Base.Eq I) (EV : Base.Eq V)
    (f : nat -> list A -> result (nat * list A)) i (h : heap I V (list A)) (d : dataset V) it i' h' e,
  history true h d -> Permutation it (insts d) -> noising f i h it = (i', h', e) ->
  exists done rest ss ts, it = done ++ rest /\
    history true h' d /\ length h' = length h /\
    (forall a, ~ In a done -> nth_error h' a = nth_error h a) /\
    (forall a x, In a done -> nth_error h a = Some x -> exists x', nth_error h' a = Some x' /\ iid x' = iid x /\ feats x' = feats x) /\
    map (fun a => option_map (fun x => target x) (nth_error h a)) done = map Some ss /\
    map (fun a => option_map (fun x => target x) (nth_error h' a)) done = map Some ts /\
    in_turn f i ss i' ts /\
    match e with
    | None => rest = []
    | Some e => exists a x rest', rest = a :: rest' /\ nth_error h a = Some x /\ f i' (target x) = Err e
    end.
Proof. exact @FailingC.C143_noise. Qed.
Print Assumptions C143_noise.
(** Transforming a copy (inplace=False, the default) never changes the given
    dataset or any object that existed before, whether it works or raises, for
    every transformer, dataset and iteration order; a result consists of new
    instances only. *)
Theorem C143_copy : forall (I V T A : Type) (EI : Base.Eq I) (EV : Base.Eq V) (ord : list nat -> list nat),
  (forall l, Permutation (ord l) l) ->
  (forall possible sorted ofnat isbool, spares_original (I := I) (V := V) (T := T) (fun h c => labelling possible sorted ofnat isbool (ord (insts c)) h c)) /\
  (forall possible sorted zero one join show, spares_original (I := I) (V := V) (T := T) (fun h c => one_hot_encoding possible sorted zero one join show (ord (insts c)) h c)) /\
  (forall names, spares_original (I := I) (V := V) (T := T) (fun h c => selecting names (ord (insts c)) h c)) /\
  spares_original (I := I) (V := V) (T := T) (fun h c => removing_one_valued (ord (insts c)) h c) /\
  (forall lo hi, spares_original (I := I) (T := T) (fun h c => scaling lo hi (ord (insts c)) h c)) /\
  (forall show bins, spares_original (I := I) (T := T) (fun h c => discretizing show bins (ord (insts c)) h c)) /\
  (forall bins, spares_original (I := I) (T := T) (fun h c => binning bins (ord (insts c)) h c)) /\
  (forall (f : nat -> list A -> result (nat * list A)) i, spares_original (I := I) (V := V) (fun h c => noising_dataset f i (ord (insts c)) h c)).
Proof. exact @FailingC.C143_copy. Qed.
Print Assumptions C143_copy.
(** Where nothing is raised these are the transformations of C61, C62, C82,
    C87 and C88, and they raise exactly the same exceptions. *)
Theorem C143_agrees : forall (I V T A : Type) (EI : Base.Eq I) (EV : Base.Eq V) it,
  (forall possible sorted ofnat isbool (h : heap I V T) d, to_result (labelling possible sorted ofnat isbool it h d) = label_encode possible sorted ofnat isbool it h d) /\
  (forall possible sorted zero one join show (h : heap I V T) d,
     to_result (one_hot_encoding possible sorted zero one join show it h d) = one_hot_encode possible sorted zero one join show it h d) /\
  (forall names (h : heap I V T) d, to_result (selecting names it h d) = select_attributes names it h d) /\
  (forall (h : heap I V T) d, to_result (removing_one_valued it h d) = remove_one_valued it h d) /\
  (forall lo hi (h : heap I Qc T) d, to_result (scaling lo hi it h d) = scale lo hi it h d) /\
  (forall show bins (h : heap I val T) d, to_result (discretizing show bins it h d) = discretize show bins it h d) /\
  (forall bins (h : heap I val T) d, to_result (binning bins it h d) = discretize_trained bins it h d) /\
  (forall (f : nat -> list A -> result (nat * list A)) i (h : heap I V (list A)), to_result (noising f i h it) = noise_dataset f i h it).
Proof. exact @FailingC.C143_agrees. Qed.
Print Assumptions C143_agrees.
(** y has only one value: x is scaled already, y and z are not *)
Example C143_example_scaling :
  let '(h, d, e) := scaling 0%Qc 1%Qc [1; 0] ex_h ex_d in
  (map (fun n => map (fun a => option_map this (value h a n)) [0; 1]) ["x"; "y"; "z"], e) =
  ([[Some 0; Some 1]; [Some (5 # 1); Some (5 # 1)]; [Some (2 # 1); Some (4 # 1)]]%Q, Some ZeroDivisionError).
Proof. vm_compute. reflexivity. Qed.
(** on a copy the same exception leaves two more objects and the given ones unchanged *)
Example C143_example_copy :
  let '(h, d, r) := transforming false (fun h c => scaling 0%Qc 1%Qc (rev (insts c)) h c) ex_h ex_d [1; 0] in
  firstn 2 h = ex_h /\ length h = 4 /\ d = ex_d /\ r = Err ZeroDivisionError.
Proof. vm_compute. repeat split. Qed.
(** c has been sorted and encoded, the numbers of x cannot be sorted here *)
Definition ex_sorted (l : list val) : result (list val) :=
  match l with Num _ :: _ => Err TypeError | _ => Ok l end.
Example C143_example_one_hot :
  let show v := match v with Txt s => s | Num _ => "?" end in
  seen (one_hot_encoding None ex_sorted (Txt "0") (Txt "1") "=" show [0; 1] ex_hv (ex_dv ["c"; "x"] ["y"])) ["c"; "c=a"; "c=b"; "x"; "y"] =
  ([[None; None]; [Some (Txt "1"); Some (Txt "0")]; [Some (Txt "0"); Some (Txt "1")]; [Some (Num (q 1)); Some (Num (q 3))]; [Some (Num (q 5)); Some (Num (q 6))]],
   [None; Some Categorical; Some Categorical; Some Categorical; Some Numerical], Some TypeError).
Proof. vm_compute. reflexivity. Qed.
(** a value of y is not among the predefined ones *)
Example C143_example_labels :
  seen (labelling (Some [("c", [Txt "b"; Txt "a"]); ("x", [Num (q 3); Num (q 1)]); ("y", [Num (q 5)])]) (fun l => Ok l)
    (fun k => Txt (match k with 0 => "0" | 1 => "1" | _ => "2" end)) (fun _ => false) [0; 1] ex_hv (ex_dv ["c"; "y"; "x"] [])) ["c"; "x"; "y"] =
  ([[Some (Txt "1"); Some (Txt "0")]; [Some (Num (q 1)); Some (Num (q 3))]; [Some (Num (q 5)); Some (Num (q 6))]],
   [Some Categorical; Some Categorical; Some Categorical], Some KeyError).
Proof. vm_compute. reflexivity. Qed.
(** one bin: y has one value, x has two *)
Definition ex_he : heap nat val (list nat) :=
  [ {| iid := 0; feats := [("y", Num (q 5)); ("x", Num (q 1))]; target := [] |};
    {| iid := 1; feats := [("y", Num (q 5)); ("x", Num (q 3))]; target := [] |} ].
Example C143_example_discretization :
  let d := match foldM (add_instance ex_he) [0; 1] (new [] ["y"; "x"]) with Ok d => d | Err _ => new [] [] end in
  seen (discretizing (fun _ => "five") 1 [0; 1] ex_he d) ["y"; "x"] =
  ([[Some (Txt "five"); Some (Txt "five")]; [Some (Num (q 1)); Some (Num (q 3))]], [Some Categorical; Some Numerical], Some IndexError).
Proof. vm_compute. reflexivity. Qed.
(** bins were trained for x only *)
Example C143_example_trained :
  seen (binning [("x", [(q 0, q 2, "low"); (q 2, q 4, "high")])] [0; 1] ex_hv (ex_dv ["c"] ["x"; "y"])) ["c"; "x"; "y"] =
  ([[Some (Txt "a"); Some (Txt "b")]; [Some (Txt "low"); Some (Txt "high")]; [Some (Num (q 5)); Some (Num (q 6))]],
   [Some Categorical; Some Categorical; Some Numerical], Some KeyError).
Proof. vm_compute. reflexivity. Qed.
(** the first of two instances is changed, the second has an empty sequence *)
Example C143_example_noise :
  (let '(i, h, e) := noising (fun i s => match s with [] => Err ValueError | x :: s => Ok (S i, s) end) 7 ex_h [0; 1] in
   (i, map (fun x => target x) h, e)) = (8, [[2]; []], Some ValueError).
Proof. vm_compute. reflexivity. Qed.
