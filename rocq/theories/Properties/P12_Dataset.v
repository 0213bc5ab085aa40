(** Properties C59 - C62, C81, C82: datasets and their transformers *)
From Coq Require Import String QArith Qcanon ZArith Permutation SpecFloat.
From Verif.Model Require Import Base LogNoise Dataset Transformers.
From Verif.Spec Require Import Lists Logs DatasetSpec TransformSpec.
From Verif.Proofs Require DatasetB DatasetC TransformersA TransformersB TransformersC TransformersD TransformersH FailingC.
Open Scope string_scope.
Open Scope list_scope.
Open Scope nat_scope.

(** four objects; the last one has the id of the first *)
Definition ex_h : heap nat string (list string) :=
  [ {| iid := 7; feats := [("colour", "red"); ("size", "L")]; target := ["a"; "b"; "c"] |};
    {| iid := 8; feats := [("size", "M"); ("colour", "blue")]; target := ["b"] |};
    {| iid := 9; feats := [("colour", "red"); ("size", "S")]; target := [] |};
    {| iid := 7; feats := [("colour", "green"); ("size", "S")]; target := ["c"] |} ].
Definition ex_d : dataset string :=
  match foldM (add_instance ex_h) [0; 1; 2] (new ["colour"] ["size"]) with Ok d => d | Err _ => new [] [] end.
Definition red := [("colour", "red"); ("size", "L")].
Example ex_history : history true ex_h ex_d.
Proof.
  assert (P : proper ex_h).
  { intros a x E. do 4 (destruct a as [|a]; [injection E as <-; repeat constructor; cbn; intuition discriminate|]).
    destruct a; discriminate. }
  eapply (hist_add true ex_h _ 2); [eapply (hist_add true ex_h _ 1); [eapply (hist_add true ex_h _ 0)|]|];
    [apply (hist_new true ex_h ["colour"] ["size"])| | |]; try (vm_compute; reflexivity); auto.
  intros _. repeat constructor; cbn; intuition discriminate.
Qed.
Example ex_order : Permutation [1; 2; 0] (insts ex_d).
Proof. vm_compute. apply Permutation_sym. apply (Permutation_cons_app [1; 2] [] 0). auto. Qed.

(** C59: Dataset bookkeeping *)
(** In every reachable state the members are existing objects, none is in
    the dataset twice, and no two have the same id. *)
Theorem C59_unique_ids : forall (I V T : Type) (EI : Eq I) (EV : Eq V) fresh (h : heap I V T) (d : dataset V),
  history fresh h d ->
  NoDup (insts d) /\
  (forall a, In a (insts d) -> exists x, member h d a x) /\
  (forall a b x y, member h d a x -> member h d b y -> iid x = iid y -> a = b).
Proof. exact @DatasetB.C59_unique_ids. Qed.
Print Assumptions C59_unique_ids.
(** In every reachable state each member has exactly the attributes of the dataset. *)
Theorem C59_features_match : forall (I V T : Type) (EI : Eq I) (EV : Eq V) fresh (h : heap I V T) (d : dataset V),
  history fresh h d ->
  forall a x, member h d a x -> forall n, In n (keys (feats x)) <-> has_attribute d n.
Proof. exact @DatasetB.C59_features_match. Qed.
Print Assumptions C59_features_match.
(** In every reachable state the unique values of an attribute are exactly
    the values its members have, each listed once. *)
Theorem C59_unique_values : forall (I V T : Type) (EI : Eq I) (EV : Eq V) fresh (h : heap I V T) (d : dataset V),
  history fresh h d ->
  forall n us, uniques d n = Some us ->
    NoDup us /\ forall v, In v us <-> exists a x, member h d a x /\ dict_get n (feats x) = Some v.
Proof. exact @DatasetB.C59_unique_values. Qed.
Print Assumptions C59_unique_values.
(** If attribute names are never reused, get_categorical_attribute_names and
    get_numerical_attribute_names list exactly the attributes of that kind,
    each once. *)
Theorem C59_attribute_names : forall (I V T : Type) (EI : Eq I) (EV : Eq V) (h : heap I V T) (d : dataset V),
  history true h d ->
  NoDup (cats d ++ nums d) /\
  forall n, (In n (cats d) <-> kind_of d n = Some Categorical) /\ (In n (nums d) <-> kind_of d n = Some Numerical).
Proof. exact @DatasetB.C59_attribute_names. Qed.
Print Assumptions C59_attribute_names.
(** add_instance: the instance is rejected with a ValueError exactly when its
    features are not the attributes or its id is taken (it never replaces an
    instance, whatever the docstring says); otherwise it becomes a member and
    nothing else about the dataset but the unique values changes. *)
Theorem C59_add_instance : forall (I V T : Type) (EI : Eq I) (EV : Eq V) (h : heap I V T) (d : dataset V) a x,
  nth_error h a = Some x ->
  let fits := forall n, In n (keys (feats x)) <-> has_attribute d n in
  let taken := exists b y, member h d b y /\ iid y = iid x in
  (add_instance h d a = Err ValueError /\ (~ fits \/ taken)) \/
  (exists d', add_instance h d a = Ok d' /\ fits /\ ~ taken /\
     insts d' = insts d ++ [a] /\ same_attributes d d' /\ cats d' = cats d /\ nums d' = nums d).
Proof. exact @DatasetB.C59_add_instance. Qed.
Print Assumptions C59_add_instance.
(** remove_attribute: KeyError and no change when there is no such attribute;
    otherwise exactly this attribute disappears from the dataset and from its
    members, and no other object is written. *)
Theorem C59_remove_attribute : forall (I V T : Type) (EI : Eq I) (EV : Eq V) fresh (h : heap I V T) (d : dataset V) it n,
  history fresh h d -> Permutation it (insts d) ->
  (~ has_attribute d n /\ remove_attribute h d it n = (h, d, Some KeyError)) \/
  (has_attribute d n /\ exists h' d', remove_attribute h d it n = (h', d', None) /\
     insts d' = insts d /\
     (forall m, kind_of d' m = if eqb m n then None else kind_of d m) /\
     (forall a x, member h d a x -> exists x', nth_error h' a = Some x' /\ iid x' = iid x /\ target x' = target x /\
        forall m, dict_get m (feats x') = if eqb m n then None else dict_get m (feats x)) /\
     (forall a, ~ In a (insts d) -> nth_error h' a = nth_error h a)).
Proof. exact @DatasetB.C59_remove_attribute. Qed.
Print Assumptions C59_remove_attribute.
(** add_categorical_attribute / add_numerical_attribute: ValueError and no
    change when there is not one value per instance; otherwise the i-th
    instance of the iteration gets the i-th value, the attribute has the
    given kind, everything else stays and no other object is written. *)
Theorem C59_add_attribute : forall (I V T : Type) (EI : Eq I) (EV : Eq V) fresh (h : heap I V T) (d : dataset V) it k n vs,
  history fresh h d -> Permutation it (insts d) ->
  (length vs <> length (insts d) /\ add_attribute k h d it n vs = (h, d, Some ValueError)) \/
  (length vs = length (insts d) /\ exists h' d', add_attribute k h d it n vs = (h', d', None) /\
     insts d' = insts d /\
     (forall m, kind_of d' m = if eqb m n then Some k else kind_of d m) /\
     (forall i a v x, nth_error it i = Some a -> nth_error vs i = Some v -> nth_error h a = Some x ->
        exists x', nth_error h' a = Some x' /\ iid x' = iid x /\ target x' = target x /\
          forall m, dict_get m (feats x') = if eqb m n then Some v else dict_get m (feats x)) /\
     (forall a, ~ In a (insts d) -> nth_error h' a = nth_error h a)).
Proof. exact @DatasetB.C59_add_attribute. Qed.
Print Assumptions C59_add_attribute.
(** A name used twice: after adding an attribute over an existing one of the
    same kind and removing it again, the attribute is gone but its name is
    still listed, and from then on no non-empty sub-dataset can be built. *)
Theorem C59_reused_name : forall (I V T : Type) (EI : Eq I) (EV : Eq V) fresh (h : heap I V T) (d : dataset V) it k n vs h1 d1 h2 d2 e,
  history fresh h d -> Permutation it (insts d) -> kind_of d n = Some k ->
  add_attribute k h d it n vs = (h1, d1, None) -> remove_attribute h1 d1 it n = (h2, d2, e) ->
  e = None /\ ~ has_attribute d2 n /\ In n (match k with Categorical => cats d2 | Numerical => nums d2 end) /\
  forall a l, In a (insts d2) -> get_subdataset h2 d2 (a :: l) = Err ValueError.
Proof. exact @DatasetB.C59_reused_name. Qed.
Print Assumptions C59_reused_name.
(** get_subdataset, split, random_subset and group_by share the instances:
    removing an attribute from the part takes the feature away from the
    instances of the whole, which still claims to have the attribute. *)
Theorem C59_shared_instances : forall (I V T : Type) (EI : Eq I) (EV : Eq V) (h : heap I V T) (d s : dataset V) l it n h' s',
  history true h d -> part h d s l -> incl l (insts d) -> Permutation it (insts s) ->
  remove_attribute h s it n = (h', s', None) ->
  has_attribute d n /\ forall a, In a l -> exists x, member h' d a x /\ ~ In n (keys (feats x)).
Proof. exact @DatasetB.C59_shared_instances. Qed.
Print Assumptions C59_shared_instances.
(** copy: the copy has the same attributes and, in the same order, new
    instances with the ids, features and targets of the old ones; the old
    objects are as before, and none of them is in the copy. *)
Theorem C59_copy : forall (I V T : Type) (EI : Eq I) (EV : Eq V) (h : heap I V T) (d : dataset V) it,
  history true h d -> Permutation it (insts d) ->
  exists h' c, copy h d it = Ok (h', c) /\ history true h' c /\ history true h' d /\
    same_attributes d c /\ cats c = cats d /\ nums c = nums d /\
    map (nth_error h') (insts c) = map (nth_error h) it /\
    (forall a, a < length h -> nth_error h' a = nth_error h a) /\
    (forall a, In a (insts c) -> length h <= a /\ ~ In a (insts d)).
Proof. exact @DatasetB.C59_copy. Qed.
Print Assumptions C59_copy.
Example C59_example :
  (uniques ex_d "colour", add_instance ex_h ex_d 3, snd (remove_attribute ex_h ex_d [1; 2; 0] "weight"),
   snd (add_attribute Numerical ex_h ex_d [1; 2; 0] "weight" ["3"]),
   match remove_attribute ex_h ex_d [1; 2; 0] "size" with
   | (h, d, None) => map (fun x => feats x) h
   | _ => [] end) =
  (Some ["red"; "blue"], Err ValueError, Some KeyError, Some ValueError,
   [[("colour", "red")]; [("colour", "blue")]; [("colour", "red")]; [("colour", "green"); ("size", "S")]]).
Proof. vm_compute. reflexivity. Qed.

(** C60: Dataset splitting *)
(** get_subdataset with distinct members gives a dataset with exactly these. *)
Theorem C60_subdataset : forall (I V T : Type) (EI : Eq I) (EV : Eq V) (h : heap I V T) (d : dataset V) l,
  history true h d -> NoDup l -> incl l (insts d) ->
  exists s, get_subdataset h d l = Ok s /\ part h d s l.
Proof. exact @DatasetB.C60_subdataset. Qed.
Print Assumptions C60_subdataset.
(** split in exact arithmetic: for every shuffle, the two parts are datasets
    with the same attributes that together contain every instance once; the
    test set has at least the requested proportion, is the smallest such
    part, and is not empty unless the dataset is. *)
Theorem C60_split : forall (I V T : Type) (EI : Eq I) (EV : Eq V) (h : heap I V T) (d : dataset V) shuffled (p : Q),
  history true h d -> Permutation shuffled (insts d) ->
  (0 < p)%Q -> (p < 1)%Q ->
  exists train test l m, split h d shuffled p = Ok (train, test) /\
    part h d train l /\ part h d test m /\ l ++ m = shuffled /\
    (let share := inject_Z (Z.of_nat (length (insts d))) * p in
     share <= inject_Z (Z.of_nat (length m)) /\ inject_Z (Z.of_nat (length m)) < share + 1)%Q /\
    (insts d <> [] -> m <> []).
Proof. exact @DatasetB.C60_split. Qed.
Print Assumptions C60_split.
(** split with a proportion outside (0,1) raises a ValueError *)
Theorem C60_split_bad_proportion : forall (I V T : Type) (EI : Eq I) (EV : Eq V) (h : heap I V T) (d : dataset V) shuffled (p : Q),
  (p <= 0 \/ 1 <= p)%Q -> split h d shuffled p = Err ValueError.
Proof. exact @DatasetB.C60_split_bad_proportion. Qed.
Print Assumptions C60_split_bad_proportion.
(** split in binary64 arithmetic: still, for every proportion and shuffle,
    every instance is in exactly one of the two parts. *)
Theorem C60_split_float : forall (I V T : Type) (EI : Eq I) (EV : Eq V) (h : heap I V T) (d : dataset V) shuffled p,
  history true h d -> Permutation shuffled (insts d) ->
  split_float h d shuffled p = Err ValueError \/
  exists train test l m, split_float h d shuffled p = Ok (train, test) /\
    part h d train l /\ part h d test m /\ l ++ m = shuffled.
Proof. exact @DatasetB.C60_split_float. Qed.
Print Assumptions C60_split_float.
(** but the documented guarantee of a non-empty test set is lost to rounding:
    there is a proportion in (0,1) for which the test set of every dataset
    with one instance is empty. *)
Theorem C60_split_float_empty : exists p : spec_float,
  SFltb (S754_zero false) p = true /\ SFltb p (float_of_nat 1) = true /\
  forall (I V T : Type) (EI : Eq I) (EV : Eq V) (h : heap I V T) (d : dataset V) shuffled,
  history true h d -> Permutation shuffled (insts d) -> length (insts d) = 1 ->
  exists train test, split_float h d shuffled p = Ok (train, test) /\ part h d train shuffled /\ part h d test [].
Proof. exact @DatasetB.C60_split_float_empty. Qed.
Print Assumptions C60_split_float_empty.
(** random_subset: a dataset with exactly the requested number of instances
    of the original, or a ValueError when there are not so many. *)
Theorem C60_random_subset : forall (I V T : Type) (EI : Eq I) (EV : Eq V) (h : heap I V T) (d : dataset V) shuffled (size : Z),
  history true h d -> Permutation shuffled (insts d) ->
  (random_subset h d shuffled size = Err ValueError /\ (size < 0 \/ Z.of_nat (length (insts d)) < size)%Z) \/
  (exists s l, random_subset h d shuffled size = Ok s /\ part h d s l /\
     Z.of_nat (length l) = size /\ NoDup l /\ incl l (insts d)).
Proof. exact @DatasetB.C60_random_subset. Qed.
Print Assumptions C60_random_subset.
(** group_by_categorical_attribute: KeyError for an unknown attribute;
    otherwise one group per value the attribute has, each a dataset with
    exactly the instances that have this value, none of them empty, and
    every instance in a group. *)
Theorem C60_group_by : forall (I V T : Type) (EI : Eq I) (EV : Eq V) (h : heap I V T) (d : dataset V) it n,
  history true h d -> Permutation it (insts d) ->
  (~ has_attribute d n /\ group_by h d it n = Err KeyError) \/
  (exists gs, group_by h d it n = Ok gs /\ uniques d n = Some (keys gs) /\
     (forall v g, dict_get v gs = Some g -> exists l, part h d g l /\ l <> [] /\
        forall a, In a l <-> In a (insts d) /\ value h a n = Some v) /\
     (forall a, In a (insts d) -> exists v g, value h a n = Some v /\ dict_get v gs = Some g)).
Proof. exact @DatasetC.C60_group_by. Qed.
Print Assumptions C60_group_by.
Example C60_example :
  match split ex_h ex_d [1; 2; 0] (1 # 2), random_subset ex_h ex_d [1; 2; 0] 1, group_by ex_h ex_d [1; 2; 0] "colour" with
  | Ok (train, test), Ok s, Ok gs => (insts train, insts test, insts s, map (fun '(v, g) => (v, insts g)) gs)
  | _, _, _ => ([], [], [], [])
  end = ([1], [2; 0], [1], [("red", [2; 0]); ("blue", [1])]).
Proof. vm_compute. reflexivity. Qed.

(** C61: Encoders are faithful *)
(** Label encoding: if the values used for every categorical attribute can be
    sorted and cover the values in the dataset, then every categorical value
    is replaced by its position in the sorted list of values, whether or not
    the attribute was encoded already; numerical attributes, ids, targets,
    kinds and all other objects are unchanged. *)
Theorem C61_label_encoding : forall (I V T : Type) (EI : Base.Eq I) (EV : Base.Eq V) possible
    (sorted : list V -> result (list V)) (ofnat : nat -> V) (isbool : V -> bool) (h : heap I V T) (d : dataset V) it,
  history true h d -> Permutation it (insts d) ->
  (forall n us, kind_of d n = Some Categorical -> uniques d n = Some us ->
     exists s pv, range_of possible d n s /\ sorted s = Ok pv /\ Permutation pv s /\ NoDup s /\ incl us s) ->
  exists h' d', label_encode possible sorted ofnat isbool it h d = Ok (h', d') /\
    history true h' d' /\ insts d' = insts d /\ same_attributes d d' /\ only_features d h h' /\
    (forall a n, In a (insts d) -> kind_of d n = Some Numerical -> value h' a n = value h a n) /\
    (forall a n s pv, In a (insts d) -> kind_of d n = Some Categorical -> range_of possible d n s -> sorted s = Ok pv ->
       exists v k, value h a n = Some v /\ nth_error pv k = Some v /\ value h' a n = Some (ofnat k)).
Proof. exact @TransformersA.C61_label_encoding. Qed.
Print Assumptions C61_label_encoding.
(** One-hot encoding.  An attribute is encoded when it is categorical and its
    sorted values are not 0 and 1.  If the values can be sorted and the names
    of the new columns are new and distinct, then every encoded attribute is
    replaced by one categorical column per value, which is one for the
    instances that had the value and zero for the others; everything else is
    unchanged. *)
Theorem C61_one_hot : forall (I V T : Type) (EI : Base.Eq I) (EV : Base.Eq V) possible
    (sorted : list V -> result (list V)) (zero one : V) join (show : V -> string) (h : heap I V T) (d : dataset V) it,
  let encoded := fun n pv => kind_of d n = Some Categorical /\ pv <> [zero; one] /\
                   exists s, range_of possible d n s /\ sorted s = Ok pv in
  let column := fun n v => (n ++ join ++ show v)%string in
  history true h d -> Permutation it (insts d) ->
  (forall n us, kind_of d n = Some Categorical -> uniques d n = Some us ->
     exists s pv, range_of possible d n s /\ sorted s = Ok pv /\ Permutation pv s /\ NoDup s) ->
  (forall n pv v, encoded n pv -> In v pv -> ~ has_attribute d (column n v)) ->
  (forall n pv v n' pv' v', encoded n pv -> In v pv -> encoded n' pv' -> In v' pv' ->
     column n v = column n' v' -> n = n' /\ v = v') ->
  exists h' d', one_hot_encode possible sorted zero one join show it h d = Ok (h', d') /\
    history true h' d' /\ insts d' = insts d /\ only_features d h h' /\
    (forall n pv, encoded n pv -> ~ has_attribute d' n) /\
    (forall n pv v, encoded n pv -> In v pv -> kind_of d' (column n v) = Some Categorical /\
       forall a, In a (insts d) -> (value h a n = Some v -> value h' a (column n v) = Some one) /\
                                   (value h a n <> Some v -> value h' a (column n v) = Some zero)) /\
    (forall m, (forall pv, ~ encoded m pv) -> (forall n pv v, encoded n pv -> In v pv -> m <> column n v) ->
       kind_of d' m = kind_of d m /\ forall a, In a (insts d) -> value h' a m = value h a m).
Proof. exact @TransformersB.C61_one_hot. Qed.
Print Assumptions C61_one_hot.
(** Min-max scaling in exact arithmetic.  If no numerical attribute is
    constant, every numerical value is moved by one affine map per attribute,
    with the least value going to the lower and the greatest to the upper
    bound; the scaled values are in the range and in the same order; everything
    else is unchanged. *)
Theorem C61_min_max_scaling : forall (I T : Type) (EI : Base.Eq I) (lo hi : Qc) (h : heap I Qc T) (d : dataset Qc) it,
  history true h d -> Permutation it (insts d) ->
  (forall n, kind_of d n = Some Numerical ->
     exists a b v w, In a (insts d) /\ In b (insts d) /\ value h a n = Some v /\ value h b n = Some w /\ v <> w) ->
  exists h' d', scale lo hi it h d = Ok (h', d') /\
    history true h' d' /\ insts d' = insts d /\ same_attributes d d' /\ only_features d h h' /\
    (forall a n, In a (insts d) -> kind_of d n = Some Categorical -> value h' a n = value h a n) /\
    (forall n mn mx, kind_of d n = Some Numerical -> least h d n mn -> greatest h d n mx ->
       (mn < mx)%Qc /\
       (forall a v, In a (insts d) -> value h a n = Some v ->
          value h' a n = Some ((v - mn) / (mx - mn) * (hi - lo) + lo)%Qc) /\
       ((lo <= hi)%Qc -> least h' d' n lo /\ greatest h' d' n hi) /\
       ((lo < hi)%Qc -> forall a b v w v' w', In a (insts d) -> In b (insts d) ->
          value h a n = Some v -> value h b n = Some w -> value h' a n = Some v' -> value h' b n = Some w' ->
          ((v < w)%Qc <-> (v' < w')%Qc))).
Proof. exact @TransformersC.C61_min_max_scaling. Qed.
Print Assumptions C61_min_max_scaling.
(** Min-max scaling fails as soon as a numerical attribute has the same value
    everywhere, with a ZeroDivisionError, or if there are no instances at
    all, with a ValueError. *)
Theorem C61_min_max_undefined : forall (I T : Type) (EI : Base.Eq I) (lo hi : Qc) (h : heap I Qc T) (d : dataset Qc) it n,
  history true h d -> Permutation it (insts d) -> kind_of d n = Some Numerical ->
  (insts d = [] -> scale lo hi it h d = Err ValueError) /\
  (insts d <> [] -> (forall a b, In a (insts d) -> In b (insts d) -> value h a n = value h b n) ->
     scale lo hi it h d = Err ZeroDivisionError).
Proof. exact @TransformersC.C61_min_max_undefined. Qed.
Print Assumptions C61_min_max_undefined.
Definition sort_ex (l : list string) : result (list string) := Ok (if mem "L" l then ["L"; "M"; "S"] else rev l).
Example C61_example :
  let ofnat n := match n with 0 => "0" | 1 => "1" | _ => "2" end in
  (match label_encode None sort_ex ofnat (fun _ => false) [1; 2; 0] ex_h ex_d with
   | Ok (h, d) => map (fun x => feats x) h | _ => [] end,
   match one_hot_encode None sort_ex "0" "1" " " (fun v => v) [1; 2; 0] ex_h ex_d with
   | Ok (h, d) => map (fun x => feats x) h | _ => [] end) =
  ([[("size", "L"); ("colour", "1")]; [("size", "M"); ("colour", "0")]; [("size", "S"); ("colour", "1")];
    [("colour", "green"); ("size", "S")]],
   [[("size", "L"); ("colour blue", "0"); ("colour red", "1")]; [("size", "M"); ("colour blue", "1"); ("colour red", "0")];
    [("size", "S"); ("colour blue", "0"); ("colour red", "1")]; [("colour", "green"); ("size", "S")]]).
Proof. vm_compute. reflexivity. Qed.
(** the hypotheses of C61_label_encoding and C61_one_hot hold in the example *)
Example C61_example_sortable : forall n us, kind_of ex_d n = Some Categorical -> uniques ex_d n = Some us ->
  exists s pv, range_of None ex_d n s /\ sort_ex s = Ok pv /\ Permutation pv s /\ NoDup s /\ incl us s.
Proof.
  intros n us Hk Hu. unfold kind_of in Hk. cbv in Hk, Hu.
  destruct (string_dec n "colour") as [->|Hc].
  - injection Hu as <-. exists ["red"; "blue"], ["blue"; "red"]. split; [reflexivity|]. split; [reflexivity|].
    split; [apply perm_swap|]. split; [repeat constructor; cbn; intuition discriminate|]. intros x Hx; exact Hx.
  - exfalso. revert Hk. change (option_map akind (dict_get n (attrs ex_d)) = Some Categorical -> False).
    change (attrs ex_d) with [("colour", {| akind := Categorical; auniq := ["red"; "blue"] |});
                              ("size", {| akind := Numerical; auniq := ["L"; "M"; "S"] |})].
    cbn [dict_get]. destruct (eqb_ok n "colour"); [contradiction|]. destruct (eqb_ok n "size"); discriminate.
Qed.
Example C61_example_columns : forall v, In v ["blue"; "red"] -> ~ has_attribute ex_d ("colour" ++ " " ++ v).
Proof. intros v [<-|[<-|[]]] H; apply H; vm_compute; reflexivity. Qed.
(** if two columns get the same name, one of them is lost: the two instances
    differ before and agree after the transformation *)
Definition clash_h : heap nat string unit :=
  [ {| iid := 0; feats := [("a", "b c"); ("a b", "c")]; target := tt |};
    {| iid := 1; feats := [("a", "d"); ("a b", "c")]; target := tt |} ].
Example C61_column_clash :
  match foldM (add_instance clash_h) [0; 1] (new ["a"; "a b"] []) with
  | Ok d =>
    match one_hot_encode None (fun l => Ok l) "0" "1" " " (fun v => v) [0; 1] clash_h d with
    | Ok (h, d') => (map (fun x => feats x) h, cats d', uniques d' "a b c")
    | _ => ([], [], None)
    end
  | _ => ([], [], None)
  end = ([[("a b c", "1"); ("a d", "0")]; [("a b c", "1"); ("a d", "1")]], ["a b c"; "a d"; "a b c"], Some ["1"]).
Proof. vm_compute. reflexivity. Qed.
Definition num_h : heap nat Qc unit :=
  [ {| iid := 0; feats := [("x", Q2Qc 2); ("y", Q2Qc 1)]; target := tt |};
    {| iid := 1; feats := [("x", Q2Qc 5); ("y", Q2Qc 1)]; target := tt |};
    {| iid := 2; feats := [("x", Q2Qc 4); ("y", Q2Qc 1)]; target := tt |} ].
Example C61_scaling_example :
  match foldM (add_instance num_h) [0; 1; 2] (new ["y"] ["x"]), foldM (add_instance num_h) [0; 1; 2] (new [] ["x"; "y"]) with
  | Ok d, Ok d' =>
    (match scale (Q2Qc 0) (Q2Qc 1) [0; 1; 2] num_h d with
     | Ok (h, d) => map (fun x => map (fun '(n, v) => (n, this v)) (feats x)) h | Err _ => [] end,
     match scale (Q2Qc 0) (Q2Qc 1) [0; 1; 2] num_h d' with Ok _ => None | Err e => Some e end)
  | _, _ => ([], None)
  end = ([[("y", 1%Q); ("x", 0%Q)]; [("y", 1%Q); ("x", 1%Q)]; [("y", 1%Q); ("x", (2 # 3)%Q)]], Some ZeroDivisionError).
Proof. vm_compute. reflexivity. Qed.

(** C62: Target sequence noise *)
(** Removing noise: what is left is a subsequence; the events whose random
    number is not above the probability are the ones removed, so none is
    removed if all the numbers are above it and all are removed if none is. *)
Theorem C62_remove_noise : forall (A : Type) (p : Q) (rand : nat -> Q) i (s : list A) i' t,
  remove_noise p rand i s = (i', t) ->
  i' = i + length s /\ subseq t s /\
  length t = length (filter (fun k => Qlt_bool p (rand (i + k))) (seq 0 (length s))) /\
  ((forall k, k < length s -> (p < rand (i + k)%nat)%Q) -> t = s) /\
  ((forall k, k < length s -> (rand (i + k)%nat <= p)%Q) -> t = []).
Proof. exact @TransformersD.C62_remove_noise. Qed.
Print Assumptions C62_remove_noise.
(** Adding noise: the result is the old sequence with at most one element of
    the alphabet inserted in each gap, so nothing is lost or reordered and the
    length at most doubles plus one.  It fails, with an IndexError, only for
    an empty alphabet; nothing is added if no random number is below the
    probability. *)
Theorem C62_add_noise : forall (A : Type) (alphabet : list A) (p : Q) (rand : nat -> Q) (pick : nat -> nat) i (s : list A),
  (exists i' t, add_noise alphabet p rand pick i s = Ok (i', t) /\ sprinkled alphabet s t /\
     subseq s t /\ length t <= 2 * length s + 1 /\ (forall x, In x t -> In x s \/ In x alphabet) /\
     ((forall k, (p <= rand k)%Q) -> t = s)) \/
  (add_noise alphabet p rand pick i s = Err IndexError /\ alphabet = [] /\ exists k, (rand k < p)%Q).
Proof. exact @TransformersD.C62_add_noise. Qed.
Print Assumptions C62_add_noise.
(** Swap noise: the result is a rearrangement in which no event moves more
    than one position to the front; without multiple swaps events only change
    places with a neighbour, so no event moves by more than one position.
    Nothing happens if no random number is below the probability; with
    multiple swaps and all of them below, the first event goes to the end. *)
Theorem C62_swap_noise : forall (A : Type) (multiple : bool) (p : Q) (rand : nat -> Q) i (s : list A) i' t,
  swap_noise multiple p rand i s = (i', t) ->
  Permutation t s /\
  (exists f, moved_by f s t /\ (forall k, k < length s -> k <= f k + 1) /\
     (multiple = false -> forall k, k < length s -> f k <= k + 1 /\ f (f k) = k)) /\
  ((forall k, (p <= rand k)%Q) -> t = s) /\
  ((forall k, (rand k < p)%Q) -> multiple = true -> forall e s', s = e :: s' -> t = s' ++ [e]).
Proof. exact @TransformersD.C62_swap_noise. Qed.
Print Assumptions C62_swap_noise.
(** The noise transformers applied to a dataset: only the target sequences of
    its instances change, each to the noisy version of its own. *)
Theorem C62_noise_dataset : forall (A I V : Type) (EI : Base.Eq I) (EV : Base.Eq V)
    (f : nat -> list A -> result (nat * list A)) i (h : heap I V (list A)) (d : dataset V) it i' h',
  history true h d -> Permutation it (insts d) -> noise_dataset f i h it = Ok (i', h') ->
  history true h' d /\ length h' = length h /\
  (forall a, ~ In a (insts d) -> nth_error h' a = nth_error h a) /\
  (forall a x, member h d a x -> exists x' j j', nth_error h' a = Some x' /\ iid x' = iid x /\ feats x' = feats x /\
     f j (target x) = Ok (j', target x')).
Proof. exact @TransformersD.C62_noise_dataset. Qed.
Print Assumptions C62_noise_dataset.
(** The instances are taken in turn, with one generator: each sequence gets the
    random numbers that come after those of the instances before it. *)
Theorem C62_noise_in_turn : forall (A I V : Type) (EI : Base.Eq I) (EV : Base.Eq V)
    (f : nat -> list A -> result (nat * list A)) i (h : heap I V (list A)) (d : dataset V) it i' h',
  history true h d -> Permutation it (insts d) -> noise_dataset f i h it = Ok (i', h') ->
  exists ss ts,
    map (fun a => option_map (fun x => target x) (nth_error h a)) it = map Some ss /\
    map (fun a => option_map (fun x => target x) (nth_error h' a)) it = map Some ts /\
    in_turn f i ss i' ts.
Proof. exact @FailingC.C62_noise_in_turn. Qed.
Print Assumptions C62_noise_in_turn.
(** exactly the events whose random number is above the probability stay *)
Theorem C62_removed_events : forall (A : Type) (p : Q) (rand : nat -> Q) i (s : list A) i' t,
  remove_noise p rand i s = (i', t) -> selection s t (fun k _ => (p < rand (i + k)%nat)%Q).
Proof. exact @TransformersH.C62_removed_events. Qed.
Print Assumptions C62_removed_events.
(** adding noise: each gap gets what its random numbers say *)
Theorem C62_added_events : forall (A : Type) (alphabet : list A) (p : Q) (rand : nat -> Q) (pick : nat -> nat) i (s : list A) i' t,
  add_noise alphabet p rand pick i s = Ok (i', t) <-> add_outcome alphabet p rand pick i s i' t.
Proof. exact @TransformersH.C62_added_events. Qed.
Print Assumptions C62_added_events.
(** swap noise: neighbours change places exactly when their random number says so *)
Theorem C62_swapped_events : forall (A : Type) (multiple : bool) (p : Q) (rand : nat -> Q) i (s : list A) i' t,
  swap_noise multiple p rand i s = (i', t) <-> swap_outcome multiple p rand i s i' t.
Proof. exact @TransformersH.C62_swapped_events. Qed.
Print Assumptions C62_swapped_events.
Example C62_example :
  let rand i := nth i [1 # 10; 9 # 10; 2 # 10; 3 # 10; 8 # 10; 1 # 10]%Q 1%Q in
  (remove_noise (1 # 2) rand 0 ["a"; "b"; "c"], add_noise ["x"; "y"] (1 # 2) rand (fun i => i) 0 ["a"; "b"; "c"],
   swap_noise false (1 # 2) rand 0 ["a"; "b"; "c"; "d"], swap_noise true (1 # 2) rand 2 ["a"; "b"; "c"; "d"],
   add_noise [] (1 # 2) rand (fun i => i) 0 ["a"]) =
  ((3, ["b"]), Ok (7, ["y"; "a"; "y"; "b"; "c"; "x"]), (2, ["b"; "a"; "c"; "d"]), (5, ["b"; "c"; "a"; "d"]), Err IndexError).
Proof. vm_compute. reflexivity. Qed.
Example C62_dataset_example :
  match noise_dataset (fun i s => Ok (remove_noise (1 # 2) (fun _ => 0%Q) i s)) 0 ex_h [1; 2; 0] with
  | Ok (i, h) => (i, map (fun x => target x) h) | Err _ => (0, []) end = (4, [[]; []; []; ["c"]]).
Proof. vm_compute. reflexivity. Qed.

(** C81: Data frames *)
(** to_dataframe: one row per instance in the order of iteration, with its id
    as index and, in every column, its value of this attribute. *)
Theorem C81_to_dataframe : forall (I V T : Type) (EI : Eq I) (EV : Eq V) (h : heap I V T) (d : dataset V) it,
  history true h d -> Permutation it (insts d) ->
  exists rows, to_dataframe h d it = Ok (cats d ++ nums d, rows) /\ length rows = length it /\
    forall i a, nth_error it i = Some a -> exists x r, member h d a x /\ nth_error rows i = Some (iid x, r) /\
      length r = length (cats d ++ nums d) /\
      forall j n, nth_error (cats d ++ nums d) j = Some n -> exists v, nth_error r j = Some v /\ dict_get n (feats x) = Some v.
Proof. exact @DatasetC.C81_to_dataframe. Qed.
Print Assumptions C81_to_dataframe.
(** create_from_pandas: ValueError exactly when an index value occurs twice;
    otherwise one instance per row, with the index as id and the values of
    the selected columns as features. *)
Theorem C81_create_from_pandas : forall (I V T : Type) (EI : Eq I) (EV : Eq V) (h : heap I V T) (t0 : T) cols rows cs ns,
  proper h -> NoDup (cs ++ ns) -> NoDup cols -> incl (cs ++ ns) cols ->
  (forall i r, In (i, r) rows -> length r = length cols) ->
  (create_from_pandas h t0 (cols, rows) cs ns = Err ValueError /\ ~ NoDup (map fst rows)) \/
  (NoDup (map fst rows) /\ exists news c, create_from_pandas h t0 (cols, rows) cs ns = Ok (h ++ news, c) /\
     history true (h ++ news) c /\ cats c = cs /\ nums c = ns /\
     insts c = seq (length h) (length rows) /\
     forall k i r, nth_error rows k = Some (i, r) -> exists x, member (h ++ news) c (length h + k) x /\ iid x = i /\
       (forall n, In n (keys (feats x)) <-> In n (cs ++ ns)) /\
       forall j n, In n (cs ++ ns) -> nth_error cols j = Some n -> dict_get n (feats x) = nth_error r j).
Proof. exact @DatasetC.C81_create_from_pandas. Qed.
Print Assumptions C81_create_from_pandas.
(** The round trip through a data frame gives new instances with the same ids
    and features in a dataset with the same attributes. *)
Theorem C81_dataframe_roundtrip : forall (I V T : Type) (EI : Eq I) (EV : Eq V) (h : heap I V T) (d : dataset V) it t0,
  history true h d -> Permutation it (insts d) ->
  exists df news c, to_dataframe h d it = Ok df /\ create_from_pandas h t0 df (cats d) (nums d) = Ok (h ++ news, c) /\
    history true (h ++ news) c /\ cats c = cats d /\ nums c = nums d /\ length (insts c) = length (insts d) /\
    forall k a x, nth_error it k = Some a -> nth_error h a = Some x ->
      exists b x', nth_error (insts c) k = Some b /\ nth_error (h ++ news) b = Some x' /\
        iid x' = iid x /\ same_features x x'.
Proof. exact @DatasetC.C81_dataframe_roundtrip. Qed.
Print Assumptions C81_dataframe_roundtrip.
Example C81_example :
  to_dataframe ex_h ex_d [1; 2; 0] =
  Ok (["colour"; "size"], [(8, ["blue"; "M"]); (9, ["red"; "S"]); (7, ["red"; "L"])]).
Proof. vm_compute. reflexivity. Qed.
Example C81_example_create :
  match create_from_pandas ex_h [] (["size"; "id"; "colour"], [(1, ["S"; "1"; "red"]); (2, ["M"; "2"; "blue"])]) ["colour"] ["size"] with
  | Ok (h, d) => (map (fun x => feats x) (skipn 4 h), insts d, uniques d "size") | Err _ => ([], [], None) end =
  ([[("colour", "red"); ("size", "S")]; [("colour", "blue"); ("size", "M")]], [4; 5], Some ["S"; "M"]).
Proof. vm_compute. reflexivity. Qed.

(** C82: Attribute selection and transforming a copy *)
(** SelectAttributes keeps exactly the attributes of the dataset that are
    among the selected names, with their kinds and values. *)
Theorem C82_select_attributes : forall (I V T : Type) (EI : Base.Eq I) (EV : Base.Eq V) (names : list string)
    (h : heap I V T) (d : dataset V) it,
  history true h d -> Permutation it (insts d) ->
  exists h' d', select_attributes names it h d = Ok (h', d') /\
    history true h' d' /\ insts d' = insts d /\ only_features d h h' /\
    (forall n, (In n names -> kind_of d' n = kind_of d n) /\ (~ In n names -> ~ has_attribute d' n)) /\
    (forall a n, In a (insts d) -> has_attribute d' n -> value h' a n = value h a n).
Proof. exact @TransformersC.C82_select_attributes. Qed.
Print Assumptions C82_select_attributes.
(** RemoveAttributesWithOneUniqueValue removes exactly the attributes for
    which there are instances and all of them have the same value. *)
Theorem C82_remove_one_valued : forall (I V T : Type) (EI : Base.Eq I) (EV : Base.Eq V)
    (h : heap I V T) (d : dataset V) it,
  history true h d -> Permutation it (insts d) ->
  exists h' d', remove_one_valued it h d = Ok (h', d') /\
    history true h' d' /\ insts d' = insts d /\ only_features d h h' /\
    (forall n, has_attribute d n ->
       let constant := exists v, insts d <> [] /\ forall a, In a (insts d) -> value h a n = Some v in
       (constant -> ~ has_attribute d' n) /\ (~ constant -> kind_of d' n = kind_of d n)) /\
    (forall n, ~ has_attribute d n -> ~ has_attribute d' n) /\
    (forall a n, In a (insts d) -> has_attribute d' n -> value h' a n = value h a n).
Proof. exact @TransformersC.C82_remove_one_valued. Qed.
Print Assumptions C82_remove_one_valued.
(** Transforming a copy (the default): if the transformation works at all then
    every object that existed before is exactly as before, the given dataset
    object included, and the result consists of new objects only.  [ord] is
    the order in which a set of instances is iterated over. *)
Theorem C82_transform_copy : forall (I V T : Type) (EI : Base.Eq I) (EV : Base.Eq V)
    (h : heap I V T) (d : dataset V) (ord : list nat -> list nat) h' c,
  history true h d -> (forall l, Permutation (ord l) l) ->
  let leaves_original := fun f => transform false f h d (ord (insts d)) = Ok (h', c) ->
    (forall a x, nth_error h a = Some x -> nth_error h' a = Some x) /\
    length (insts c) = length (insts d) /\ (forall a, In a (insts c) -> length h <= a) in
  (forall possible sorted ofnat isbool,
     leaves_original (fun h c => label_encode possible sorted ofnat isbool (ord (insts c)) h c)) /\
  (forall possible sorted zero one join show,
     leaves_original (fun h c => one_hot_encode possible sorted zero one join show (ord (insts c)) h c)) /\
  (forall names, leaves_original (fun h c => select_attributes names (ord (insts c)) h c)) /\
  leaves_original (fun h c => remove_one_valued (ord (insts c)) h c).
Proof. exact @TransformersC.C82_transform_copy. Qed.
Print Assumptions C82_transform_copy.
Example C82_example :
  match transform false (fun h c => select_attributes ["size"; "weight"] (insts c) h c) ex_h ex_d [1; 2; 0],
        foldM (add_instance ex_h) [0; 2] (new ["colour"] ["size"]) with
  | Ok (h, c), Ok d2 =>
    (map (fun x => feats x) h, insts c,
     match remove_one_valued [0; 2] ex_h d2 with Ok (h, d) => cats d ++ nums d | Err _ => [] end)
  | _, _ => ([], [], [])
  end = ([red; [("size", "M"); ("colour", "blue")]; [("colour", "red"); ("size", "S")];
          [("colour", "green"); ("size", "S")]; [("size", "M")]; [("size", "S")]; [("size", "L")]], [4; 5; 6], ["size"]).
Proof. vm_compute. reflexivity. Qed.
