(** Model of prolothar_common/models/dataset/transformer/*.py once more, now
    with the state that is left behind when an exception is raised.

    An [outcome] is the heap and the dataset after the call together with the
    exception, if one was raised.  Iteration orders as in [Transformers].
    Statements that only read are results; [reading] raises their exception
    without changing anything. *)
From Coq Require Import String QArith Qcanon.
From Verif.Model Require Import Base LogNoise Dataset Transformers Discretization.
Open Scope string_scope.
Open Scope list_scope.
Open Scope nat_scope.

Section F.
  Context {I V T : Type} `{Base.Eq I} `{Base.Eq V}.
  Notation heap := (heap I V T).
  Notation dataset := (dataset V).
  Definition outcome : Type := heap * dataset * option error.

  (** one statement after the other: an exception ends the method *)
  Definition after (r : outcome) (k : heap -> dataset -> outcome) : outcome :=
    let '(h, d, e) := r in match e with None => k h d | Some _ => r end.
  (** a statement that computes a value without changing any object *)
  Definition reading {X} (r : result X) (h : heap) (d : dataset) (k : X -> outcome) : outcome :=
    match r with Ok x => k x | Err e => (h, d, Some e) end.
  (** [for x in l: ...] *)
  Fixpoint loop {X} (f : heap -> dataset -> X -> outcome) (l : list X) (h : heap) (d : dataset) : outcome :=
    match l with
    | [] => (h, d, None)
    | x :: l' => after (f h d x) (loop f l')
    end.

  (** dataset.py 193-202; the heap keeps the instances that were created
      before an exception *)
  Definition copying (h : heap) (d : dataset) (it : list nat) : outcome :=
    loop (fun h c a =>
            reading (of_option AttributeError (nth_error h a)) h c (fun x =>
            let h' := h ++ [x] in
            reading (add_instance h' c (length h)) h' c (fun c' => (h', c', None))))
         it h (new (cats d) (nums d)).

  (** dataset_transformer.py 28-49: the heap afterwards, the given dataset
      afterwards, and the returned dataset or the exception.  [f] is
      inplace_transform. *)
  Definition transforming (inplace : bool) (f : heap -> dataset -> outcome) (h : heap) (d : dataset) (it : list nat)
    : heap * dataset * result dataset :=
    if inplace then
      let '(h', d', e) := f h d in (h', d', match e with None => Ok d' | Some e => Err e end)
    else
      let '(h', c, e) := after (copying h d it) f in (h', d, match e with None => Ok c | Some e => Err e end).

  (** the loop over the attributes of kind [k]; the list is taken before it *)
  Definition per_attribute (k : kind) (f : heap -> dataset -> string -> list V -> outcome) (h : heap) (d : dataset) : outcome :=
    loop (fun h d '(n, y) =>
            match akind y, k with
            | Categorical, Categorical | Numerical, Numerical => f h d n (auniq y)
            | _, _ => (h, d, None)
            end) (attrs d) h d.
  (** the last two statements of most transformers:
      [dataset.remove_attribute(name); dataset.add_..._attribute(name, values)] *)
  Definition replacing (k : kind) (h : heap) (d : dataset) (it : list nat) (name : string) (vs : list V) : outcome :=
    after (remove_attribute h d it name) (fun h d => add_attribute k h d it name vs).

  (** label_encoding.py 47-65 *)
  Definition labelling_attribute possible sorted (ofnat : nat -> V) (isbool : V -> bool) (it : list nat)
      (h : heap) (d : dataset) (name : string) (unique : list V) : outcome :=
    reading (candidates possible sorted name unique) h d (fun pv =>
    if match pv with
       | [] => false
       | v :: _ => list_eqb pv (map ofnat (seq 0 (length pv))) && negb (isbool v)
       end
    then (h, d, None)
    else
      let value_map := fold_left (fun m '(v, i) => dict_set v i m) (combine pv (seq 0 (length pv))) [] in
      reading (mapM (fun a => do v <- getitem h name a ; of_option KeyError (dict_get v value_map)) it) h d (fun vs =>
      replacing Categorical h d it name (map ofnat vs))).
  (** label_encoding.py 42-45 *)
  Definition labelling possible sorted ofnat isbool (it : list nat) :=
    per_attribute Categorical (labelling_attribute possible sorted ofnat isbool it).

  (** one_hot_encoding.py 53-73 *)
  Definition one_hot_encoding_attribute possible sorted (zero one : V) (join : string) (show : V -> string) (it : list nat)
      (h : heap) (d : dataset) (name : string) (unique : list V) : outcome :=
    reading (candidates possible sorted name unique) h d (fun pv =>
    if list_eqb pv [zero; one] then (h, d, None)
    else
      after (loop (fun h d v =>
               reading (mapM (fun a => do w <- getitem h name a ; Ok (if eqb w v then one else zero)) it) h d (fun vs =>
               add_attribute Categorical h d it (column join show name v) vs)) pv h d)
            (fun h d => remove_attribute h d it name)).
  (** one_hot_encoding.py 48-51 *)
  Definition one_hot_encoding possible sorted zero one join show (it : list nat) :=
    per_attribute Categorical (one_hot_encoding_attribute possible sorted zero one join show it).

  (** remove_attrs_with_one_value.py 27-30 and select_attributes.py 32-35 *)
  Definition removing (test : string -> attr V -> bool) (it : list nat) (h : heap) (d : dataset) : outcome :=
    loop (fun h d '(n, y) => if test n y then remove_attribute h d it n else (h, d, None)) (attrs d) h d.
  Definition removing_one_valued := removing (fun _ y => length (auniq y) =? 1).
  Definition selecting (names : list string) := removing (fun n _ => negb (mem n names)).
End F.
Arguments outcome : clear implicits.

(** min_max_scaling.py 48-58 in exact arithmetic *)
Definition scaling_attribute {I T} (lo hi : Qc) (it : list nat) (h : heap I Qc T) (d : dataset Qc)
    (name : string) (_ : list Qc) : outcome I Qc T :=
  reading (mapM (getitem h name) it) h d (fun vs =>
  reading (Qc_min vs) h d (fun mn =>
  reading (Qc_max vs) h d (fun mx =>
  reading (mapM (fun v => if eqb (mx - mn)%Qc 0%Qc then Err ZeroDivisionError
                          else Ok ((v - mn) / (mx - mn) * (hi - lo) + lo)%Qc) vs) h d (fun ws =>
  replacing Numerical h d it name ws)))).
(** min_max_scaling.py 43-46 *)
Definition scaling {I T} (lo hi : Qc) (it : list nat) : heap I Qc T -> dataset Qc -> outcome I Qc T :=
  per_attribute Numerical (scaling_attribute lo hi it).

(** quantile_based_discretization.py 38-51.  For numerical attributes with
    values that are not numbers the order in which quantiles checks its
    arguments is not modelled. *)
Definition discretizing_attribute {I T} (show : Qc -> string) (nr_of_bins : Z) (it : list nat) (h : heap I val T) (d : dataset val)
    (name : string) (_ : list val) : outcome I val T :=
  reading (mapM (getitem h name) it) h d (fun values =>
  reading (of_option KeyError (dict_get name (attrs d))) h d (fun y =>
  reading (if (nr_of_bins <? Z.of_nat (length (auniq y)))%Z then
             do qs <- mapM number values ;
             do cuts <- quantiles qs nr_of_bins ;
             do mn <- Qc_min qs ;
             do mx <- Qc_max qs ;
             mapM (fun v => label_for_value show v cuts mn mx) qs
           else Ok (map (str show) values)) h d (fun labels =>
  replacing Categorical h d it name (map Txt labels)))).
(** quantile_based_discretization.py 33-36 *)
Definition discretizing {I T} (show : Qc -> string) (nr_of_bins : Z) (it : list nat)
    : heap I val T -> dataset val -> outcome I val T :=
  per_attribute Numerical (discretizing_attribute show nr_of_bins it).

(** trainable_q_based_discretization.py 42-55 *)
Definition binning_attribute {I T} (bins_dict : dict string (list (Qc * Qc * string))) (it : list nat)
    (h : heap I val T) (d : dataset val) (name : string) (_ : list val) : outcome I val T :=
  reading (of_option KeyError (dict_get name bins_dict)) h d (fun bins =>
  reading (mapM (fun a => do v <- getitem h name a ; do q <- number v ; bin_label bins q) it) h d (fun labels =>
  replacing Categorical h d it name (map Txt labels))).
(** trainable_q_based_discretization.py 37-40 *)
Definition binning {I T} bins_dict (it : list nat) : heap I val T -> dataset val -> outcome I val T :=
  per_attribute Numerical (binning_attribute bins_dict it).

(** target_sequence_*_noise.py inplace_transform: the state of the generator,
    the heap and the exception.  The state in which an interrupted __apply_noise
    leaves the generator is not modelled: it is that of the last sequence that
    was written. *)
Fixpoint noising {A I V} (f : nat -> list A -> result (nat * list A)) (i : nat) (h : heap I V (list A)) (it : list nat)
  : nat * heap I V (list A) * option error :=
  match it with
  | [] => (i, h, None)
  | a :: it' =>
    match of_option AttributeError (nth_error h a) with
    | Err e => (i, h, Some e)
    | Ok x =>
      match f i (target x) with
      | Err e => (i, h, Some e)
      | Ok (i', s) => noising f i' (update h a (set_target s)) it'
      end
    end
  end.
(** the same as a transformation of a dataset *)
Definition noising_dataset {A I V} (f : nat -> list A -> result (nat * list A)) (i : nat) (it : list nat)
    (h : heap I V (list A)) (d : dataset V) : outcome I V (list A) :=
  let '(_, h', e) := noising f i h it in (h', d, e).
