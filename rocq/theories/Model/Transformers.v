(** Model of prolothar_common/models/dataset/transformer/*.py.

    A transformation of a dataset in place maps a heap and a dataset to a heap
    and a dataset or to an exception (the state left behind by an exception is
    in [FailingTransformers]).  The dataset is not changed in between,
    so all loops over it see the same iteration order [it]. *)
From Coq Require Import String QArith Qcanon.
From Verif.Model Require Import Base LogNoise Dataset.
Open Scope string_scope.
Open Scope list_scope.
Open Scope nat_scope.

#[global] Instance Eq_Qc : Base.Eq Qc.
Proof.
  refine {| eqb := Qc_eq_bool |}. intros x y. destruct (Qc_eq_bool x y) eqn:E.
  - constructor. apply Qc_eq_bool_correct. auto.
  - constructor. intros ->. unfold Qc_eq_bool in E. destruct (Qc_eq_dec y y); congruence.
Defined.

Definition to_result {H D} (r : H * D * option error) : result (H * D) :=
  let '(h, d, e) := r in match e with None => Ok (h, d) | Some e => Err e end.

Section T.
  Context {I V T : Type} `{Base.Eq I} `{Base.Eq V}.
  Notation heap := (heap I V T).
  Notation dataset := (dataset V).

  (** dataset_transformer.py 28-49; [it] is the iteration order for copying.
      Copying adds the instances of the copy in this order; the order of
      iteration over the copy is the argument of the inner transformation. *)
  Definition transform (inplace : bool) (f : heap -> dataset -> result (heap * dataset))
      (h : heap) (d : dataset) (it : list nat) : result (heap * dataset) :=
    if inplace then f h d
    else do (h', c) <- copy h d it ; f h' c.

  (** [instance[name]] *)
  Definition getitem (h : heap) (name : string) (a : nat) : result V :=
    do x <- of_option AttributeError (nth_error h a) ;
    of_option KeyError (dict_get name (feats x)).

  (** [for attribute in list(dataset.get_attributes()): if attribute.is_...():
      self.__transform_attribute(...)]; the list is taken before the loop *)
  Definition each_attribute (k : kind) (f : heap -> dataset -> string -> list V -> result (heap * dataset))
      (h : heap) (d : dataset) : result (heap * dataset) :=
    foldM (fun '(h, d) '(n, y) =>
             match akind y, k with
             | Categorical, Categorical | Numerical, Numerical => f h d n (auniq y)
             | _, _ => Ok (h, d)
             end) (attrs d) (h, d).

  (** label_encoding.py 48-51, one_hot_encoding.py 54-57; [sorted] is Python's
      sorted on the values, which may raise a TypeError *)
  Definition candidates (possible : option (dict string (list V))) (sorted : list V -> result (list V))
      (name : string) (unique : list V) : result (list V) :=
    match possible with
    | Some m => do vs <- of_option KeyError (dict_get name m) ; sorted vs
    | None => sorted unique
    end.

  (** label_encoding.py 47-65; [ofnat i] is the integer i as a value, [isbool]
      is isinstance(., bool) *)
  Definition label_attribute possible sorted (ofnat : nat -> V) (isbool : V -> bool) (it : list nat)
      (h : heap) (d : dataset) (name : string) (unique : list V) : result (heap * dataset) :=
    do pv <- candidates possible sorted name unique ;
    if match pv with
       | [] => false
       | v :: _ => list_eqb pv (map ofnat (seq 0 (length pv))) && negb (isbool v)
       end
    then Ok (h, d)
    else
      let value_map := fold_left (fun m '(v, i) => dict_set v i m) (combine pv (seq 0 (length pv))) [] in
      do vs <- mapM (fun a => do v <- getitem h name a ; of_option KeyError (dict_get v value_map)) it ;
      do (h1, d1) <- to_result (remove_attribute h d it name) ;
      to_result (add_attribute Categorical h1 d1 it name (map ofnat vs)).
  (** label_encoding.py 42-45 *)
  Definition label_encode possible sorted ofnat isbool (it : list nat) (h : heap) (d : dataset) :=
    each_attribute Categorical (label_attribute possible sorted ofnat isbool it) h d.

  (** one_hot_encoding.py 71-72: the name of a column *)
  Definition column (join : string) (show : V -> string) (name : string) (v : V) : string :=
    (name ++ join ++ show v)%string.
  (** one_hot_encoding.py 53-73 *)
  Definition one_hot_attribute possible sorted (zero one : V) (join : string) (show : V -> string) (it : list nat)
      (h : heap) (d : dataset) (name : string) (unique : list V) : result (heap * dataset) :=
    do pv <- candidates possible sorted name unique ;
    if list_eqb pv [zero; one] then Ok (h, d)
    else
      do (h1, d1) <- foldM (fun '(h, d) v =>
          do vs <- mapM (fun a => do w <- getitem h name a ; Ok (if eqb w v then one else zero)) it ;
          to_result (add_attribute Categorical h d it (column join show name v) vs)) pv (h, d) ;
      to_result (remove_attribute h1 d1 it name).
  (** one_hot_encoding.py 48-51 *)
  Definition one_hot_encode possible sorted zero one join show (it : list nat) (h : heap) (d : dataset) :=
    each_attribute Categorical (one_hot_attribute possible sorted zero one join show it) h d.

  (** remove_attrs_with_one_value.py 27-30 and select_attributes.py 32-35:
      remove the attributes of the list taken before the loop that satisfy the test *)
  Definition remove_attributes (test : string -> attr V -> bool) (it : list nat) (h : heap) (d : dataset)
    : result (heap * dataset) :=
    foldM (fun '(h, d) '(n, y) => if test n y then to_result (remove_attribute h d it n) else Ok (h, d))
          (attrs d) (h, d).
  Definition remove_one_valued := remove_attributes (fun _ y => length (auniq y) =? 1).
  Definition select_attributes (names : list string) := remove_attributes (fun n _ => negb (mem n names)).
End T.

Section M.
  Context {I T : Type} `{Base.Eq I}.
  Notation heap := (heap I Qc T).
  Notation dataset := (dataset Qc).
  (** Python's min and max *)
  Definition Qc_min (l : list Qc) : result Qc :=
    match l with
    | [] => Err ValueError
    | x :: l' => Ok (fold_left (fun m y => if Qlt_bool (this y) (this m) then y else m) l' x)
    end.
  Definition Qc_max (l : list Qc) : result Qc :=
    match l with
    | [] => Err ValueError
    | x :: l' => Ok (fold_left (fun m y => if Qlt_bool (this m) (this y) then y else m) l' x)
    end.
  (** min_max_scaling.py 48-58 in exact arithmetic *)
  Definition scale_attribute (lo hi : Qc) (it : list nat) (h : heap) (d : dataset) (name : string) (_ : list Qc)
    : result (heap * dataset) :=
    do vs <- mapM (getitem h name) it ;
    do mn <- Qc_min vs ;
    do mx <- Qc_max vs ;
    do ws <- mapM (fun v => if eqb (mx - mn)%Qc 0%Qc then Err ZeroDivisionError
                            else Ok ((v - mn) / (mx - mn) * (hi - lo) + lo)%Qc) vs ;
    do (h1, d1) <- to_result (remove_attribute h d it name) ;
    to_result (add_attribute Numerical h1 d1 it name ws).
  (** min_max_scaling.py 43-46 *)
  Definition scale (lo hi : Qc) (it : list nat) (h : heap) (d : dataset) : result (heap * dataset) :=
    each_attribute Numerical (scale_attribute lo hi it) h d.
End M.

(** ** noise on target sequences.  [rand i] is what the i-th call of the
    generator returns when it is random(), [pick i] the number from which the
    i-th call derives its choice when it is choice(). *)
Section N.
  Context {A : Type}.
  (** target_sequence_add_noise.py 49-51 *)
  Definition noise_or_not (alphabet : list A) (p : Q) (rand : nat -> Q) (pick : nat -> nat) (i : nat)
    : result (nat * list A) :=
    if Qlt_bool (rand i) p then
      match nth_error alphabet (pick (S i) mod length alphabet) with
      | Some x => Ok (S (S i), [x])
      | None => Err IndexError
      end
    else Ok (S i, []).
  (** target_sequence_add_noise.py 41-47 *)
  Definition add_noise alphabet p rand pick (i : nat) (s : list A) : result (nat * list A) :=
    do st <- noise_or_not alphabet p rand pick i ;
    foldM (fun '(i, r) e =>
             do (i', x) <- noise_or_not alphabet p rand pick i ;
             Ok (i', (r ++ [e]) ++ x)) s st.
  (** target_sequence_remove_noise.py 38-42 *)
  Definition remove_noise (p : Q) (rand : nat -> Q) (i : nat) (s : list A) : nat * list A :=
    fold_left (fun '(i, r) e => (S i, if Qlt_bool p (rand i) then r ++ [e] else r)) s (i, []).
  (** target_sequence_swap_noise.py 54-71; [s] is the stack from its top; each
      round pops one or two and pushes at most one element, so the length of
      the stack is enough fuel *)
  Fixpoint swap_noise_loop (fuel : nat) (multiple : bool) (p : Q) (rand : nat -> Q) (i : nat) (s out : list A)
    : nat * list A :=
    match fuel with
    | 0 => (i, out ++ s)
    | S fuel' =>
      match s with
      | e :: e' :: s' =>
        if Qlt_bool (rand i) p then
          if multiple then swap_noise_loop fuel' multiple p rand (S i) (e :: s') (out ++ [e'])
          else swap_noise_loop fuel' multiple p rand (S i) s' ((out ++ [e']) ++ [e])
        else swap_noise_loop fuel' multiple p rand (S i) (e' :: s') (out ++ [e])
      | _ => (i, out ++ s)
      end
    end.
  Definition swap_noise (multiple : bool) (p : Q) (rand : nat -> Q) (i : nat) (s : list A) : nat * list A :=
    swap_noise_loop (length s) multiple p rand i s [].

  Context {I V : Type}.
  (** instance.pyx 110-115: the target sequence of the object at [a] *)
  Definition set_target (s : list A) (x : inst I V (list A)) : inst I V (list A) :=
    {| iid := iid x; feats := feats x; target := s |}.
  (** target_sequence_*_noise.py inplace_transform: the generator keeps its
      state from one instance to the next *)
  Definition noise_dataset (f : nat -> list A -> result (nat * list A)) (i : nat) (h : heap I V (list A)) (it : list nat)
    : result (nat * heap I V (list A)) :=
    foldM (fun '(i, h) a =>
             do x <- of_option AttributeError (nth_error h a) ;
             do (i', s) <- f i (target x) ;
             Ok (i', update h a (set_target s))) it (i, h).
End N.
