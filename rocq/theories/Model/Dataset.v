(** Model of prolothar_common/models/dataset/dataset.py, attributes.py and
    instance.pyx.

    Instances are mutable objects that several datasets can share, so they
    live in a heap: [heap] is a list of objects, an address is a position in
    it, and a dataset holds addresses.  The Python set of instances of a
    dataset has no specified iteration order; every method that iterates over
    [self] takes the order [it] as an argument, and the theorems hold for
    every permutation of the members.  Simplifications: an attribute value is
    a value compared with [==]; the feature dictionary handed to an instance
    is not aliased by the caller; ids do not change after construction. *)
From Coq Require Import QArith Qround Floats.SpecFloat.
From Verif.Model Require Import Base.
Open Scope nat_scope.

(** [l.remove(x)] after [x] has been found: the first occurrence goes *)
Fixpoint remove_first {X} `{Eq X} (x : X) (l : list X) : list X :=
  match l with
  | [] => []
  | y :: l' => if eqb x y then l' else y :: remove_first x l'
  end.

Section D.
  Context {I V T : Type} `{Eq I} `{Eq V}.

  (** instance.pyx 21-59: id, features and, for the subclasses 62-136, the
      class label / label set / multiset / target sequence in [target] *)
  Record inst := { iid : I; feats : dict string V; target : T }.
  Definition heap := list inst.
  Notation addr := nat (only parsing).

  (** attributes.py 21-89 *)
  Inductive kind := Categorical | Numerical.
  Record attr := { akind : kind; auniq : list V }.
  (** attributes.py 44-49 *)
  Definition add_value (v : V) (x : attr) : attr := {| akind := akind x; auniq := set_add v (auniq x) |}.

  Record dataset := {
    insts : list addr;
    attrs : dict string attr;
    cats : list string;
    nums : list string
  }.

  (** [self.__attributes[name] = ...Attribute(name, set(values))] *)
  Definition set_attr (name : string) (x : attr) (d : dataset) : dataset :=
    {| insts := insts d; attrs := dict_set name x (attrs d); cats := cats d; nums := nums d |}.

  (** dataset.py 32-43.  The two arguments are lists (a one-shot iterator for
      the numerical names would be consumed by line 40). *)
  Definition new (cs ns : list string) : dataset :=
    let d := fold_left
      (fun d n => let d' := set_attr n {| akind := Categorical; auniq := [] |} d in
                  {| insts := insts d'; attrs := attrs d'; cats := cats d' ++ [n]; nums := nums d' |})
      cs {| insts := []; attrs := []; cats := []; nums := [] |} in
    fold_left (fun d n => set_attr n {| akind := Numerical; auniq := [] |} d) ns
      {| insts := insts d; attrs := attrs d; cats := cats d; nums := ns |}.

  (** equality of the two sets of names, dataset.py 50 *)
  Definition same_names (l m : list string) : bool :=
    forallb (fun k => mem k m) l && forallb (fun k => mem k l) m.
  (** [instance == other], instance.pyx 55-56 *)
  Definition has_id (h : heap) (b : addr) (i : I) : bool :=
    match nth_error h b with Some x => eqb (iid x) i | None => false end.

  (** dataset.py 62-63 *)
  Definition contains (h : heap) (d : dataset) (i : I) : bool :=
    existsb (fun b => has_id h b i) (insts d).

  (** dataset.py 45-60.  Nothing is changed before the last check, so an
      exception leaves the dataset as it was. A dangling address does not
      occur in Python; it is mapped to AttributeError. *)
  Definition add_instance (h : heap) (d : dataset) (a : addr) : result dataset :=
    do x <- of_option AttributeError (nth_error h a) ;
    if negb (same_names (keys (feats x)) (keys (attrs d))) then Err ValueError else
    if contains h d (iid x) then Err ValueError else
    do at' <- mapM (fun '(n, y) => do v <- of_option KeyError (dict_get n (feats x)) ; Ok (n, add_value v y))
                   (attrs d) ;
    Ok {| insts := insts d ++ [a]; attrs := at'; cats := cats d; nums := nums d |}.

  (** an attribute assignment on the object at address [a] *)
  Fixpoint update (h : heap) (a : addr) (f : inst -> inst) : heap :=
    match h, a with
    | [], _ => []
    | x :: h', 0 => f x :: h'
    | x :: h', S a' => x :: update h' a' f
    end.
  Definition with_feats (fs : dict string V) (x : inst) : inst :=
    {| iid := iid x; feats := fs; target := target x |}.

  (** the loop of dataset.py 75-76 with instance.pyx 40-44 *)
  Fixpoint remove_features (h : heap) (it : list addr) (name : string) : heap * option error :=
    match it with
    | [] => (h, None)
    | a :: it' =>
      match nth_error h a with
      | None => (h, Some AttributeError)
      | Some x =>
        if dict_has name (feats x)
        then remove_features (update h a (fun x => with_feats (dict_del name (feats x)) x)) it' name
        else (h, Some KeyError)
      end
    end.

  (** dataset.py 65-76; the state reached is returned also when an exception
      is raised *)
  Definition remove_attribute (h : heap) (d : dataset) (it : list addr) (name : string)
    : heap * dataset * option error :=
    match dict_get name (attrs d) with
    | None => (h, d, Some KeyError)
    | Some x =>
      let at' := dict_del name (attrs d) in
      let names := match akind x with Categorical => cats d | Numerical => nums d end in
      if mem name names then
        let d' := match akind x with
                  | Categorical => {| insts := insts d; attrs := at';
                                      cats := remove_first name (cats d); nums := nums d |}
                  | Numerical => {| insts := insts d; attrs := at';
                                    cats := cats d; nums := remove_first name (nums d) |}
                  end in
        let '(h', e) := remove_features h it name in (h', d', e)
      else (h, {| insts := insts d; attrs := at'; cats := cats d; nums := nums d |}, Some ValueError)
    end.

  (** the loops of dataset.py 85-86 and 95-96 with instance.pyx 49-50 *)
  Fixpoint set_features (h : heap) (vs : list (V * addr)) (name : string) : heap :=
    match vs with
    | [] => h
    | (v, a) :: vs' => set_features (update h a (fun x => with_feats (dict_set name v (feats x)) x)) vs' name
    end.

  (** dataset.py 78-86 ([k] = Categorical) and 88-96 ([k] = Numerical) *)
  Definition add_attribute (k : kind) (h : heap) (d : dataset) (it : list addr) (name : string) (vs : list V)
    : heap * dataset * option error :=
    if length (insts d) =? length vs then
      let d' := set_attr name {| akind := k; auniq := set_of vs |} d in
      (set_features h (combine vs it) name,
       {| insts := insts d'; attrs := attrs d';
          cats := match k with Categorical => cats d ++ [name] | Numerical => cats d end;
          nums := match k with Categorical => nums d | Numerical => nums d ++ [name] end |},
       None)
    else (h, d, Some ValueError).

  (** dataset.py 113-119 *)
  Definition get_subdataset (h : heap) (d : dataset) (l : list addr) : result dataset :=
    foldM (add_instance h) l (new (cats d) (nums d)).

  (** dataset.py 193-202 with instance.pyx 27-29 (and 71-73, 84-86, 97-99,
      133-136 for the subclasses) *)
  Definition copy (h : heap) (d : dataset) (it : list addr) : result (heap * dataset) :=
    foldM (fun '(h, c) a =>
             do x <- of_option AttributeError (nth_error h a) ;
             let h' := h ++ [x] in
             do c' <- add_instance h' c (length h) ;
             Ok (h', c'))
          it (h, new (cats d) (nums d)).

  (** Python [l[:i]] and [l[i:]] for any integer [i] *)
  Definition py_index {X} (l : list X) (i : Z) : nat :=
    if (i <? 0)%Z then Z.to_nat (Z.of_nat (length l) + i) else Nat.min (Z.to_nat i) (length l).
  (** dataset.py 228-242 for an already computed [split_index]; [shuffled] is
      the list after Random.shuffle *)
  Definition split_at (h : heap) (d : dataset) (shuffled : list addr) (i : Z) : result (dataset * dataset) :=
    do train <- get_subdataset h d (firstn (py_index shuffled i) shuffled) ;
    do test <- get_subdataset h d (skipn (py_index shuffled i) shuffled) ;
    Ok (train, test).
  (** dataset.py 204-242 in exact arithmetic; [int] of a non-negative number
      is its floor *)
  Definition split (h : heap) (d : dataset) (shuffled : list addr) (p : Q) : result (dataset * dataset) :=
    if negb (Qle_bool p 0) && negb (Qle_bool 1 p) then
      let n := inject_Z (Z.of_nat (length (insts d))) in
      split_at h d shuffled (Qfloor (n - n * p))
    else Err ValueError.

  (** dataset.py 204-242 in IEEE binary64 arithmetic (Coq's SpecFloat) *)
  Definition float_of_nat (n : nat) : spec_float := binary_normalize 53 1024 (Z.of_nat n) 0 false.
  (** [int(x)]: truncation; infinities and NaN do not occur here *)
  Definition int_of_float (x : spec_float) : Z :=
    match x with
    | S754_finite s m e =>
      let t := if (e <? 0)%Z then Z.shiftr (Zpos m) (- e) else Z.shiftl (Zpos m) e in
      if s then (- t)%Z else t
    | _ => 0%Z
    end.
  Definition split_float (h : heap) (d : dataset) (shuffled : list addr) (p : spec_float)
    : result (dataset * dataset) :=
    if SFltb (S754_zero false) p && SFltb p (float_of_nat 1) then
      let n := float_of_nat (length (insts d)) in
      split_at h d shuffled (int_of_float (SFsub 53 1024 n (SFmul 53 1024 n p)))
    else Err ValueError.

  (** dataset.py 244-275 *)
  Definition random_subset (h : heap) (d : dataset) (shuffled : list addr) (size : Z) : result dataset :=
    if (size <? 0)%Z || (Z.of_nat (length (insts d)) <? size)%Z then Err ValueError
    else get_subdataset h d (firstn (py_index shuffled size) shuffled).

  (** dataset.py 277-292 *)
  Definition group_by (h : heap) (d : dataset) (it : list addr) (name : string) : result (dict V dataset) :=
    do x <- of_option KeyError (dict_get name (attrs d)) ;
    foldM (fun gs a =>
             do y <- of_option AttributeError (nth_error h a) ;
             do v <- of_option KeyError (dict_get name (feats y)) ;
             do g <- of_option KeyError (dict_get v gs) ;
             do g' <- add_instance h g a ;
             Ok (dict_set v g' gs))
          it (map (fun v => (v, new (cats d) (nums d))) (auniq x)).

  (** dataset.py 173-191: columns, and per instance its index and row. pandas'
      conversion of column types is not modelled. *)
  Definition to_dataframe (h : heap) (d : dataset) (it : list addr)
    : result (list string * list (I * list V)) :=
    let columns := cats d ++ nums d in
    do rows <- mapM (fun a => do x <- of_option AttributeError (nth_error h a) ;
                              do r <- mapM (fun n => of_option KeyError (dict_get n (feats x))) columns ;
                              Ok (iid x, r)) it ;
    Ok (columns, rows).
  (** dataset.py 360-388; [row[a]] looks the column up by name (columns with
      distinct names); the created instances go to the end of the heap *)
  Definition create_from_pandas (h : heap) (t0 : T) (df : list string * list (I * list V)) (cs ns : list string)
    : result (heap * dataset) :=
    foldM (fun '(h, c) '(i, r) =>
             do fs <- mapM (fun a => do v <- of_option KeyError (dict_get a (combine (fst df) r)) ; Ok (a, v))
                           (cs ++ ns) ;
             let h' := h ++ [{| iid := i; feats := fold_left (fun m '(a, v) => dict_set a v m) fs [];
                                target := t0 |}] in
             do c' <- add_instance h' c (length h) ;
             Ok (h', c'))
          (snd df) (h, new cs ns).
End D.
Arguments inst : clear implicits.
Arguments attr : clear implicits.
Arguments dataset : clear implicits.
Arguments heap : clear implicits.
