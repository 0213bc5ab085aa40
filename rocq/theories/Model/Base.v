(** Shared vocabulary of the model: exceptions as values, equality on
    opaque Python values, insertion-ordered dictionaries. *)
From Coq Require Export List Arith ZArith Bool Lia.
From Coq Require String.
Notation string := String.string.
Export ListNotations.
Global Open Scope list_scope.
Global Open Scope nat_scope.
Notation length := List.length.

(** Python exception classes the modelled code can raise.  [OutOfFuel] is not
    a Python exception: it marks that the fuel of a modelled [while] loop was
    exhausted; every theorem excludes it explicitly. [UserError n] stands for
    an exception raised by a function handed in by the caller. *)
Inductive error :=
| ValueError | KeyError | IndexError | ZeroDivisionError | TypeError
| AttributeError | NotImplementedError | StopIteration | EOFError
| RuntimeError | UnboundLocalError
| UserError (n : nat)
| OutOfFuel.

Inductive result (A : Type) := Ok (a : A) | Err (e : error).
Arguments Ok {A} a.
Arguments Err {A} e.

Definition bind {A B} (r : result A) (f : A -> result B) : result B :=
  match r with Ok a => f a | Err e => Err e end.
Notation "'do' x <- r ; k" := (bind r (fun x => k))
  (at level 200, x pattern, r at level 100, k at level 200).

Definition of_option {A} (e : error) (o : option A) : result A :=
  match o with Some a => Ok a | None => Err e end.

(** [for x in l: acc = f(acc, x)] where the body may raise *)
Fixpoint foldM {A B} (f : B -> A -> result B) (l : list A) (b : B) : result B :=
  match l with
  | [] => Ok b
  | a :: l' => do b' <- f b a ; foldM f l' b'
  end.

(** [[f(x) for x in l]] where [f] may raise *)
Fixpoint mapM {A B} (f : A -> result B) (l : list A) : result (list B) :=
  match l with
  | [] => Ok []
  | a :: l' => do b <- f a ; do bs <- mapM f l' ; Ok (b :: bs)
  end.

(** Opaque Python values that the code only compares with [==] / hashes. *)
Class Eq (A : Type) := {
  eqb : A -> A -> bool;
  eqb_ok : forall x y, reflect (x = y) (eqb x y)
}.

#[global] Instance Eq_nat : Eq nat := {| eqb := Nat.eqb; eqb_ok := Nat.eqb_spec |}.
#[global] Instance Eq_Z : Eq Z := {| eqb := Z.eqb; eqb_ok := Z.eqb_spec |}.
#[global] Instance Eq_string : Eq string := {| eqb := String.eqb; eqb_ok := String.eqb_spec |}.
#[global] Instance Eq_bool : Eq bool := {| eqb := Bool.eqb; eqb_ok := Bool.eqb_spec |}.

Fixpoint list_eqb {A} `{Eq A} (l m : list A) : bool :=
  match l, m with
  | [], [] => true
  | a :: l', b :: m' => eqb a b && list_eqb l' m'
  | _, _ => false
  end.
Lemma list_eqb_ok {A} `{Eq A} (l m : list A) : reflect (l = m) (list_eqb l m).
Proof.
  revert m; induction l as [|a l IH]; destruct m as [|b m]; cbn; try (constructor; congruence).
  destruct (eqb_ok a b) as [->|Hn]; cbn.
  - destruct (IH m) as [->|Hn]; constructor; congruence.
  - constructor; congruence.
Qed.
#[global] Instance Eq_list {A} `{Eq A} : Eq (list A) := {| eqb := list_eqb; eqb_ok := list_eqb_ok |}.

Definition pair_eqb {A B} `{Eq A} `{Eq B} (p q : A * B) : bool :=
  eqb (fst p) (fst q) && eqb (snd p) (snd q).
Lemma pair_eqb_ok {A B} `{Eq A} `{Eq B} (p q : A * B) : reflect (p = q) (pair_eqb p q).
Proof.
  destruct p as [a b], q as [c d]; unfold pair_eqb; cbn.
  destruct (eqb_ok a c) as [->|Hn]; cbn; [|constructor; congruence].
  destruct (eqb_ok b d) as [->|Hn]; constructor; congruence.
Qed.
#[global] Instance Eq_pair {A B} `{Eq A} `{Eq B} : Eq (A * B) :=
  {| eqb := pair_eqb; eqb_ok := pair_eqb_ok |}.

Definition option_eqb {A} `{Eq A} (p q : option A) : bool :=
  match p, q with Some a, Some b => eqb a b | None, None => true | _, _ => false end.
Lemma option_eqb_ok {A} `{Eq A} (p q : option A) : reflect (p = q) (option_eqb p q).
Proof.
  destruct p as [a|], q as [b|]; cbn; try (constructor; congruence).
  destruct (eqb_ok a b) as [->|Hn]; constructor; congruence.
Qed.
#[global] Instance Eq_option {A} `{Eq A} : Eq (option A) :=
  {| eqb := option_eqb; eqb_ok := option_eqb_ok |}.

Definition mem {A} `{Eq A} (x : A) (l : list A) : bool := existsb (eqb x) l.

(** Python [dict]: insertion ordered association list without duplicate keys. *)
Definition dict (K V : Type) := list (K * V).

Fixpoint dict_get {K V} `{Eq K} (k : K) (d : dict K V) : option V :=
  match d with
  | [] => None
  | (k', v) :: d' => if eqb k k' then Some v else dict_get k d'
  end.
(** [d[k] = v]: overwriting keeps the position, a new key goes to the end *)
Fixpoint dict_set {K V} `{Eq K} (k : K) (v : V) (d : dict K V) : dict K V :=
  match d with
  | [] => [(k, v)]
  | (k', v') :: d' => if eqb k k' then (k', v) :: d' else (k', v') :: dict_set k v d'
  end.
(** [d.pop(k)] / [del d[k]] after the key has been found *)
Fixpoint dict_del {K V} `{Eq K} (k : K) (d : dict K V) : dict K V :=
  match d with
  | [] => []
  | (k', v') :: d' => if eqb k k' then d' else (k', v') :: dict_del k d'
  end.
Definition dict_has {K V} `{Eq K} (k : K) (d : dict K V) : bool :=
  match dict_get k d with Some _ => true | None => false end.
Definition keys {K V} (d : dict K V) : list K := map fst d.
Definition values {K V} (d : dict K V) : list V := map snd d.

(** Python [set] used as a duplicate-free list in insertion order; iteration
    orders that matter are quantified over in the theorems. *)
Definition set_add {A} `{Eq A} (x : A) (s : list A) : list A :=
  if mem x s then s else s ++ [x].
Definition set_of {A} `{Eq A} (l : list A) : list A :=
  fold_left (fun s x => set_add x s) l [].

(** Python slice [l[i:j]] for non-negative bounds *)
Definition slice {A} (l : list A) (i j : nat) : list A := firstn (j - i) (skipn i l).
(** [l[i] = v], IndexError outside *)
Fixpoint list_set {A} (l : list A) (i : nat) (v : A) : option (list A) :=
  match l, i with
  | [], _ => None
  | _ :: l', 0 => Some (v :: l')
  | a :: l', S i' => option_map (cons a) (list_set l' i' v)
  end.
