(** Specification vocabulary for activity patterns *)
From Coq Require Import String Ascii ZArith Permutation.
From Verif.Model Require Import Base PetriNet ActivityPattern.
From Verif.Spec Require Import PetriSpec.
Open Scope string_scope.
Open Scope list_scope.
Open Scope nat_scope.

(** the marking with one token, on [p] *)
Definition one_at (p : string) : string -> Z := fun q => if eqb q p then 1%Z else 0%Z.
(** a letter: the label of a visible transition and the high level activity it
    is mapped to *)
Definition letter := (string * option string)%type.
Definition spell (p : pattern) (t : string) : list letter :=
  match dict_get t (transitions (pnet p)) with
  | Some tr => if t_visible tr then [(t_label tr, dict_get t (amap p))] else []
  | None => []
  end.
Definition letters (p : pattern) (l : list string) : list letter := flat_map (spell p) l.
(** [w] is the visible part of a run of the pattern from one token on its
    source place to one token on its sink place and nothing else, under the
    values [st] of the variables *)
Definition speaks (st : store) (p : pattern) (w : list letter) : Prop :=
  exists i o l, source (pnet p) i /\ sink (pnet p) o /\
    run (pnet p) st (one_at i) l (one_at o) /\ letters p l = w.
(** [w] is the visible part of a run from one token on the source place that
    puts a token on the sink place; other tokens may be left behind *)
Definition arrives (st : store) (p : pattern) (w : list letter) : Prop :=
  exists i o l M, source (pnet p) i /\ sink (pnet p) o /\
    run (pnet p) st (one_at i) l M /\ (1 <= M o)%Z /\ letters p l = w.
(** every transition is connected *)
Definition connected (n : net) : Prop := forall t, has_transition n t -> starts n t <> [] /\ ends n t <> [].
(** [w] is an interleaving of [u] and [v] *)
Inductive shuffle {X} : list X -> list X -> list X -> Prop :=
| sh_nil : shuffle [] [] []
| sh_left x u v w : shuffle u v w -> shuffle (x :: u) v (x :: w)
| sh_right x u v w : shuffle u v w -> shuffle u (x :: v) (x :: w).
(** one or more words of [L] one after the other *)
Inductive repeated {X} (L : list X -> Prop) : list X -> Prop :=
| rp_one u : L u -> repeated L u
| rp_more u w : L u -> repeated L w -> repeated L (u ++ w).
(** a marking that can be reached from one token on the source *)
Definition reachable (st : store) (p : pattern) (M : string -> Z) : Prop :=
  exists i l, source (pnet p) i /\ run (pnet p) st (one_at i) l M.
(** never two tokens on the sink *)
Definition ends_once (st : store) (p : pattern) : Prop :=
  forall o M, sink (pnet p) o -> reachable st p M -> (M o <= 1)%Z.
(** nothing is left behind when a token arrives at the sink *)
Definition ends_clean (st : store) (p : pattern) : Prop :=
  forall o M, sink (pnet p) o -> reachable st p M -> (1 <= M o)%Z -> forall q, M q = one_at o q.

(** no place has the id of another place with apostrophes behind it *)
Definition unquoted (p : pattern) : Prop := forall x k, has_place (pnet p) x -> ~ has_place (pnet p) (quoted x (S k)).
(** patterns made with the constructor from nets made with the public
    methods, with [copy] and with the compositions *)
Inductive made : pattern -> Prop :=
| m_new ord st n m p st' : built n -> any_order ord -> new_pattern ord st n m = Ok (p, st') -> made p
| m_copy ord st a p st' : made a -> any_order ord -> copy_pattern ord st a = Ok (p, st') -> made p
| m_sequence ord st a b p st' : made a -> made b -> any_order ord -> sequence ord st a b = Ok (p, st') -> made p
| m_choice ord st a b p st' : made a -> made b -> any_order ord -> choice ord st a b = Ok (p, st') -> made p
| m_parallel ord st a b p st' : made a -> made b -> any_order ord -> parallel ord st a b = Ok (p, st') -> made p
| m_interleaving ord st a b p st' : made a -> made b -> any_order ord -> interleaving ord st a b = Ok (p, st') -> made p
| m_repetition ord st a p st' : made a -> any_order ord -> unbounded_repetition ord st a = Ok (p, st') -> made p
| m_choice_list ord st l p st' : (forall a, In a l -> made a) -> (forall a, In a l -> unquoted a) -> any_order ord ->
    choice_list ord st l = Ok (p, st') -> made p.

(** a source and a sink place exist *)
Definition complete (p : pattern) : Prop := (exists i, source (pnet p) i) /\ (exists o, sink (pnet p) o).
(** every visible transition of the net has a name *)
Definition mapped (n : net) (d : dict string string) : Prop :=
  forall t tr, dict_get t (transitions n) = Some tr -> t_visible tr = true -> exists a, dict_get t d = Some a.
(** ids of the net *)
Definition has_id (p : pattern) (id : string) : Prop := has_place (pnet p) id \/ has_transition (pnet p) id.
Definition no_comma (id : string) : Prop := ~ In ","%char (list_ascii_of_string id).
Definition plain (p : pattern) : Prop := forall id, has_id p id -> no_comma id.
(** no id of the net ends with an underscore *)
Definition no_underscore (p : pattern) : Prop := forall id, has_id p id -> forall u, id <> (u ++ "_")%string.
(** no transition of [n] has the id [id], also not with its trailing
    apostrophes removed *)
Definition unlike (n : net) (id : string) : Prop := forall t k, has_transition n t -> id <> quoted t k.

(** how a pattern is put together, and the words that should give *)
Inductive tree := Leaf (p : pattern) | Then (x y : tree) | Or (x y : tree) | And (x y : tree) | Loop (x : tree).
Inductive assembled : tree -> pattern -> Prop :=
| as_leaf p : made p -> assembled (Leaf p) p
| as_then ord st x y a b p st' : assembled x a -> assembled y b -> any_order ord -> sequence ord st a b = Ok (p, st') -> assembled (Then x y) p
| as_or ord st x y a b p st' : assembled x a -> assembled y b -> any_order ord -> choice ord st a b = Ok (p, st') -> assembled (Or x y) p
| as_and ord st x y a b p st' : assembled x a -> assembled y b -> any_order ord -> parallel ord st a b = Ok (p, st') -> assembled (And x y) p
| as_loop ord st x a p st' : assembled x a -> any_order ord -> unbounded_repetition ord st a = Ok (p, st') -> assembled (Loop x) p.
Fixpoint tree_leaves (x : tree) : list pattern :=
  match x with
  | Leaf p => [p]
  | Then x y | Or x y | And x y => tree_leaves x ++ tree_leaves y
  | Loop x => tree_leaves x
  end.
Fixpoint words (st : store) (x : tree) (w : list letter) : Prop :=
  match x with
  | Leaf p => speaks st p w
  | Then x y => exists u v, w = u ++ v /\ words st x u /\ words st y v
  | Or x y => words st x w \/ words st y w
  | And x y => exists u v, shuffle u v w /\ words st x u /\ words st y v
  | Loop x => repeated (words st x) w
  end.
(** sets are iterated in the order in which their members were added *)
Definition in_order (l : list string) : list string := l.
(** patterns whose net shares no objects with the nets of other patterns:
    those with a net made with the public methods, and copies *)
Definition unshared (p : pattern) : Prop :=
  built (pnet p) \/ exists ord st a st', any_order ord /\ made a /\ copy_pattern ord st a = Ok (p, st').
