(** Specification vocabulary for data petri nets *)
From Coq Require Import QArith String Permutation ZArith.
From Verif.Model Require Import Base PetriNet Pm4py.

(** what can be seen of a net *)
Definition tokens (n : net) (p : string) : Z :=
  match dict_get p (places n) with Some pl => p_tokens pl | None => 0%Z end.
Definition has_place (n : net) (p : string) : Prop := In p (keys (places n)).
Definition has_transition (n : net) (t : string) : Prop := In t (keys (transitions n)).
Definition starts (n : net) (t : string) : list string :=
  match dict_get t (transitions n) with Some tr => t_start tr | None => [] end.
Definition ends (n : net) (t : string) : list string :=
  match dict_get t (transitions n) with Some tr => t_end tr | None => [] end.
Definition guard_of (n : net) (t : string) : guard :=
  match dict_get t (transitions n) with Some tr => t_guard tr | None => AcceptAlways end.
(** every start place has a token *)
Definition enabled (n : net) (t : string) : Prop := forall p, In p (starts n t) -> (1 <= tokens n p)%Z.
(** what firing [t] adds to the tokens of [p] *)
Definition effect (n : net) (t p : string) : Z :=
  ((if mem p (ends n t) then 1 else 0) - (if mem p (starts n t) then 1 else 0))%Z.
(** nothing but the tokens differs *)
Definition same_structure (n n' : net) : Prop :=
  transitions n' = transitions n /\ variables n' = variables n /\
  map (fun '(id, p) => (id, p_label p, p_transitions p)) (places n') =
  map (fun '(id, p) => (id, p_label p, p_transitions p)) (places n).

Definition any_order (ord : order) : Prop := forall l, Permutation (ord l) l.
Definition any_pick (pick : string -> list string -> string) : Prop := forall p l, l <> [] -> In (pick p l) l.

(** nets made with the public methods, starting from the empty net or from a net of pm4py *)
Inductive built : net -> Prop :=
| b_new : built new_net
| b_place id label k n n' : built n -> add_place id label k n = Ok n' -> built n'
| b_transition id label v n n' : built n -> add_transition id label v n = Ok n' -> built n'
| b_variable name r n n' : built n -> add_variable name r n = Ok n' -> built n'
| b_guard id g n n' : built n -> set_guard_function id g n = Ok n' -> built n'
| b_connection s t e n n' : built n -> add_connection s t e n = Ok n' -> built n'
| b_marking m n n' : built n -> Forall (fun '(_, k) => (0 <= k)%Z) m -> set_marking m n = Ok n' -> built n'
| b_force ord t n : built n -> any_order ord -> built (fst (force_transition ord t n))
| b_simulate st ord pick n n' : built n -> any_order ord -> any_pick pick ->
    simulate_one_timestep st ord pick n = Ok n' -> built n'
| b_copy st n n' st' : built n -> copy st n = Ok (n', st') -> built n'
| b_workflow ord st n n' st' : built n -> any_order ord -> transform_to_workflow_net ord st n = Ok (n', st') -> built n'
| b_prune ord n n' : built n -> any_order ord -> prune ord n = Ok n' -> built n'
| b_pm4py m initial n : convert_pm4py_to_data_petri_net m initial = Ok n -> built n.

(** [l] lists the transitions that place [p] can choose from *)
Definition options (st : store) (n : net) (p : string) (l : list string) : Prop :=
  NoDup l /\ forall t, In t l <-> In p (starts n t) /\ accept st (guard_of n t) = Ok true.
(** a place before resp. behind some transition *)
Definition before_some (n : net) (p : string) : Prop := exists t, In p (starts n t).
Definition behind_some (n : net) (p : string) : Prop := exists t, In p (ends n t).
(** the id with [k] quotes behind it *)
Fixpoint quoted (id : string) (k : nat) : string :=
  match k with 0 => id | S k' => (quoted id k' ++ "'")%string end.
(** the guard looks at none of the variables from [k] on *)
Fixpoint looks_below (k : nat) (g : guard) : Prop :=
  match g with
  | AcceptAlways => True
  | LambdaGuard r _ | EqualGuard r _ | SmallerGuard r _ | SmallerOrEqualGuard r _ | GreaterGuard r _
  | GreaterOrEqualGuard r _ | TrueGuard r | FalseGuard r => r < k
  | AllOfGuard gs => fold_right (fun g P => looks_below k g /\ P) True gs
  end.

(** a source is only before, a sink only behind transitions *)
Definition source (n : net) (p : string) : Prop := before_some n p /\ ~ behind_some n p.
Definition sink (n : net) (p : string) : Prop := behind_some n p /\ ~ before_some n p.
(** [l] lists exactly the elements with property [P], each once *)
Definition lists (l : list string) (P : string -> Prop) : Prop := NoDup l /\ forall x, In x l <-> P x.
(** [n'] keeps the transitions, places and tokens of [n]; its further
    transitions are invisible and unguarded, its further places are those in
    [l] and empty *)
Definition extends (n n' : net) (l : list string) : Prop :=
  (forall t tr, dict_get t (transitions n) = Some tr -> dict_get t (transitions n') = Some tr) /\
  (forall t tr, dict_get t (transitions n') = Some tr -> ~ has_transition n t -> t_visible tr = false /\ t_guard tr = AcceptAlways) /\
  (forall p, tokens n' p = tokens n p) /\ (forall p, has_place n' p <-> has_place n p \/ In p l).
(** the places of a net with their tokens, in order *)
Definition marking (n : net) : list (string * Z) := map (fun '(id, p) => (id, p_tokens p)) (places n).

(** what a value counts as in comparisons: nothing for None, 1 and 0 for the
    truth values *)
Inductive counts_as : val -> Q -> Prop :=
| counts_num q : counts_as (VNum q) q
| counts_true : counts_as (VBool true) 1%Q
| counts_false : counts_as (VBool false) 0%Q.
(** the guards up to some point accept, and that one gives [r] *)
Definition decided_by (st : store) (gs : list guard) (r : result bool) : Prop :=
  exists pre g post, gs = pre ++ g :: post /\ Forall (fun h => accept st h = Ok true) pre /\ accept st g = r.

(** ** runs of a net, independently of the program *)
(** in marking [M] transition [t] may fire under the values [st] of the
    variables, and [M'] is the marking afterwards *)
Definition fires (n : net) (st : store) (M : string -> Z) (t : string) (M' : string -> Z) : Prop :=
  has_transition n t /\ accept st (guard_of n t) = Ok true /\
  (forall p, In p (starts n t) -> (1 <= M p)%Z) /\ forall p, M' p = (M p + effect n t p)%Z.
Inductive run (n : net) (st : store) : (string -> Z) -> list string -> (string -> Z) -> Prop :=
| run_nil M M' : (forall p, M' p = M p) -> run n st M [] M'
| run_cons M t M1 l M2 : fires n st M t M1 -> run n st M1 l M2 -> run n st M (t :: l) M2.
(** a list of transitions without those [n'] does not have *)
Definition restrict (n' : net) (l : list string) : list string := filter (fun t => mem t (keys (transitions n'))) l.
(** [p] was the start place of a transition that [n'] no longer has *)
Definition bypassed (n n' : net) (p : string) : Prop :=
  exists t, has_transition n t /\ ~ has_transition n' t /\ In p (starts n t).
(** no two end places of a transition were made one *)
Definition nothing_merged (n n' : net) : Prop :=
  forall t, has_transition n t ->
    (has_transition n' t -> length (ends n' t) = length (ends n t)) /\ (~ has_transition n' t -> length (ends n t) = 1).
(** [t] does nothing but pass on tokens from a place of its own, which is not
    a source, to another place *)
Definition redundant (n : net) (t : string) : Prop :=
  exists tr s e, dict_get t (transitions n) = Some tr /\ t_visible tr = false /\ t_guard tr = AcceptAlways /\
    t_start tr = [s] /\ t_end tr = [e] /\ s <> e /\ (forall u, In s (starts n u) -> u = t) /\ behind_some n s.
(** the transitions of [l] forced one after the other, none raising *)
Inductive forced (ord : order) : net -> list string -> net -> Prop :=
| forced_nil n : forced ord n [] n
| forced_cons n t n1 l n2 : force_transition ord t n = (n1, None) -> forced ord n1 l n2 -> forced ord n (t :: l) n2.
(** the entries of a marking that agree with the net *)
Definition agrees (n : net) (e : string * Z) : Prop := has_place n (fst e) /\ tokens n (fst e) = snd e.
