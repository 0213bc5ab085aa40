(** Properties C50 - C53, C76, C77, C83, C89, C90: data petri nets *)
From Coq Require Import String QArith ZArith.
From Verif.Model Require Import Base PetriNet.
From Verif.Spec Require Import PetriSpec.
From Verif.Proofs Require PetriD PetriE PetriH.
Open Scope string_scope.
Open Scope list_scope.
Open Scope nat_scope.

(** two sources, two sinks, a choice at [p] and a guard on variable 0 *)
Definition shop : net := PetriD.run_net
  [PetriD.AddP "p" 1; PetriD.AddP "q" 1; PetriD.AddP "r" 0; PetriD.AddP "s" 0; PetriD.AddT "both"; PetriD.AddT "one"; PetriD.AddT "other";
   PetriD.Conn "p" "both" "r"; PetriD.Conn "q" "both" "s"; PetriD.Conn "p" "one" "r"; PetriD.Conn "q" "other" "s";
   PetriD.SetG "one" (GreaterGuard 0 (VNum 3)); PetriD.SetG "other" (TrueGuard 1)].
Example shop_built : built shop.
Proof. apply PetriD.run_built. Qed.
Definition as_is : order := fun l => l.
Example as_is_ok : any_order as_is.
Proof. intros l. apply Permutation.Permutation_refl. Qed.
Definition first_one (p : string) (l : list string) : string := hd "" l.
Definition last_one (p : string) (l : list string) : string := last l "".
Example first_one_ok : any_pick first_one.
Proof. intros p [|x l] H; [congruence|]. cbn. auto. Qed.

(** C50: Token counts never become negative under simulation *)
(** no public method makes a token count negative *)
Theorem C50_tokens_non_negative : forall n p, built n -> (0 <= tokens n p)%Z.
Proof. exact @PetriD.C50_tokens_non_negative. Qed.
Print Assumptions C50_tokens_non_negative.
(** one simulated step: every place with a token picks one of the transitions
    behind it whose guard accepts; the transitions picked by all their start
    places, and only they, fire; each takes one token from every start place
    and puts one on every end place; nothing but tokens changes *)
Theorem C50_step : forall st ord pick n n', built n -> any_order ord -> any_pick pick ->
  simulate_one_timestep st ord pick n = Ok n' ->
  same_structure n n' /\ exists opts fired,
    (forall p, (1 <= tokens n p)%Z -> options st n p (opts p)) /\ NoDup fired /\
    (forall t, In t fired <-> starts n t <> [] /\
       forall p, In p (starts n t) -> (1 <= tokens n p)%Z /\ opts p <> [] /\ pick p (opts p) = t) /\
    forall p, tokens n' p = (tokens n p + fold_right Z.add 0 (map (fun t => effect n t p) fired))%Z.
Proof. exact @PetriD.C50_step. Qed.
Print Assumptions C50_step.
(** a step fails only with the exception of a guard *)
Theorem C50_step_error : forall st ord pick n e, built n -> any_order ord -> any_pick pick ->
  simulate_one_timestep st ord pick n = Err e -> exists t, has_transition n t /\ accept st (guard_of n t) = Err e.
Proof. exact @PetriD.C50_step_error. Qed.
Print Assumptions C50_step_error.
Example C50_example :
  let st := [VNum 5; VBool false] in
  (match simulate_one_timestep st as_is first_one shop with Ok n => marking n | Err _ => [] end,
   match simulate_one_timestep st as_is last_one shop with Ok n => marking n | Err _ => [] end,
   match simulate_one_timestep [VNum 5; VNum 1] as_is last_one shop with Ok n => marking n | Err _ => [] end,
   match simulate_one_timestep [VNone] as_is first_one shop with Ok _ => None | Err e => Some e end) =
  ([("p", 0); ("q", 0); ("r", 1); ("s", 1)]%Z, [("p", 0); ("q", 1); ("r", 1); ("s", 0)]%Z,
   [("p", 0); ("q", 0); ("r", 1); ("s", 1)]%Z, Some TypeError).
Proof. vm_compute. reflexivity. Qed.

(** C51: Forcing a transition *)
Theorem C51_fires_iff_enabled : forall ord n t, built n -> any_order ord ->
  snd (force_transition ord t n) = None <-> has_transition n t /\ enabled n t.
Proof. exact @PetriD.C51_fires_iff_enabled. Qed.
Print Assumptions C51_fires_iff_enabled.
Theorem C51_effect : forall ord n t n', built n -> any_order ord -> force_transition ord t n = (n', None) ->
  same_structure n n' /\ forall p, tokens n' p = (tokens n p + effect n t p)%Z.
Proof. exact @PetriD.C51_effect. Qed.
Print Assumptions C51_effect.
(** on failure the net is not always unchanged: some start places may already
    have lost a token *)
Theorem C51_raises : forall ord n t n' e, built n -> any_order ord -> force_transition ord t n = (n', Some e) ->
  e = ValueError /\ same_structure n n' /\
  ((~ has_transition n t /\ n' = n) \/
   (has_transition n t /\ ~ enabled n t /\ exists lost, NoDup lost /\
      (forall p, In p lost -> In p (starts n t) /\ (1 <= tokens n p)%Z) /\
      forall p, tokens n' p = (tokens n p - if mem p lost then 1 else 0)%Z)).
Proof. exact @PetriD.C51_raises. Qed.
Print Assumptions C51_raises.
Theorem C51_not_atomic : exists ord n t n', built n /\ any_order ord /\ force_transition ord t n = (n', Some ValueError) /\
  exists p, tokens n' p = (tokens n p - 1)%Z.
Proof. exact @PetriD.C51_not_atomic. Qed.
Print Assumptions C51_not_atomic.
Example C51_example :
  (match force_transition as_is "both" shop with (n, None) => marking n | _ => [] end, snd (force_transition as_is "none" shop)) =
  ([("p", 0); ("q", 0); ("r", 1); ("s", 1)]%Z, Some ValueError).
Proof. vm_compute. reflexivity. Qed.

(** C52: Workflow net transformation *)
(** [is_workflow_net] is the documented notion *)
Theorem C52_is_workflow_net : forall n, built n -> is_workflow_net n = true <-> (exists! p, source n p) /\ (exists! p, sink n p).
Proof. exact @PetriD.C52_is_workflow_net. Qed.
Print Assumptions C52_is_workflow_net.
(** sources and sinks are joined into one each; the transformation fails only
    when an id it chooses is taken *)
Theorem C52_transform : forall ord st n, built n -> any_order ord -> exists so si,
  lists so (source n) /\ lists si (sink n) /\
  let a := String.concat "," so in let b := String.concat "," si in
  let taken := (1 < length so /\ (has_place n a \/ exists p, In p so /\ has_transition n p)) \/
    (1 < length si /\ (has_place n b \/ (1 < length so /\ a = b))) in
  match transform_to_workflow_net ord st n with
  | Ok (n', _) => ~ taken /\
      extends n n' ((if 1 <? length so then [a] else []) ++ (if 1 <? length si then [b] else [])) /\
      (forall p, source n' p <-> if 1 <? length so then p = a else In p so) /\
      (forall p, sink n' p <-> if 1 <? length si then p = b else In p si)
  | Err e => e = ValueError /\ taken
  end.
Proof. exact @PetriD.C52_transform. Qed.
Print Assumptions C52_transform.
Theorem C52_result_is_workflow_net : forall ord st n n' st', built n -> any_order ord -> transform_to_workflow_net ord st n = Ok (n', st') ->
  is_workflow_net n' = true <-> (exists p, source n p) /\ (exists p, sink n p).
Proof. exact @PetriD.C52_result_is_workflow_net. Qed.
Print Assumptions C52_result_is_workflow_net.
Example C52_example :
  match transform_to_workflow_net as_is [] shop with
  | Ok (n, _) => (is_workflow_net shop, is_workflow_net n, get_source_sink_places n, keys (transitions n))
  | Err _ => (true, false, ([], []), [])
  end = (false, true, (["p,q"], ["r,s"]), ["both"; "one"; "other"; "p"; "q"; "r"; "s"]).
Proof. vm_compute. reflexivity. Qed.
(** a net whose transition has the id of one of two sources *)
Example C52_taken :
  transform_to_workflow_net as_is [] (PetriD.run_net
    [PetriD.AddP "p" 1; PetriD.AddP "q" 1; PetriD.AddP "r" 0; PetriD.AddT "p"; PetriD.Conn "p" "p" "r"; PetriD.Conn "q" "p" "r"]) = Err ValueError.
Proof. vm_compute. reflexivity. Qed.

(** C53: Fresh ids *)
(** the first free one of id, id', id'', ... *)
Theorem C53_make_id_unique : forall id existing, exists k, make_id_unique id existing = Ok (quoted id k) /\
  ~ In (quoted id k) existing /\ forall j, j < k -> In (quoted id j) existing.
Proof. exact @PetriD.C53_make_id_unique. Qed.
Print Assumptions C53_make_id_unique.
Theorem C53_free_id_kept : forall id existing, ~ In id existing -> make_id_unique id existing = Ok id.
Proof. exact @PetriD.C53_free_id_kept. Qed.
Print Assumptions C53_free_id_kept.
Example C53_example : make_id_unique "a" ["b"; "a'"; "a"] = Ok "a''" /\ make_id_unique "c" ["b"; "a"] = Ok "c".
Proof. vm_compute. auto. Qed.

(** C76: Fireable transitions *)
(** exactly what is listed, in the order of the transitions: an accepting guard
    (unless guards are ignored) and as many tokens before the transition, in
    total, as it has start places *)
Theorem C76_exact : forall st ignore n l, built n -> get_fireable_transitions st ignore n = Ok l ->
  exists f, l = filter f (keys (transitions n)) /\
  forall t, has_transition n t -> f t = true <->
    (ignore = true \/ accept st (guard_of n t) = Ok true) /\
    fold_right Z.add 0%Z (map (tokens n) (starts n t)) = Z.of_nat (length (starts n t)).
Proof. exact @PetriD.C76_exact. Qed.
Print Assumptions C76_exact.
Theorem C76_error : forall st ignore n e, built n -> get_fireable_transitions st ignore n = Err e ->
  ignore = false /\ exists t, has_transition n t /\ accept st (guard_of n t) = Err e.
Proof. exact @PetriD.C76_error. Qed.
Print Assumptions C76_error.
(** on nets with at most one token per place these are the enabled transitions *)
Theorem C76_safe_marking : forall st ignore n l, built n -> (forall p, (tokens n p <= 1)%Z) ->
  get_fireable_transitions st ignore n = Ok l ->
  exists f, l = filter f (keys (transitions n)) /\
  forall t, has_transition n t -> f t = true <->
    (ignore = true \/ accept st (guard_of n t) = Ok true) /\ enabled n t.
Proof. exact @PetriD.C76_safe_marking. Qed.
Print Assumptions C76_safe_marking.
(** in general it is neither: one start place with two tokens and one with none
    is listed though it cannot fire, and two tokens before a transition with one
    start place are not listed though it can fire *)
Theorem C76_unsafe_markings : exists st n l t u, built n /\ get_fireable_transitions st false n = Ok l /\
  (In t l /\ ~ enabled n t) /\ (has_transition n u /\ accept st (guard_of n u) = Ok true /\ enabled n u /\ ~ In u l).
Proof. exact @PetriD.C76_unsafe_markings. Qed.
Print Assumptions C76_unsafe_markings.
Example C76_example :
  get_fireable_transitions [VNum 5; VBool false] false shop = Ok ["both"; "one"] /\
  get_fireable_transitions [VNum 5; VBool false] true shop = Ok ["both"; "one"; "other"] /\
  get_fireable_transitions [VNone] false shop = Err TypeError /\
  forallb (fun '(_, k) => (k <=? 1)%Z) (marking shop) = true.
Proof. vm_compute. auto. Qed.

(** C77: Copying a net *)
Theorem C77_copy : forall st n, built n -> exists n' st', copy st n = Ok (n', st') /\
  places n' = places n /\ transitions n' = transitions n /\ keys (variables n') = keys (variables n) /\
  firstn (length st) st' = st /\
  map (fun r => value st' r) (map snd (variables n')) = map (fun r => value st r) (map snd (variables n)) /\
  forall x r, dict_get x (variables n') = Some r -> length st <= r < length st'.
Proof. exact @PetriD.C77_copy. Qed.
Print Assumptions C77_copy.
(** the guards of the copy still look at the variables of the original: setting
    variables of the copy never changes whether its transitions may fire *)
Theorem C77_guards_not_rebound : forall st n n' st' ext t, built n -> copy st n = Ok (n', st') ->
  (forall t, looks_below (length st) (guard_of n t)) ->
  accept (st ++ ext) (guard_of n' t) = accept st (guard_of n t).
Proof. exact @PetriD.C77_guards_not_rebound. Qed.
Print Assumptions C77_guards_not_rebound.
Example C77_example :
  match add_variable "x" 0 shop with
  | Ok n => match copy [VNum 5; VBool false] n with
            | Ok (n', st') => (marking n', variables n', length st')
            | Err _ => ([], [], 0)
            end
  | Err _ => ([], [], 0)
  end = ([("p", 1); ("q", 1); ("r", 0); ("s", 0)]%Z, [("x", 2)], 3) /\
  forallb (fun t => match guard_of shop t with GreaterGuard r _ | TrueGuard r => r <? 2 | _ => true end) (keys (transitions shop)) = true.
Proof. vm_compute. auto. Qed.

(** C83: Guards *)
(** The guards compare the current value of their variable with the constant
    as their names say. *)
Theorem C83_comparisons : forall st r c a b, counts_as (value st r) a -> counts_as c b ->
  (accept st (EqualGuard r c) = Ok true /\ (a == b)%Q \/ accept st (EqualGuard r c) = Ok false /\ ~ (a == b)%Q) /\
  (accept st (SmallerGuard r c) = Ok true /\ (a < b)%Q \/ accept st (SmallerGuard r c) = Ok false /\ (b <= a)%Q) /\
  (accept st (SmallerOrEqualGuard r c) = Ok true /\ (a <= b)%Q \/ accept st (SmallerOrEqualGuard r c) = Ok false /\ (b < a)%Q) /\
  (accept st (GreaterGuard r c) = Ok true /\ (b < a)%Q \/ accept st (GreaterGuard r c) = Ok false /\ (a <= b)%Q) /\
  (accept st (GreaterOrEqualGuard r c) = Ok true /\ (b <= a)%Q \/ accept st (GreaterOrEqualGuard r c) = Ok false /\ (a < b)%Q).
Proof. exact @PetriE.C83_comparisons. Qed.
Print Assumptions C83_comparisons.
(** A variable without a value: it only equals None, comparing its size raises
    TypeError, and it counts as false. *)
Theorem C83_none : forall st r c, value st r = VNone ->
  (accept st (EqualGuard r c) = Ok true <-> c = VNone) /\ (accept st (EqualGuard r c) = Ok false <-> c <> VNone) /\
  accept st (SmallerGuard r c) = Err TypeError /\ accept st (SmallerOrEqualGuard r c) = Err TypeError /\
  accept st (GreaterGuard r c) = Err TypeError /\ accept st (GreaterOrEqualGuard r c) = Err TypeError /\
  accept st (TrueGuard r) = Ok false /\ accept st (FalseGuard r) = Ok true.
Proof. exact @PetriE.C83_none. Qed.
Print Assumptions C83_none.
(** The guards on truth values, the guard that always accepts, and the guard
    given as a function. *)
Theorem C83_truth : forall st r a f, counts_as (value st r) a ->
  (accept st (TrueGuard r) = Ok true /\ accept st (FalseGuard r) = Ok false /\ ~ (a == 0)%Q \/
   accept st (TrueGuard r) = Ok false /\ accept st (FalseGuard r) = Ok true /\ (a == 0)%Q) /\
  accept st AcceptAlways = Ok true /\ accept st (LambdaGuard r f) = f (value st r).
Proof. exact @PetriE.C83_truth. Qed.
Print Assumptions C83_truth.
(** A conjunction accepts if all its guards do; otherwise the first guard that
    does not accept decides: it rejects, or raises what that guard raises. *)
Theorem C83_all_of : forall st gs,
  (accept st (AllOfGuard gs) = Ok true <-> Forall (fun g => accept st g = Ok true) gs) /\
  (accept st (AllOfGuard gs) = Ok false <-> decided_by st gs (Ok false)) /\
  (forall e, accept st (AllOfGuard gs) = Err e <-> decided_by st gs (Err e)).
Proof. exact @PetriE.C83_all_of. Qed.
Print Assumptions C83_all_of.
Example C83_example :
  let st := [VNum (3 # 2); VBool true; VNone] in
  map (accept st) [SmallerGuard 0 (VNum (3 # 2)); SmallerOrEqualGuard 0 (VNum (6 # 4)); GreaterGuard 0 (VBool true);
                   GreaterOrEqualGuard 2 (VNum 1); EqualGuard 1 (VNum 1); AllOfGuard [TrueGuard 1; FalseGuard 2; TrueGuard 2; SmallerGuard 2 VNone]] =
  [Ok false; Ok true; Ok true; Err TypeError; Ok true; Ok false].
Proof. reflexivity. Qed.

(** C89: Markings *)
(** [get_marking] gives every place with its tokens. *)
Theorem C89_get_marking : forall n, built n -> NoDup (keys (get_marking n)) /\
  forall p k, dict_get p (get_marking n) = Some k <-> has_place n p /\ tokens n p = k.
Proof. exact @PetriH.C89_get_marking. Qed.
Print Assumptions C89_get_marking.
(** [set_marking] sets the places it is given and leaves the others alone; it
    accepts negative numbers; an unknown place raises KeyError. *)
Theorem C89_set_marking : forall n m, built n -> NoDup (keys m) ->
  ((forall p, In p (keys m) -> has_place n p) ->
     exists n', set_marking m n = Ok n' /\ same_structure n n' /\
       forall p, tokens n' p = match dict_get p m with Some k => k | None => tokens n p end) /\
  ((exists p, In p (keys m) /\ ~ has_place n p) -> set_marking m n = Err KeyError).
Proof. exact @PetriH.C89_set_marking. Qed.
Print Assumptions C89_set_marking.
(** a failing [set_marking]: the entries before the first unknown place are set, the others are not *)
Theorem C89_set_marking_fails : forall n pre p k post, built n -> NoDup (keys (pre ++ (p, k) :: post)) ->
  (forall q, In q (keys pre) -> has_place n q) -> ~ has_place n p ->
  exists n', set_marking_loop (pre ++ (p, k) :: post) n = (n', Some KeyError) /\ same_structure n n' /\
    forall q, tokens n' q = match dict_get q pre with Some k => k | None => tokens n q end.
Proof. exact @PetriH.C89_set_marking_fails. Qed.
Print Assumptions C89_set_marking_fails.
(** otherwise the net is left as [set_marking] says *)
Theorem C89_set_marking_loop : forall n m, built n -> NoDup (keys m) -> (forall p, In p (keys m) -> has_place n p) ->
  exists n', set_marking_loop m n = (n', None) /\ set_marking m n = Ok n'.
Proof. exact @PetriH.C89_set_marking_loop. Qed.
Print Assumptions C89_set_marking_loop.
(** [matches_marking] is true iff every entry agrees with the net; the first
    entry that does not decides between false and KeyError. *)
Theorem C89_matches_marking : forall n m,
  (matches_marking m n = Ok true <-> Forall (agrees n) m) /\
  (matches_marking m n = Ok false <-> exists pre p k post, m = pre ++ (p, k) :: post /\ Forall (agrees n) pre /\ has_place n p /\ tokens n p <> k) /\
  (forall e, matches_marking m n = Err e <-> e = KeyError /\ exists pre p k post, m = pre ++ (p, k) :: post /\ Forall (agrees n) pre /\ ~ has_place n p).
Proof. exact @PetriH.C89_matches_marking. Qed.
Print Assumptions C89_matches_marking.
(** A saved marking brings the net back exactly, whatever was simulated in
    between; the net matches a marking just set and its own marking. *)
Theorem C89_roundtrip : forall n, built n ->
  (forall n', same_structure n n' -> set_marking (get_marking n) n' = Ok n) /\
  matches_marking (get_marking n) n = Ok true /\
  (forall m n', NoDup (keys m) -> set_marking m n = Ok n' -> matches_marking m n' = Ok true).
Proof. exact @PetriH.C89_roundtrip. Qed.
Print Assumptions C89_roundtrip.
Example C89_example :
  get_marking shop = [("p", 1); ("q", 1); ("r", 0); ("s", 0)]%Z /\
  (do n <- set_marking [("r", 4); ("p", 0)]%Z shop ; Ok (get_marking n)) = Ok [("p", 0); ("q", 1); ("r", 4); ("s", 0)]%Z /\
  set_marking [("r", 4); ("z", 0)]%Z shop = Err KeyError /\
  (let '(n, e) := set_marking_loop [("r", 4); ("z", 0); ("p", 7)]%Z shop in (get_marking n, e)) =
    ([("p", 1); ("q", 1); ("r", 4); ("s", 0)]%Z, Some KeyError) /\
  matches_marking [("q", 1); ("r", 0)]%Z shop = Ok true /\ matches_marking [("q", 0); ("z", 0)]%Z shop = Ok false /\
  matches_marking [("q", 1); ("z", 0)]%Z shop = Err KeyError.
Proof. vm_compute. intuition. Qed.

(** C90: Pruning *)
(** [prune] always succeeds. What remains keeps its label, visibility, guard
    and start places, gets no more end places, and every visible or guarded
    transition remains; a removed transition was invisible, unguarded and the
    only one behind its single start place, which was not a source. The places
    that remain are those at a remaining transition, with label and tokens as
    before. *)
Theorem C90_structure : forall ord n, built n -> any_order ord -> exists n', prune ord n = Ok n' /\ built n' /\ variables n' = variables n /\
  (forall t tr', dict_get t (transitions n') = Some tr' -> exists tr, dict_get t (transitions n) = Some tr /\
     t_label tr' = t_label tr /\ t_visible tr' = t_visible tr /\ t_guard tr' = t_guard tr /\ t_start tr' = t_start tr /\
     length (t_end tr') <= length (t_end tr)) /\
  (forall t tr, dict_get t (transitions n) = Some tr -> has_transition n' t \/
     (t_visible tr = false /\ t_guard tr = AcceptAlways /\ exists s, t_start tr = [s] /\ (forall u, In s (starts n u) -> u = t) /\
        ~ before_some n' s /\ ~ source n s)) /\
  (forall p, has_place n' p <-> before_some n' p \/ behind_some n' p) /\
  (forall p pl', dict_get p (places n') = Some pl' -> exists pl, dict_get p (places n) = Some pl /\ p_label pl' = p_label pl /\ p_tokens pl' = p_tokens pl).
Proof. exact @PetriH.C90_structure. Qed.
Print Assumptions C90_structure.
(** A transition with one end place that is still redundant is not left over;
    so without merged places nothing redundant remains. *)
Theorem C90_complete : forall ord n n', built n -> any_order ord -> prune ord n = Ok n' ->
  forall t, length (ends n t) = 1 -> ~ redundant n' t.
Proof. exact @PetriH.C90_complete. Qed.
Print Assumptions C90_complete.
(** What a run is: forcing its transitions one after the other succeeds, and
    every guard accepts. *)
Theorem C90_runs : forall ord n st l M, built n -> any_order ord ->
  run n st (tokens n) l M <->
  (forall t, In t l -> has_transition n t /\ accept st (guard_of n t) = Ok true) /\
  exists n', forced ord n l n' /\ same_structure n n' /\ forall p, M p = tokens n' p.
Proof. exact @PetriH.C90_runs. Qed.
Print Assumptions C90_runs.
(** If no end places of a transition were merged and no token lies on a place
    that goes, every run of the net is, without the removed transitions, a run
    of the pruned net; it ends in the same marking when no token is left on a
    place that went. *)
Theorem C90_runs_kept : forall ord n n' st l M, built n -> any_order ord -> prune ord n = Ok n' ->
  nothing_merged n n' -> (forall p, bypassed n n' p -> tokens n p = 0%Z) ->
  run n st (tokens n) l M ->
  exists M', run n' st (tokens n') (restrict n' l) M' /\
    ((forall p, bypassed n n' p -> M p = 0%Z) -> forall p, has_place n' p -> M' p = M p).
Proof. exact @PetriH.C90_runs_kept. Qed.
Print Assumptions C90_runs_kept.
(** Conversely every run of the pruned net is a run of the net, with removed
    transitions put in, to the same marking. *)
Theorem C90_runs_new : forall ord n n' st l' M', built n -> any_order ord -> prune ord n = Ok n' ->
  nothing_merged n n' -> (forall p, bypassed n n' p -> tokens n p = 0%Z) ->
  run n' st (tokens n') l' M' ->
  exists l M, run n st (tokens n) l M /\ restrict n' l = l' /\ (forall p, has_place n' p -> M p = M' p) /\
    forall p, bypassed n n' p -> M p = 0%Z.
Proof. exact @PetriH.C90_runs_new. Qed.
Print Assumptions C90_runs_new.
(** Where end places are merged, a run can be lost: two tokens in the same
    place become one. *)
Theorem C90_merged_witness : exists ord n n' st l M, built n /\ any_order ord /\ prune ord n = Ok n' /\
  (forall p, bypassed n n' p -> tokens n p = 0%Z) /\ run n st (tokens n) l M /\
  ~ exists M', run n' st (tokens n') (restrict n' l) M'.
Proof. exact @PetriH.C90_merged_witness. Qed.
Print Assumptions C90_merged_witness.
(** A token on a place that goes is lost. *)
Theorem C90_tokens_witness : exists ord n n' st l M, built n /\ any_order ord /\ prune ord n = Ok n' /\
  nothing_merged n n' /\ run n st (tokens n) l M /\
  ~ exists M', run n' st (tokens n') (restrict n' l) M'.
Proof. exact @PetriH.C90_tokens_witness. Qed.
Print Assumptions C90_tokens_witness.
(** a net in which an invisible transition is pruned and nothing is merged *)
Definition detour : net := PetriD.run_net
  [PetriD.AddP "i" 2; PetriD.AddP "s" 0; PetriD.AddP "e" 0; PetriD.AddP "o" 0; PetriD.AddT "u"; PetriD.AddI "t"; PetriD.AddT "v";
   PetriD.Conn "i" "u" "s"; PetriD.Conn "s" "t" "e"; PetriD.Conn "e" "v" "o"].
Example C90_example :
  built detour /\ PetriSpec.redundant detour "t" /\
  exists n', prune as_is detour = Ok n' /\ keys (transitions n') = ["u"; "v"] /\ ends n' "u" = ["e"] /\
    get_marking n' = [("i", 2); ("e", 0); ("o", 0)]%Z /\
    nothing_merged detour n' /\ bypassed detour n' "s" /\ (forall p, bypassed detour n' p -> tokens detour p = 0%Z).
Proof.
  split; [apply PetriD.run_built|]. split.
  { exists (Transition "t" false ["s"] ["e"] AcceptAlways), "s", "e". split; [reflexivity|]. do 4 (split; [reflexivity|]).
    split; [discriminate|]. split; [|exists "u"; vm_compute; auto].
    intros u. unfold starts. change (transitions detour) with
      [("u", Transition "u" true ["i"] ["s"] AcceptAlways); ("t", Transition "t" false ["s"] ["e"] AcceptAlways); ("v", Transition "v" true ["e"] ["o"] AcceptAlways)].
    cbn [dict_get]. destruct (eqb_ok u "u"); [intros [E|[]]; discriminate|]. destruct (eqb_ok u "t"); [auto|].
    destruct (eqb_ok u "v"); [intros [E|[]]; discriminate|intros []]. }
  eexists. split; [vm_compute; reflexivity|]. split; [reflexivity|]. split; [reflexivity|]. split; [reflexivity|]. split; [|split].
  - intros t Ht. vm_compute in Ht. destruct Ht as [<-|[<-|[<-|[]]]]; (split; [|intros; reflexivity]); intros Hx; try reflexivity.
    vm_compute in Hx. destruct Hx as [E|[E|[]]]; discriminate.
  - exists "t". split; [vm_compute; auto|]. split; [|vm_compute; auto]. intros Hx. vm_compute in Hx. destruct Hx as [E|[E|[]]]; discriminate.
  - intros p (t & Ht & Hn & Hp). vm_compute in Ht. destruct Ht as [<-|[<-|[<-|[]]]].
    + exfalso. apply Hn. vm_compute. auto.
    + vm_compute in Hp. destruct Hp as [<-|[]]. reflexivity.
    + exfalso. apply Hn. vm_compute. auto.
Qed.
