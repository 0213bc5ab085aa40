(** Property C129: lists of the ray engine *)
From Coq Require Import ZArith.
From Verif.Model Require Import Base Parallel Ray.
From Verif.Proofs Require RayA.

(** C129: Lists of the ray engine *)
(** the result is that of the sequential map, in the order of the list *)
Theorem C129_map : forall (E R : Type) (f : E -> result R) l sched res, ray_map f l sched = Some res ->
  match local_map f l with
  | Ok rs => res = Ok rs
  | Err _ => exists x e, In x l /\ f x = Err e /\ res = Err e
  end.
Proof. exact @RayA.C129_map. Qed.
Print Assumptions C129_map.
(** in the order of the list; otherwise the exception of the first element for
    which the mapped or the filter function raises one *)
Theorem C129_map_filter : forall (E R : Type) (f : E -> result R) g l sched res, ray_map_filter f g l sched = Some res ->
  (exists rs, local_map_filter f g l = Ok rs /\ res = Ok rs) \/
  (exists pre x post e, l = pre ++ x :: post /\ (forall y, In y pre -> exists r b, f y = Ok r /\ g r = Ok b) /\
     (f x = Err e \/ exists r, f x = Ok r /\ g r = Err e) /\ res = Err e).
Proof. exact @RayA.C129_map_filter. Qed.
Print Assumptions C129_map_filter.
(** from left to right, so that the reducing function need not be commutative or
    associative *)
Theorem C129_map_reduce : forall (E R : Type) (f : E -> result R) red l sched res, ray_map_reduce f red l sched = Some res ->
  match local_map f l with
  | Ok _ => res = local_map_reduce f red l
  | Err _ => exists x e, In x l /\ f x = Err e /\ res = Err e
  end.
Proof. exact @RayA.C129_map_reduce. Qed.
Print Assumptions C129_map_reduce.
(** no schedule runs forever, and none gets stuck before the main program is done *)
Theorem C129_finishes : forall (E R : Type) (f : E -> result R) g (filter : bool) l sched s,
  exec (ray_step f g filter (length l)) sched (ray_init l) = Some s ->
  length sched <= (if filter then 5 * length l + 3 else 2 * length l + 2) /\
  ((exists r, program s = Returned r) \/ exists a s', ray_step f g filter (length l) a s = Some s').
Proof. exact @RayA.C129_finishes. Qed.
Print Assumptions C129_finishes.
Definition inverse (x : Z) : result Z := if (x =? 0)%Z then Err ZeroDivisionError else if (x <? 0)%Z then Err ValueError else Ok (60 / x)%Z.
(** map tasks are run in another order than that of the list; the filter task of the first element has index 3 *)
Example C129_example :
  (ray_map inverse [1; 2; 3]%Z [Step; Step; Run 1; Step; Run 2; Step; Run 0; Step],
   ray_map inverse [1; 0; -2]%Z [Step; Step; Step; Step; Run 2; Step],
   ray_map_filter inverse (fun r => Ok (r <=? 30)%Z) [1; 2; 3]%Z [Step; Step; Run 1; Step; Step; Run 2; Step; Run 0; Run 3; Step; Step; Run 4; Step; Step; Run 5; Step; Step; Step],
   ray_map_reduce inverse (fun a b => Ok (a - b)%Z) [1; 2; 3]%Z [Step; Step; Run 1; Step; Run 2; Step; Run 0; Step])
  = (Some (Ok [60; 30; 20]%Z), Some (Err ValueError), Some (Ok [30; 20]%Z), Some (Ok 10%Z)).
Proof. vm_compute. reflexivity. Qed.
