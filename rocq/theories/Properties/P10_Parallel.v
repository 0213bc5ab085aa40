(** Properties C54 - C56: parallel lists *)
From Coq Require Import ZArith Permutation.
From Verif.Model Require Import Base ListUtils Parallel.
From Verif.Spec Require Import ParallelSpec.
From Verif.Proofs Require ParallelB.

Definition square (x : Z) : result Z := if (x =? 0)%Z then Err ValueError else if (x <? 0)%Z then Err StopIteration else Ok (x * x)%Z.
Definition is_odd (x : Z) : result bool := Ok (Z.odd x).
Definition no_exc (x : Z) : option error := None.
Definition sched1 : list mp_act := [Put 1; Put 0; Get; Put 1; Get; Put 0; Get; Put 0; Get; Get].
Definition sched2 : list mp_act := [Put 1; Put 0; Get; Put 1; Put 0; Get; Get; Get; Put 0; Get].
Definition tsched1 : list th_act := [Append 1; Append 0; Append 0; Join; Join].

(** C54: Ordered parallel map equals sequential map *)
Theorem C54_multiprocess : forall (E R : Type) (exc : R -> option error) (f : E -> result R) n l rs sched res,
  (1 <= n)%Z -> l <> [] -> local_map f l = Ok rs -> (forall r, In r rs -> exc r = None) ->
  mp_map_ordered exc f n l sched = Some res -> res = Ok rs.
Proof. exact @ParallelB.C54_multiprocess. Qed.
Print Assumptions C54_multiprocess.
(** also when the function raises *)
Theorem C54_threading : forall (E R : Type) (f : E -> result R) n l sched res, (1 <= n)%Z -> l <> [] ->
  th_map_ordered f n l sched = Some res -> res = local_map f l.
Proof. exact @ParallelB.C54_threading. Qed.
Print Assumptions C54_threading.
(** the empty list is not mapped to the empty list *)
Theorem C54_empty_list : forall (E R : Type) (exc : R -> option error) (f : E -> result R) n,
  (forall sched, mp_map_ordered exc f n [] sched = Some (Err ZeroDivisionError)) /\
  (forall sched, th_map_ordered f n [] sched = Some (Err ZeroDivisionError)) /\ local_map f [] = Ok [].
Proof. exact @ParallelB.C54_empty_list. Qed.
Print Assumptions C54_empty_list.
(** no schedule runs forever, and none gets stuck before the main program is done *)
Theorem C54_multiprocess_finishes : forall (E R : Type) (exc : R -> option error) (f : E -> result R) n l ps sched s,
  view_of_n_partitions l n = Ok ps ->
  exec (mpo_step exc) sched (mpo_init (map (mp_map_worker f) ps)) = Some s ->
  length sched <= 2 * (length l + length ps) /\
  ((exists r, main_o s = DoneO r) \/ exists a s', mpo_step exc a s = Some s').
Proof. exact @ParallelB.C54_multiprocess_finishes. Qed.
Print Assumptions C54_multiprocess_finishes.
Theorem C54_threading_finishes : forall (E R : Type) (f : E -> result R) n l ps sched s,
  view_of_n_partitions l n = Ok ps ->
  exec (th_step false) sched (th_init false (map (th_map_worker f) ps)) = Some s ->
  length sched <= length l + length ps /\
  ((exists r, join_st s = Joined r) \/ exists a s', th_step false a s = Some s').
Proof. exact @ParallelB.C54_threading_finishes. Qed.
Print Assumptions C54_threading_finishes.
Example C54_example :
  (mp_map_ordered no_exc square 2 [1; 2; 3]%Z sched1, mp_map_ordered no_exc square 2 [1; 2; 3]%Z sched2,
   th_map_ordered square 2 [1; 2; 3]%Z tsched1, th_map_ordered square 2 [1; 0; 3]%Z [Append 1; Append 0; Join]) =
  (Some (Ok [1; 4; 9]%Z), Some (Ok [1; 4; 9]%Z), Some (Ok [1; 4; 9]%Z), Some (Err ValueError)).
Proof. vm_compute. reflexivity. Qed.

(** C55: Unordered parallel map, filter-map and reduce *)
Theorem C55_multiprocess_map : forall (E R : Type) (exc : R -> option error) (f : E -> result R) n l rs sched res,
  (1 <= n)%Z -> l <> [] -> local_map f l = Ok rs -> (forall r, In r rs -> exc r = None) ->
  mp_map_unordered exc f n l sched = Some res -> exists rs', res = Ok rs' /\ Permutation rs' rs.
Proof. exact @ParallelB.C55_multiprocess_map. Qed.
Print Assumptions C55_multiprocess_map.
Theorem C55_multiprocess_map_filter : forall (E R : Type) (exc : R -> option error) (f : E -> result R) g n l rs sched res,
  (1 <= n)%Z -> l <> [] -> local_map_filter f g l = Ok rs -> (forall r, In r rs -> exc r = None) ->
  mp_map_filter exc f g n l sched = Some res -> exists rs', res = Ok rs' /\ Permutation rs' rs.
Proof. exact @ParallelB.C55_multiprocess_map_filter. Qed.
Print Assumptions C55_multiprocess_map_filter.
Theorem C55_multiprocess_map_reduce : forall (E R : Type) (exc : R -> option error) (f : E -> result R) op n l rs v sched res,
  (1 <= n)%Z -> assoc_comm op -> local_map f l = Ok rs -> (forall r, In r rs -> exc r = None) -> (forall a b, exc (op a b) = None) ->
  local_map_reduce f (fun a b => Ok (op a b)) l = Ok v ->
  mp_map_reduce exc f (fun a b => Ok (op a b)) n l sched = Some res -> res = Ok v.
Proof. exact @ParallelB.C55_multiprocess_map_reduce. Qed.
Print Assumptions C55_multiprocess_map_reduce.
(** threads: also when the function raises, then with the exception of the
    sequential map *)
Theorem C55_threading_map : forall (E R : Type) (f : E -> result R) n l sched res, (1 <= n)%Z -> l <> [] ->
  th_map_unordered f n l sched = Some res ->
  match local_map f l with
  | Ok rs => exists rs', res = Ok rs' /\ Permutation rs' rs
  | Err e => res = Err e
  end.
Proof. exact @ParallelB.C55_threading_map. Qed.
Print Assumptions C55_threading_map.
Theorem C55_threading_map_filter : forall (E R : Type) (f : E -> result R) g n l sched res, (1 <= n)%Z -> l <> [] ->
  th_map_filter f g n l sched = Some res ->
  match local_map_filter f g l with
  | Ok rs => exists rs', res = Ok rs' /\ Permutation rs' rs
  | Err _ => exists e x, res = Err e /\ In x l /\ (f x = Err e \/ exists r, f x = Ok r /\ g r = Err e)
  end.
Proof. exact @ParallelB.C55_threading_map_filter. Qed.
Print Assumptions C55_threading_map_filter.
Theorem C55_threading_map_reduce : forall (E R : Type) (f : E -> result R) op n l sched res, (1 <= n)%Z -> l <> [] -> assoc_comm op ->
  th_map_reduce f (fun a b => Ok (op a b)) n l sched = Some res -> res = local_map_reduce f (fun a b => Ok (op a b)) l.
Proof. exact @ParallelB.C55_threading_map_reduce. Qed.
Print Assumptions C55_threading_map_reduce.
Theorem C55_multiprocess_finishes : forall (E R : Type) (exc : R -> option error) (f : E -> result R) g red w n l ps sched s,
  In w [mp_map_worker f; mp_map_filter_worker f g; mp_map_reduce_worker f red] -> view_of_n_partitions l n = Ok ps ->
  exec (mp_step exc (length ps)) sched (mp_init (map w ps)) = Some s ->
  length sched <= 2 * (length l + length ps) /\
  ((exists r, main s = Done r) \/ exists a s', mp_step exc (length ps) a s = Some s').
Proof. exact @ParallelB.C55_multiprocess_finishes. Qed.
Print Assumptions C55_multiprocess_finishes.
Theorem C55_threading_finishes : forall (E R : Type) (f : E -> result R) g red w n l ps sched s,
  In w [th_map_worker f; th_map_filter_worker f g; th_map_reduce_worker f red] -> view_of_n_partitions l n = Ok ps ->
  exec (th_step true) sched (th_init true (map w ps)) = Some s ->
  length sched <= length l + length ps /\
  ((exists r, join_st s = Joined r) \/ exists a s', th_step true a s = Some s').
Proof. exact @ParallelB.C55_threading_finishes. Qed.
Print Assumptions C55_threading_finishes.
Example C55_example :
  (mp_map_unordered no_exc square 2 [1; 2; 3]%Z sched1, mp_map_filter no_exc square is_odd 2 [1; 3; 2]%Z [Put 1; Put 0; Put 0; Get; Get; Put 0; Get; Get],
   mp_map_reduce no_exc square (fun a b => Ok (a + b)%Z) 2 [1; 2; 3]%Z [Put 1; Put 1; Put 0; Get; Get; Put 0; Get; Get],
   th_map_unordered square 2 [1; 2; 3]%Z tsched1, th_map_filter square is_odd 2 [1; 2; 3]%Z [Append 1; Append 0; Join; Join],
   th_map_reduce square (fun a b => Ok (a + b)%Z) 2 [1; 2; 3]%Z [Append 1; Append 0; Join; Join]) =
  (Some (Ok [9; 1; 4]%Z), Some (Ok [1; 9]%Z), Some (Ok 14%Z), Some (Ok [9; 1; 4]%Z), Some (Ok [9; 1]%Z), Some (Ok 14%Z)).
Proof. vm_compute. reflexivity. Qed.
Example C55_sum : assoc_comm Z.add.
Proof. split; intros; [apply Z.add_assoc|apply Z.add_comm]. Qed.

(** C56: Failures of the mapped function surface *)
Theorem C56_multiprocess_map : forall (E R : Type) (exc : R -> option error) (f : E -> result R) n l x e, (1 <= n)%Z ->
  In x l -> yields exc f x e -> (forall y, In y l -> ~ yields exc f y StopIteration) ->
  (forall sched res, mp_map_ordered exc f n l sched = Some res -> exists y e', res = Err e' /\ In y l /\ yields exc f y e') /\
  (forall sched res, mp_map_unordered exc f n l sched = Some res -> exists y e', res = Err e' /\ In y l /\ yields exc f y e').
Proof. exact @ParallelB.C56_multiprocess_map. Qed.
Print Assumptions C56_multiprocess_map.
(** exceptions of the filter function are treated alike *)
Theorem C56_multiprocess_map_filter : forall (E R : Type) (exc : R -> option error) (f : E -> result R) g n l x e, (1 <= n)%Z ->
  let raises y e := f y = Err e \/ exists r, f y = Ok r /\ g r = Err e in
  In x l -> raises x e -> (forall y, In y l -> ~ raises y StopIteration) -> (forall r, exc r = None) ->
  forall sched res, mp_map_filter exc f g n l sched = Some res -> exists y e', res = Err e' /\ In y l /\ raises y e'.
Proof. exact @ParallelB.C56_multiprocess_map_filter. Qed.
Print Assumptions C56_multiprocess_map_filter.
(** in a reduction even StopIteration surfaces, as RuntimeError *)
Theorem C56_multiprocess_map_reduce : forall (E R : Type) (exc : R -> option error) (f : E -> result R) op n l x e, (1 <= n)%Z ->
  In x l -> f x = Err e -> (forall r, exc r = None) ->
  forall sched res, mp_map_reduce exc f (fun a b => Ok (op a b)) n l sched = Some res ->
  exists y e', res = Err e' /\ In y l /\ (f y = Err e' \/ (f y = Err StopIteration /\ e' = RuntimeError)).
Proof. exact @ParallelB.C56_multiprocess_map_reduce. Qed.
Print Assumptions C56_multiprocess_map_reduce.
(** in a map StopIteration does not surface: it ends the results of its worker *)
Theorem C56_stop_iteration_truncates : forall (E R : Type) (exc : R -> option error) (f : E -> result R) n l ps,
  view_of_n_partitions l n = Ok ps -> (forall r, exc r = None) ->
  (forall x e, In x l -> f x = Err e -> e = StopIteration) ->
  forall sched res, mp_map_ordered exc f n l sched = Some res -> res = Ok (concat (map (before_stop_iteration f) ps)).
Proof. exact @ParallelB.C56_stop_iteration_truncates. Qed.
Print Assumptions C56_stop_iteration_truncates.
Example C56_example :
  (mp_map_ordered no_exc square 2 [1; 0; 3]%Z [Put 1; Get; Put 0; Get; Put 1; Get; Put 0; Get],
   mp_map_unordered no_exc square 2 [1; 0; 3]%Z [Put 0; Put 0; Get; Get],
   mp_map_filter no_exc square is_odd 2 [1; 0; 3]%Z [Put 0; Put 0; Get; Get],
   mp_map_reduce no_exc square (fun a b => Ok (a + b)%Z) 2 [1; -1; 3]%Z [Put 0; Get]) =
  (Some (Err ValueError), Some (Err ValueError), Some (Err ValueError), Some (Err RuntimeError)).
Proof. vm_compute. reflexivity. Qed.
(** the function raises StopIteration for -1: the results from there on are lost,
    and without keep_order all those collected after it *)
Example C56_stop_iteration_lost :
  (mp_map_ordered no_exc square 2 [1; -1; 2; 3]%Z [Put 1; Get; Put 0; Get; Put 1; Get; Put 0; Get; Put 1; Get],
   mp_map_unordered no_exc square 2 [-1; 2; -1; 3]%Z [Put 0; Put 1; Get; Get]) =
  (Some (Ok [1; 4; 9]%Z), Some (Ok [])).
Proof. vm_compute. reflexivity. Qed.
