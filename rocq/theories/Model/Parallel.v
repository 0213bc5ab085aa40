(** Model of prolothar_common/parallel: the lists of the single-thread,
    multiprocess and threading engines.  The functions handed in depend on
    their arguments only; the parameter [P] is part of them.  What a worker
    does is therefore given by the sequence of things it puts on a queue or
    appends to a list; these steps interleave with those of the other workers
    and of the main program as a schedule says.  A worker may act from the
    beginning, not only after the main program has started it: the model has all
    the schedules of the code and some more.  Progress bars, [terminate] and the
    final [join] of processes are not modelled; the ray engine is in [Ray]. *)
From Verif.Model Require Import Base ListUtils.

Section Parallel.
  Context {E R : Type}.

  (** [reduce(red, (f(x) for x in l))]; a StopIteration leaving the generator
      becomes a RuntimeError *)
  Definition generate (f : E -> result R) (x : E) : result R :=
    match f x with Err StopIteration => Err RuntimeError | r => r end.
  Definition map_reduce (f : E -> result R) (red : R -> R -> result R) (l : list E) : result R :=
    match l with
    | [] => Err TypeError
    | x :: l' => do a <- generate f x ; foldM (fun a y => do b <- generate f y ; red a b) l' a
    end.
  (** [reduce(red, l)] *)
  Definition reduce (red : R -> R -> result R) (l : list R) : result R :=
    match l with [] => Err TypeError | a :: l' => foldM red l' a end.
  (** [[x for x in l if g(x)]] *)
  Fixpoint filterM (g : R -> result bool) (l : list R) : result (list R) :=
    match l with
    | [] => Ok []
    | a :: l' => do b <- g a ; do r <- filterM g l' ; Ok (if b then a :: r else r)
    end.

  (** single_thread/partitionable/local_partitionable_list.py 28-30 *)
  Definition local_map (f : E -> result R) (l : list E) : result (list R) := mapM f l.
  (** 32-36 *)
  Definition local_map_filter (f : E -> result R) (g : R -> result bool) (l : list E) : result (list R) :=
    do rs <- local_map f l ; filterM g rs.
  (** 38-42 *)
  Definition local_map_reduce (f : E -> result R) (red : R -> R -> result R) (l : list E) : result R := map_reduce f red l.

  (** a step that is not enabled makes the schedule impossible *)
  Fixpoint exec {S Act} (step : Act -> S -> option S) (sched : list Act) (s : S) : option S :=
    match sched with
    | [] => Some s
    | a :: sched' => match step a s with Some s' => exec step sched' s' | None => None end
    end.
  Fixpoint upd {A} (l : list A) (i : nat) (v : A) : list A :=
    match l, i with
    | [], _ => []
    | _ :: l', 0 => v :: l'
    | a :: l', S i' => a :: upd l' i' v
    end.

  (** ** multiprocess/partitionable/multiprocess_partitionable_list.py *)

  (** what is put on a queue: a value or an exception that was caught.
      [exc r] says that the value [r] itself is an Exception object, and which *)
  Inductive msg := Val (r : R) | Raised (e : error).
  Definition kind (exc : R -> option error) (m : msg) : option error :=
    match m with Val r => exc r | Raised e => Some e end.
  (** 153-159 *)
  Definition mp_map_worker (f : E -> result R) (l : list E) : list msg :=
    map (fun x => match f x with Ok r => Val r | Err e => Raised e end) l ++ [Raised StopIteration].
  (** 172-180 *)
  Definition mp_map_filter_worker (f : E -> result R) (g : R -> result bool) (l : list E) : list msg :=
    flat_map (fun x =>
      match f x with
      | Err e => [Raised e]
      | Ok r => match g r with Err e => [Raised e] | Ok true => [Val r] | Ok false => [] end
      end) l ++ [Raised StopIteration].
  (** 193-201 *)
  Definition mp_map_reduce_worker (f : E -> result R) (red : R -> R -> result R) (l : list E) : list msg :=
    [match map_reduce f red l with Ok r => Val r | Err e => Raised e end; Raised StopIteration].

  Inductive mp_act := Put (i : nat) | Get.
  (** 100-117: collecting from one queue; [finished] workers of [n] *)
  Inductive collector := Collect (finished : nat) (mapped : list R) | Done (r : result (list R)).
  Record mp_state := MP { pend : list (list msg); queue : list msg; main : collector }.
  Definition enter (n : nat) (finished : nat) (mapped : list R) : collector :=
    if finished <? n then Collect finished mapped else Done (Ok mapped).
  Definition on_msg (exc : R -> option error) (n : nat) (c : collector) (m : msg) : collector :=
    match c with
    | Done r => Done r
    | Collect k acc =>
      match kind exc m with
      | Some StopIteration => enter n (k + 1) acc
      | Some e => Done (Err e)
      | None => enter n k (acc ++ match m with Val r => [r] | Raised _ => [] end)
      end
    end.
  Definition mp_step (exc : R -> option error) (n : nat) (a : mp_act) (s : mp_state) : option mp_state :=
    match a with
    | Put i => match nth_error (pend s) i with
               | Some (m :: rest) => Some (MP (upd (pend s) i rest) (queue s ++ [m]) (main s))
               | _ => None
               end
    | Get => match main s, queue s with
             | Collect _ _, m :: q => Some (MP (pend s) q (on_msg exc n (main s) m))
             | _, _ => None
             end
    end.
  Definition mp_init (workers : list (list msg)) : mp_state := MP workers [] (enter (length workers) 0 []).
  (** the list that is returned or the exception that is raised; [None]: the
      schedule is impossible or ends before the main program does *)
  Definition mp_collect (exc : R -> option error) (workers : list (list msg)) (sched : list mp_act) : option (result (list R)) :=
    match exec (mp_step exc (length workers)) sched (mp_init workers) with
    | Some s => match main s with Done r => Some r | Collect _ _ => None end
    | None => None
    end.
  (** 46-57 *)
  Definition mp_map_unordered (exc : R -> option error) (f : E -> result R) (n : Z) (l : list E) (sched : list mp_act) : option (result (list R)) :=
    match view_of_n_partitions l n with
    | Err e => Some (Err e)
    | Ok ps => mp_collect exc (map (mp_map_worker f) ps) sched
    end.
  (** 70-82 *)
  Definition mp_map_filter (exc : R -> option error) (f : E -> result R) (g : R -> result bool) (n : Z) (l : list E) (sched : list mp_act) :=
    match view_of_n_partitions l n with
    | Err e => Some (Err e)
    | Ok ps => mp_collect exc (map (mp_map_filter_worker f g) ps) sched
    end.
  (** 84-98 *)
  Definition mp_map_reduce (exc : R -> option error) (f : E -> result R) (red : R -> R -> result R) (n : Z) (l : list E) (sched : list mp_act) : option (result R) :=
    match view_of_n_partitions l n with
    | Err e => Some (Err e)
    | Ok ps => option_map (fun r => do rs <- r ; reduce red rs) (mp_collect exc (map (mp_map_reduce_worker f red) ps) sched)
    end.

  (** 119-141: one queue per worker; the workers [opens] are asked in turn,
      the last one first *)
  Inductive collector_o := CollectO (opens : list nat) (mapped : list (list R)) | DoneO (r : result (list R)).
  Record mpo_state := MPO { pend_o : list (list msg); queues : list (list msg); main_o : collector_o }.
  Definition enter_o (opens : list nat) (mapped : list (list R)) : collector_o :=
    match opens with
    | [] => DoneO (Ok (concat mapped))
    | _ => CollectO opens mapped
    end.
  Definition on_msg_o (exc : R -> option error) (m : msg) (i : nat) (rest : list nat) (mapped : list (list R)) : collector_o :=
    match kind exc m with
    | Some StopIteration => enter_o rest mapped
    | Some e => DoneO (Err e)
    | None => enter_o (i :: rest) (upd mapped i (nth i mapped [] ++ match m with Val r => [r] | Raised _ => [] end))
    end.
  Definition mpo_step (exc : R -> option error) (a : mp_act) (s : mpo_state) : option mpo_state :=
    match a with
    | Put i => match nth_error (pend_o s) i with
               | Some (m :: rest) => Some (MPO (upd (pend_o s) i rest) (upd (queues s) i (nth i (queues s) [] ++ [m])) (main_o s))
               | _ => None
               end
    | Get => match main_o s with
             | CollectO opens mapped =>
               match rev opens with
               | [] => None
               | i :: rest =>
                 match nth i (queues s) [] with
                 | [] => None
                 | m :: q => Some (MPO (pend_o s) (upd (queues s) i q) (on_msg_o exc m i (rev rest) mapped))
                 end
               end
             | DoneO _ => None
             end
    end.
  Definition mpo_init (workers : list (list msg)) : mpo_state :=
    MPO workers (map (fun _ => []) workers) (enter_o (seq 0 (length workers)) (map (fun _ => []) workers)).
  Definition mpo_collect (exc : R -> option error) (workers : list (list msg)) (sched : list mp_act) : option (result (list R)) :=
    match exec (mpo_step exc) sched (mpo_init workers) with
    | Some s => match main_o s with DoneO r => Some r | CollectO _ _ => None end
    | None => None
    end.
  (** 59-68 *)
  Definition mp_map_ordered (exc : R -> option error) (f : E -> result R) (n : Z) (l : list E) (sched : list mp_act) : option (result (list R)) :=
    match view_of_n_partitions l n with
    | Err e => Some (Err e)
    | Ok ps => mpo_collect exc (map (mp_map_worker f) ps) sched
    end.

  (** ** threading/partitionable/threading_partitionable_list.py *)

  (** what a thread appends, and the exception it ends with (118-122) *)
  Local Notation thread := (list R * option error)%type.
  (** 134-136 *)
  Fixpoint th_map_worker (f : E -> result R) (l : list E) : thread :=
    match l with
    | [] => ([], None)
    | x :: l' => match f x with
                 | Err e => ([], Some e)
                 | Ok r => let '(rs, e) := th_map_worker f l' in (r :: rs, e)
                 end
    end.
  (** 149-153 *)
  Fixpoint th_map_filter_worker (f : E -> result R) (g : R -> result bool) (l : list E) : thread :=
    match l with
    | [] => ([], None)
    | x :: l' =>
      match f x with
      | Err e => ([], Some e)
      | Ok r => match g r with
                | Err e => ([], Some e)
                | Ok b => let '(rs, e) := th_map_filter_worker f g l' in (if b then r :: rs else rs, e)
                end
      end
    end.
  (** 166-170 *)
  Definition th_map_reduce_worker (f : E -> result R) (red : R -> R -> result R) (l : list E) : thread :=
    match map_reduce f red l with Ok r => ([r], None) | Err e => ([], Some e) end.

  Inductive th_act := Append (i : nat) | Join.
  (** 35-39: [Joining i] waits for the end of thread [i] *)
  Inductive joiner := Joining (i : nat) | Joined (r : result unit).
  Record th_state := TH { threads : list thread; lists : list (list R); join_st : joiner }.
  (** [shared]: all threads append to the one list 0, otherwise thread [i] to list [i] *)
  Definition th_step (shared : bool) (a : th_act) (s : th_state) : option th_state :=
    match a with
    | Append i =>
      match nth_error (threads s) i with
      | Some (r :: rest, e) =>
        let j := if shared then 0 else i in
        Some (TH (upd (threads s) i (rest, e)) (upd (lists s) j (nth j (lists s) [] ++ [r])) (join_st s))
      | _ => None
      end
    | Join =>
      match join_st s with
      | Joining i =>
        match nth_error (threads s) i with
        | Some ([], e) =>
          Some (TH (threads s) (lists s)
            (match e with
             | Some e => Joined (Err e)
             | None => if i + 1 <? length (threads s) then Joining (i + 1) else Joined (Ok tt)
             end))
        | _ => None
        end
      | Joined _ => None
      end
    end.
  Definition th_init (shared : bool) (ths : list thread) : th_state :=
    TH ths (if shared then [[]] else map (fun _ => []) ths) (match ths with [] => Joined (Ok tt) | _ => Joining 0 end).
  Definition th_run (shared : bool) (ths : list thread) (sched : list th_act) : option (result (list (list R))) :=
    match exec (th_step shared) sched (th_init shared ths) with
    | Some s => match join_st s with Joined r => Some (do _ <- r ; Ok (lists s)) | Joining _ => None end
    | None => None
    end.
  (** 48-61 *)
  Definition th_map_unordered (f : E -> result R) (n : Z) (l : list E) (sched : list th_act) : option (result (list R)) :=
    match view_of_n_partitions l n with
    | Err e => Some (Err e)
    | Ok ps => option_map (fun r => do ls <- r ; Ok (nth 0 ls [])) (th_run true (map (th_map_worker f) ps) sched)
    end.
  (** 63-79 *)
  Definition th_map_ordered (f : E -> result R) (n : Z) (l : list E) (sched : list th_act) : option (result (list R)) :=
    match view_of_n_partitions l n with
    | Err e => Some (Err e)
    | Ok ps => option_map (fun r => do ls <- r ;
        match ls with [] => Err TypeError | x :: ls' => Ok (fold_left (@app R) ls' x) end)
        (th_run false (map (th_map_worker f) ps) sched)
    end.
  (** 81-95 *)
  Definition th_map_filter (f : E -> result R) (g : R -> result bool) (n : Z) (l : list E) (sched : list th_act) : option (result (list R)) :=
    match view_of_n_partitions l n with
    | Err e => Some (Err e)
    | Ok ps => option_map (fun r => do ls <- r ; Ok (nth 0 ls [])) (th_run true (map (th_map_filter_worker f g) ps) sched)
    end.
  (** 97-111 *)
  Definition th_map_reduce (f : E -> result R) (red : R -> R -> result R) (n : Z) (l : list E) (sched : list th_act) : option (result R) :=
    match view_of_n_partitions l n with
    | Err e => Some (Err e)
    | Ok ps => option_map (fun r => do ls <- r ; reduce red (nth 0 ls [])) (th_run true (map (th_map_reduce_worker f red) ps) sched)
    end.
End Parallel.
