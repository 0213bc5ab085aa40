(** Model of prolothar_common/parallel/ray.  The functions handed in depend on
    their arguments only; the parameter [P] is part of them.  Ray is taken to be
    a store of objects: [f.remote(...)] adds a task and gives back the reference
    of its result at once; any task whose argument is there may be run at any
    time; a task whose argument is an exception fails with that exception;
    [ray.get] of references waits until all of them are there, or raises as soon
    as some are there that are exceptions, the first of these.  Lost workers and
    objects, pickling and the classes that ray derives from those of the
    exceptions are not modelled. *)
From Verif.Model Require Import Base Parallel.

Section Ray.
  Context {E R : Type}.

  Inductive task := MapTask (x : E) | FilterTask (ref : nat).
  Inductive object := Mapped (r : R) | Kept (b : bool).
  (** the main program: elements still to be submitted (ray_partitionable_list.py
      34-37 and 43-46), the filter of element [i] to be submitted (48-49), its
      result awaited, the last [ray.get] (34 and 47), the end *)
  Inductive ray_main :=
  | Submitting (todo : list E)
  | Asking (i : nat) (kept : list nat)
  | Waiting (ref i : nat) (kept : list nat)
  | Getting (refs : list nat)
  | Returned (r : result (list R)).
  Record ray_state := RS { tasks : list task; store : list (option (result object)); program : ray_main }.

  (** what a task leaves in the store, if its argument is there *)
  Definition outcome (f : E -> result R) (g : R -> result bool) (st : list (option (result object))) (t : task) : option (result object) :=
    match t with
    | MapTask x => Some (do r <- f x ; Ok (Mapped r))
    | FilterTask i =>
      match nth_error st i with
      | Some (Some (Ok (Mapped r))) => Some (do b <- g r ; Ok (Kept b))
      | Some (Some (Ok (Kept _))) => Some (Err TypeError)
      | Some (Some (Err e)) => Some (Err e)
      | _ => None
      end
    end.
  (** [ray.get] of references *)
  Fixpoint first_error (st : list (option (result object))) (refs : list nat) : option error :=
    match refs with
    | [] => None
    | i :: refs' => match nth_error st i with Some (Some (Err e)) => Some e | _ => first_error st refs' end
    end.
  Fixpoint all_there (st : list (option (result object))) (refs : list nat) : option (list R) :=
    match refs with
    | [] => Some []
    | i :: refs' => match nth_error st i, all_there st refs' with
                    | Some (Some (Ok (Mapped r))), Some rs => Some (r :: rs)
                    | _, _ => None
                    end
    end.
  Definition ray_get (st : list (option (result object))) (refs : list nat) : option (result (list R)) :=
    match first_error st refs with
    | Some e => Some (Err e)
    | None => option_map (@Ok (list R)) (all_there st refs)
    end.

  Inductive ray_act := Run (i : nat) | Step.
  Definition submit (t : task) (m : ray_main) (s : ray_state) : ray_state := RS (tasks s ++ [t]) (store s ++ [None]) m.
  (** [filter]: map_filter (39-50), otherwise map (30-37), of a list of length [n] *)
  Definition ray_step (f : E -> result R) (g : R -> result bool) (filter : bool) (n : nat) (a : ray_act) (s : ray_state) : option ray_state :=
    match a with
    | Run i =>
      match nth_error (store s) i, nth_error (tasks s) i with
      | Some None, Some t =>
        match outcome f g (store s) t with
        | Some v => Some (RS (tasks s) (upd (store s) i (Some v)) (program s))
        | None => None
        end
      | _, _ => None
      end
    | Step =>
      match program s with
      | Submitting (x :: todo) => Some (submit (MapTask x) (Submitting todo) s)
      | Submitting [] => Some (RS (tasks s) (store s) (if filter then Asking 0 [] else Getting (seq 0 n)))
      | Asking i kept =>
        if i <? n then Some (submit (FilterTask i) (Waiting (length (tasks s)) i kept) s)
        else Some (RS (tasks s) (store s) (Getting kept))
      | Waiting ref i kept =>
        match nth_error (store s) ref with
        | Some (Some (Err e)) => Some (RS (tasks s) (store s) (Returned (Err e)))
        | Some (Some (Ok (Kept b))) => Some (RS (tasks s) (store s) (Asking (i + 1) (if b then kept ++ [i] else kept)))
        | _ => None
        end
      | Getting refs =>
        match ray_get (store s) refs with
        | Some r => Some (RS (tasks s) (store s) (Returned r))
        | None => None
        end
      | Returned _ => None
      end
    end.
  Definition ray_init (l : list E) : ray_state := RS [] [] (Submitting l).
  (** [None]: the schedule is impossible or ends before the main program does *)
  Definition ray_run (f : E -> result R) (g : R -> result bool) (filter : bool) (l : list E) (sched : list ray_act) : option (result (list R)) :=
    match exec (ray_step f g filter (length l)) sched (ray_init l) with
    | Some s => match program s with Returned r => Some r | _ => None end
    | None => None
    end.
  (** 30-37 *)
  Definition ray_map (f : E -> result R) (l : list E) (sched : list ray_act) : option (result (list R)) :=
    ray_run f (fun _ => Ok true) false l sched.
  (** 39-50 *)
  Definition ray_map_filter (f : E -> result R) (g : R -> result bool) (l : list E) (sched : list ray_act) : option (result (list R)) :=
    ray_run f g true l sched.
  (** 52-55 *)
  Definition ray_map_reduce (f : E -> result R) (red : R -> R -> result R) (l : list E) (sched : list ray_act) : option (result R) :=
    option_map (fun r => do rs <- r ; reduce red rs) (ray_map f l sched).
End Ray.
Arguments task : clear implicits.
Arguments object : clear implicits.
Arguments ray_main : clear implicits.
Arguments ray_state : clear implicits.
