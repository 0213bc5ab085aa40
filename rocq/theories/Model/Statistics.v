(** Model of prolothar_common/experiments/statistics.pyx and .pxd.  C doubles
    are exact rationals; NaN is [None] where the code produces it on purpose
    (minimum/maximum of nothing, variance without enough values).  [_count] is
    an [unsigned long]: additions are modelled without overflow, but the one
    subtraction of two counts wraps modulo 2^64 as in C. *)
From Verif.Model Require Import Base.
From Coq Require Import QArith.
Open Scope nat_scope.

(** C arithmetic [a - b] on unsigned long *)
Definition ulong_sub (a b : Z) : Z := ((a - b) mod (2 ^ 64))%Z.

(** statistics.pxd 21-22 *)
Record statistics := Stats {
  st_count : Z; st_mean : Q; st_rho : Q; st_tau : Q; st_phi : Q;
  st_min : option Q; st_max : option Q }.
(** statistics.pyx 30-33 *)
Definition st_empty : statistics := Stats 0 0 0 0 0 None None.

(** [a < b] on Python floats *)
Definition Qltb (a b : Q) : bool := negb (Qle_bool b a).

(** statistics.pyx 42-68 *)
Definition st_push (s : statistics) (value : Q) : statistics :=
  let mn := if (st_count s =? 0)%Z then Some value
            else match st_min s with
                 | Some m => if Qltb value m then Some value else Some m
                 | None => None end in
  let mx := if (st_count s =? 0)%Z then Some value
            else match st_max s with
                 | Some m => if Qltb m value then Some value else Some m
                 | None => None end in
  let delta := (value - st_mean s)%Q in
  let delta_n := (delta / inject_Z (st_count s + 1))%Q in
  let delta_n2 := (delta_n * delta_n)%Q in
  let term := (delta * delta_n * inject_Z (st_count s))%Q in
  let count := (st_count s + 1)%Z in
  let mean := (st_mean s + delta_n)%Q in
  let phi := (st_phi s + (term * delta_n2 * inject_Z (count ^ 2 - 3 * count + 3)
                          + 6 * delta_n2 * st_rho s - 4 * delta_n * st_tau s))%Q in
  let tau := (st_tau s + (term * delta_n * inject_Z (ulong_sub count 2)
                          - 3 * delta_n * st_rho s))%Q in
  let rho := (st_rho s + term)%Q in
  Stats count mean rho tau phi mn mx.

(** statistics.pyx 34-35: Statistics(iterable) *)
Definition st_of (xs : list Q) : statistics := fold_left st_push xs st_empty.

(** Python min/max of two floats, NaN excluded *)
Definition opt_min (a b : option Q) : option Q :=
  match a, b with
  | Some x, Some y => if Qltb y x then Some y else Some x
  | _, _ => None
  end.
Definition opt_max (a b : option Q) : option Q :=
  match a, b with
  | Some x, Some y => if Qltb x y then Some y else Some x
  | _, _ => None
  end.

(** statistics.pyx 70-137 *)
Definition st_merge (s o : statistics) : statistics :=
  if (0 <? st_count o)%Z then
    if (st_count s =? 0)%Z then o
    else
      let n1 := inject_Z (st_count s) in
      let n2 := inject_Z (st_count o) in
      let sum_count := (st_count s + st_count o)%Z in
      let n := inject_Z sum_count in
      let delta := (st_mean o - st_mean s)%Q in
      let delta2 := (delta * delta)%Q in
      let delta3 := (delta * delta * delta)%Q in
      let delta4 := (delta * delta * delta * delta)%Q in
      let sum_mean := ((n1 * st_mean s + n2 * st_mean o) / n)%Q in
      let sum_rho := (st_rho s + st_rho o + delta2 * n1 * n2 / n)%Q in
      let sum_tau := (st_tau s + st_tau o
                      + delta3 * n1 * n2 * inject_Z (ulong_sub (st_count s) (st_count o)) / (n * n)
                      + 3 * delta * (n1 * st_rho o - n2 * st_rho s) / n)%Q in
      let sum_phi := (st_phi s + st_phi o
                      + delta4 * n1 * n2 * (n1 * n1 - n1 * n2 + n2 * n2) / (n * n * n)
                      + 6 * delta2 * (n1 * n1 * st_rho o + n2 * n2 * st_rho s) / (n * n)
                      + 4 * delta * (n1 * st_tau o - n2 * st_tau s) / n)%Q in
      Stats sum_count sum_mean sum_rho sum_tau sum_phi
            (opt_min (st_min s) (st_min o)) (opt_max (st_max s) (st_max o))
  else s.

(** statistics.pyx 37-39, 141-151 *)
Definition st_len (s : statistics) : Z := st_count s.
Definition st_minimum (s : statistics) : option Q := st_min s.
Definition st_maximum (s : statistics) : option Q := st_max s.
Definition st_get_mean (s : statistics) : Q := st_mean s.
(** statistics.pyx 154-158; the comparison converts the C int [ddof] to
    unsigned long, so a negative one is larger than every count.  stddev
    (160-165) is in [StandardDeviation]. *)
Definition st_variance (s : statistics) (ddof : Z) : option Q :=
  if (ddof mod (2 ^ 64) >=? st_count s)%Z then None
  else Some (st_rho s / inject_Z (ulong_sub (st_count s) ddof))%Q.

(** every way to obtain a Statistics object: an empty one, pushing a value,
    merging another one into it *)
Inductive st_history :=
| HEmpty
| HPush (h : st_history) (x : Q)
| HMerge (h other : st_history).
Fixpoint st_run (h : st_history) : statistics :=
  match h with
  | HEmpty => st_empty
  | HPush h x => st_push (st_run h) x
  | HMerge h o => st_merge (st_run h) (st_run o)
  end.
(** all values that went in, in order *)
Fixpoint st_values (h : st_history) : list Q :=
  match h with
  | HEmpty => []
  | HPush h x => st_values h ++ [x]
  | HMerge h o => st_values h ++ st_values o
  end.
