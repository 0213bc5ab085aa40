(** Model of prolothar_common/experiments/statistics.pyx 160-165 over the real
    numbers *)
From Coq Require Import Reals Qreals QArith.
From Verif.Model Require Import Base Statistics.

(** statistics.pyx 160-165; the comparison is that of [st_variance] *)
Definition st_stddev (s : statistics) (ddof : Z) : option R :=
  if (ddof mod (2 ^ 64) >=? st_count s)%Z then None
  else Some (sqrt (Q2R (st_rho s / inject_Z (ulong_sub (st_count s) ddof)))).
