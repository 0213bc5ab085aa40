(** Model of prolothar_common/math_utils.py *)
From Verif.Model Require Import Base.

(** Python true division [n / f] of two integers (or integral floats) whose
    exact quotient [q] is an integer: the result is the IEEE binary64 number
    nearest to [q], ties to even mantissa.  Overflow to infinity (|q| >= 2^1024)
    is not modelled. *)
Definition round_binary64 (q : Z) : Z :=
  let a := Z.abs q in
  if (a <? 2 ^ 53)%Z then q
  else
    let s := (2 ^ (Z.log2 a - 52))%Z in
    let m := (a / s)%Z in
    let r := (a mod s)%Z in
    let up := (s <? 2 * r)%Z || ((s =? 2 * r)%Z && Z.odd m) in
    (Z.sgn q * ((if up then m + 1 else m) * s))%Z.

(** math_utils.py 23-25 *)
Fixpoint halve_loop (fuel : nat) (n : Z) (fs : list Z) : result (Z * list Z) :=
  if (n mod 2 =? 0)%Z then
    match fuel with
    | 0 => Err OutOfFuel
    | S fuel' => halve_loop fuel' (round_binary64 (n / 2)) (fs ++ [2%Z])
    end
  else Ok (n, fs).
(** math_utils.py 27-29 *)
Fixpoint divide_loop (fuel : nat) (f n : Z) (fs : list Z) : result (Z * list Z) :=
  if (n mod f =? 0)%Z then
    match fuel with
    | 0 => Err OutOfFuel
    | S fuel' => divide_loop fuel' f (round_binary64 (n / f)) (fs ++ [f])
    end
  else Ok (n, fs).
(** math_utils.py 26-30 *)
Fixpoint factor_loop (fuel inner : nat) (f n : Z) (fs : list Z) : result (Z * list Z) :=
  if (f * f <=? n)%Z then
    match fuel with
    | 0 => Err OutOfFuel
    | S fuel' =>
      do nfs <- divide_loop inner f n fs ;
      factor_loop fuel' inner (f + 2) (fst nfs) (snd nfs)
    end
  else Ok (n, fs).
(** math_utils.py 18-32; [fuel] bounds each loop *)
Definition prime_factors (fuel : nat) (n : Z) : result (list Z) :=
  do nfs <- halve_loop fuel n [] ;
  do nfs <- factor_loop fuel fuel 3 (fst nfs) (snd nfs) ;
  let '(n, fs) := nfs in
  Ok (if (n >? 1)%Z then fs ++ [n] else fs).
