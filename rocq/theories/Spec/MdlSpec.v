(** Specification vocabulary for code lengths *)
From Coq Require Import Reals ZArith List Arith.
Import ListNotations.
Open Scope R_scope.

(** the logarithm with base 2, and its iterates *)
Definition lg (x : R) : R := ln x / ln 2.
Fixpoint lgs (j : nat) (x : R) : R := match j with O => x | S j' => lg (lgs j' x) end.
Definition sum_R (l : list R) : R := fold_right Rplus 0 l.
(** [L] is log c + log n + log log n + ... up to the last positive term *)
Definition universal_code (c : R) (n : Z) (L : R) : Prop :=
  exists k, (forall j, (1 <= j <= k)%nat -> 0 < lgs j (IZR n)) /\ lgs (S k) (IZR n) <= 0 /\
    L = lg c + sum_R (map (fun j => lgs j (IZR n)) (seq 1 k)).
(** the sum of [f] over the integers from 1 to [k] *)
Definition total (f : Z -> R) (k : nat) : R := sum_R (map (fun i => f (Z.of_nat i)) (seq 1 k)).

(** what is used of scipy's functions *)
Definition is_lgamma (lgamma : R -> R) : Prop := lgamma 1 = 0 /\ forall x, 0 < x -> lgamma (x + 1) = lgamma x + ln x.
Definition is_betaln (lgamma : R -> R) (betaln : R -> R -> R) : Prop :=
  forall a b, 0 < a -> 0 < b -> betaln a b = lgamma a + lgamma b - lgamma (a + b).

(** exactly [k] things have property [P] *)
Definition exactly {X} (P : X -> Prop) (k : nat) : Prop :=
  exists l, NoDup l /\ (forall x, In x l <-> P x) /\ length l = k.
(** the 0/1 words of length [n] with [k] ones *)
Definition selection (n k : nat) (w : list bool) : Prop := length w = n /\ count_occ Bool.bool_dec w true = k.
(** the ways to write [m] as a sum of [n] positive numbers *)
Definition composition (m n : nat) (l : list nat) : Prop :=
  length l = n /\ Forall (fun a => (1 <= a)%nat) l /\ fold_right Nat.add 0%nat l = m.
(** the words in which symbol [i] occurs [nth i ks] times *)
Definition arrangement (ks : list nat) (w : list nat) : Prop :=
  (forall i, In i w -> (i < length ks)%nat) /\ forall i, (i < length ks)%nat -> count_occ Nat.eq_dec w i = nth i ks 0%nat.

(** the bits to send [rest] one symbol after the other, after [seen], each
    with the probability (uses so far + eps) / (symbols so far + eps * m) *)
Section Prequential.
  Context {X : Type} (dec : forall x y : X, {x = y} + {x <> y}) (eps : R) (m : nat).
  Fixpoint sequential_bits (seen rest : list X) : R :=
    match rest with
    | [] => 0
    | x :: r => - lg ((INR (count_occ dec seen x) + eps) / (INR (length seen) + eps * INR m)) + sequential_bits (x :: seen) r
    end.
End Prequential.
