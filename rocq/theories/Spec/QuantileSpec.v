(** Vocabulary for the properties of quantile based discretization *)
From Coq Require Import String Permutation Sorted QArith Qcanon Qround.
From Verif.Model Require Import Base Dataset Discretization.
From Verif.Spec Require Import DatasetSpec.
Open Scope string_scope.
Open Scope list_scope.
Open Scope nat_scope.

(** [c] is the [i]-th of the cut points that divide the sorted numbers [s]
    into [n] parts: it lies at the position i (|s| - 1) / n, counted from 0,
    by linear interpolation between two neighbours *)
Definition cut_point (s : list Qc) (n i : nat) (c : Qc) : Prop :=
  exists j x y, nth_error s j = Some x /\ nth_error s (j + 1) = Some y /\
    j * n <= i * (length s - 1) < (j + 1) * n /\
    c = (x + (y - x) * of_Z (Z.of_nat (i * (length s - 1) - j * n)) / of_Z (Z.of_nat n))%Qc.

(** [l] is the text of the interval the value [v] lies in, among
    [mn, c1], (c1, c2], ..., (ck, mx] *)
Definition interval_text (show : Qc -> string) (mn mx : Qc) (cuts : list Qc) (v : Qc) (l : string) : Prop :=
  (exists c, nth_error cuts 0 = Some c /\ (v <= c)%Qc /\ l = ("[" ++ show mn ++ ", " ++ show c ++ "]")%string) \/
  (exists k a b, nth_error cuts k = Some a /\ nth_error cuts (S k) = Some b /\ (a < v)%Qc /\ (v <= b)%Qc /\
                 l = ("(" ++ show a ++ ", " ++ show b ++ "]")%string) \/
  (exists c, nth_error cuts (length cuts - 1) = Some c /\ (c < v)%Qc /\ l = ("(" ++ show c ++ ", " ++ show mx ++ "]")%string).

(** [v] lies in the [k]-th of the intervals between the cut points: above the
    one before it, if there is one, and not above the next, if there is one *)
Definition in_bucket (cuts : list Qc) (k : nat) (v : Qc) : Prop :=
  (forall c, 0 < k -> nth_error cuts (k - 1) = Some c -> (c < v)%Qc) /\ (forall c, nth_error cuts k = Some c -> (v <= c)%Qc).
(** [e] is the quantile i/n, which is the greatest number for i = n *)
Definition quantile (s : list Qc) (n i : nat) (e : Qc) : Prop :=
  (i < n /\ cut_point s n i e) \/ (i = n /\ nth_error s (length s - 1) = Some e).

(** [l] is the text of the first of the bins (lo, hi] that contains [v], or the
    text of the last bin if none does *)
Definition bin_text (bins : list (Qc * Qc * string)) (v : Qc) (l : string) : Prop :=
  (exists k lo hi, nth_error bins k = Some (lo, hi, l) /\ (lo < v)%Qc /\ (v <= hi)%Qc /\
     forall j lo' hi' t, j < k -> nth_error bins j = Some (lo', hi', t) -> ~ ((lo' < v)%Qc /\ (v <= hi')%Qc)) \/
  ((forall j lo' hi' t, nth_error bins j = Some (lo', hi', t) -> ~ ((lo' < v)%Qc /\ (v <= hi')%Qc)) /\
   exists lo hi, nth_error bins (length bins - 1) = Some (lo, hi, l)).

Section S.
  Context {I T : Type}.
  Notation heap := (heap I val T).
  Notation dataset := (dataset val).
  (** the values attribute [n] has in the dataset, one per instance, in
      ascending order *)
  Definition ascending_values (h : heap) (d : dataset) (n : string) (s : list Qc) : Prop :=
    StronglySorted (fun x y => (x <= y)%Qc) s /\
    Permutation (map (fun a => value h a n) (insts d)) (map (fun q => Some (Num q)) s).

  (** from [h] to [h'] the values of attribute [n] were replaced by their
      texts *)
  Definition printed (show : Qc -> string) (h h' : heap) (d : dataset) (n : string) : Prop :=
    forall a q, In a (insts d) -> value h a n = Some (Num q) -> value h' a n = Some (Txt (show q)).
  (** from [h] to [h'] the values of attribute [n] were replaced by the texts
      of the intervals between the least value, the cut points and the
      greatest value *)
  Definition binned (show : Qc -> string) (bins : nat) (h h' : heap) (d : dataset) (n : string) : Prop :=
    exists s mn mx cuts, ascending_values h d n s /\
      nth_error s 0 = Some mn /\ nth_error s (length s - 1) = Some mx /\
      length cuts = bins - 1 /\
      (forall i, 1 <= i < bins -> exists c, nth_error cuts (i - 1) = Some c /\ cut_point s bins i c) /\
      StronglySorted (fun x y => (x <= y)%Qc) cuts /\
      forall a q, In a (insts d) -> value h a n = Some (Num q) ->
        exists l, value h' a n = Some (Txt l) /\ interval_text show mn mx cuts q l.
  (** from [h] to [h'] the values of attribute [n] were replaced by the texts
      of trained bins *)
  Definition in_bins (bins : list (Qc * Qc * string)) (h h' : heap) (d : dataset) (n : string) : Prop :=
    forall a q, In a (insts d) -> value h a n = Some (Num q) -> exists l, value h' a n = Some (Txt l) /\ bin_text bins q l.
  (** [edges] are the different quantiles, in ascending order, of the values of
      attribute [n] *)
  Definition quantile_edges_of (bins : nat) (h : heap) (d : dataset) (n : string) (edges : list Qc) : Prop :=
    exists s, ascending_values h d n s /\ StronglySorted (fun x y => (x < y)%Qc) edges /\
      (forall e, In e edges <-> exists i, i <= bins /\ quantile s bins i e).
End S.
(** [bins] are the intervals between neighbouring edges, which are rounded; the
    first one is lowered *)
Definition bins_between (show : Qc -> string) (rounded : Qc -> Qc) (gap : Qc) (edges : list Qc) (bins : list (Qc * Qc * string)) : Prop :=
  length bins + 1 = length edges /\
  forall k lo hi l, nth_error bins k = Some (lo, hi, l) -> exists a b,
    nth_error edges k = Some a /\ nth_error edges (k + 1) = Some b /\
    lo = (if k =? 0 then rounded a - gap else rounded a)%Qc /\ hi = rounded b /\
    l = ("(" ++ show lo ++ ", " ++ show hi ++ "]")%string.
(** rounding to three digits after the point *)
Definition round3 (x : Qc) : Qc := (of_Z (Qround.Qfloor (this x * 1000 + (1 # 2))) / of_Z 1000)%Qc.
