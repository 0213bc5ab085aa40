(** Specification vocabulary for histograms, heatmaps, [Min] and colors *)
From Coq Require Import String QArith Sorted.
From Verif.Model Require Import Base.
Open Scope list_scope.
Open Scope nat_scope.

Section S.
  Context {V : Type} `{Eq V}.
  (** how often [v] occurs, and where first *)
  Definition frequency (v : V) (l : list V) : nat := length (filter (eqb v) l).
  Fixpoint first (v : V) (l : list V) : nat := match l with [] => 0 | u :: l' => if eqb v u then 0 else S (first v l') end.
  (** one bar for each different value, as high as the value is frequent *)
  Definition bars (values x : list V) (y : list nat) : Prop :=
    NoDup x /\ (forall v, In v x <-> In v values) /\ y = map (fun v => frequency v values) x.
End S.
Definition total_order {V} (leb : V -> V -> bool) : Prop :=
  (forall x y, leb x y = true \/ leb y x = true) /\ (forall x y z, leb x y = true -> leb y z = true -> leb x z = true) /\
  (forall x y, leb x y = true -> leb y x = true -> x = y).
