(** Textbook sample statistics over exact rationals; independent of the model. *)
From Coq Require Import List ZArith QArith.
Import ListNotations.
Open Scope Q_scope.

Definition size (xs : list Q) : Q := inject_Z (Z.of_nat (length xs)).
Definition total (xs : list Q) : Q := fold_right Qplus 0 xs.
Definition average (xs : list Q) : Q := total xs / size xs.
(** sum of the [k]-th powers of the deviations from the average *)
Definition central (k : nat) (xs : list Q) : Q :=
  total (map (fun x => Qpower (x - average xs) (Z.of_nat k)) xs).
(** [m] is a smallest / largest element *)
Definition is_minimum (m : Q) (xs : list Q) : Prop := In m xs /\ forall x, In x xs -> m <= x.
Definition is_maximum (m : Q) (xs : list Q) : Prop := In m xs /\ forall x, In x xs -> x <= m.
