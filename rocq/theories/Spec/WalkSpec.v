(** Specification vocabulary for rows by random walks *)
From Coq Require Import String QArith Qabs List.
From Verif.Spec Require Import Lists Graphs Moments.
Import ListNotations.
Open Scope list_scope.
Open Scope nat_scope.

(** [w] goes along edges from [s], visits nothing twice, and stops at [e] or where everything ahead was visited *)
Definition is_walk (E : string -> string -> Prop) (s e : string) (w : list string) : Prop :=
  exists z, path E s z w /\ NoDup w /\ (forall i, nth_error w i = Some e -> S i = length w) /\ (z = e \/ forall y, E z y -> In y w).
(** the steps at which [a] was reached, over all walks; the start of a walk does not count *)
Definition steps (ws : list (list string)) (a : string) : list Q :=
  flat_map (fun w => map (fun p => inject_Z (Z.of_nat (fst p))) (filter (fun p => String.eqb (snd p) a) (combine (seq 1 (length (tl w))) (tl w)))) ws.
(** the average, 0 for nothing *)
Definition average0 (l : list Q) : Q := match l with [] => 0 | _ => average l end.
(** [k] is the nearest integer, the even one of two *)
Definition nearest (q : Q) (k : Z) : Prop :=
  (Qabs (q - inject_Z k) <= 1 # 2)%Q /\ ((Qabs (q - inject_Z k) == 1 # 2)%Q -> Z.even k = true).
