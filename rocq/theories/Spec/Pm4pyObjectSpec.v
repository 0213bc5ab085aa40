(** Vocabulary for event logs exchanged with pm4py, as objects *)
From Coq Require Import String.
From Verif.Model Require Import Base EventLog LogObjects Pm4py Pm4pyObjects.
Open Scope nat_scope.

Section S.
  Context {V : Type}.
  Notation py_store := (store string (pyvalue V) (pyvalue V)).
  (** every dictionary of the pm4py log exists *)
  Definition pm_exists (s : py_store) (l : list pm_obj) : Prop :=
    forall t, In t l -> po_attrs t < next s /\ forall e, In e (po_events t) -> e < next s.
  (** no two traces have the same dictionary of attributes; events may share
      theirs *)
  Definition own_attrs (l : list pm_obj) : Prop := NoDup (map po_attrs l).
  (** the dictionaries of a log and of a pm4py log *)
  Definition in_log (s : py_store) (l : list nat) (d : nat) : Prop :=
    exists t, In t l /\ (d = o_tattrs (trs s t) \/ exists e, In e (contents s t) /\ d = o_attrs (evs s e)).
  Definition in_pm_log (l : list pm_obj) (d : nat) : Prop := exists t, In t l /\ (d = po_attrs t \/ In d (po_events t)).
  (** edits of a log, one after the other *)
  Definition edit_all (xs : list (edit string)) (s : py_store) (l : list nat) : py_store * list nat :=
    fold_left (fun '(s, l) x => do_edit x s l) xs (s, l).
End S.
