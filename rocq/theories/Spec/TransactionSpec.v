(** Vocabulary for transaction databases; a database is a list of transactions,
    a transaction a list of items *)
From Coq Require Import List ZArith.
Import ListNotations.

(** the item occurs in the database *)
Definition occurs {I} (db : list (list I)) (i : I) : Prop := exists t, In t db /\ In i t.
(** the two transactions have the same items *)
Definition same_set {I} (t u : list I) : Prop := forall i, In i t <-> In i u.
(** [n] is the number of different transactions, seen as sets *)
Definition distinct_transactions {I} (db : list (list I)) (n : nat) : Prop :=
  exists l, length l = n /\ (forall t, In t l -> In t db) /\
    (forall t, In t db -> exists u, In u l /\ same_set t u) /\
    (forall i j t u, nth_error l i = Some t -> nth_error l j = Some u -> same_set t u -> i = j).
(** [n] is the largest of the numbers *)
Definition maximum (l : list nat) (n : nat) : Prop := In n l /\ forall m, In m l -> m <= n.
(** a total order as a boolean comparison *)
Definition total_order {I} (leb : I -> I -> bool) : Prop :=
  (forall a b, leb a b = true \/ leb b a = true) /\
  (forall a b c, leb a b = true -> leb b c = true -> leb a c = true) /\
  (forall a b, leb a b = true -> leb b a = true -> a = b).
