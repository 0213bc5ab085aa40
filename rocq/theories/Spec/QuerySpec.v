(** Meaning of log queries *)
From Verif.Model Require Import Base EventLog LogQueries.
From Verif.Spec Require Import Lists.

Section Q.
  Context {A V I : Type}.
  Fixpoint sat (q : query A V) (t : trace A V I) : Prop :=
    match q with
    | ContainsNoneOf l => forall a, In a l -> ~ In a (map activity (events t))
    | ContainsActivity a => In a (map activity (events t))
    | ContainsActivityWith a m => exists e, In e (events t) /\ activity e = a /\ m (ev_attrs e) = true
    | ContainsAllOf l => forall a, In a l -> In a (map activity (events t))
    | ContainsSubsequence l => exists k, occurs_at l (map activity (events t)) k
    | And p q => sat p t /\ sat q t
    | Or p q => sat p t \/ sat q t
    | Invert q => ~ sat q t
    end.
End Q.
