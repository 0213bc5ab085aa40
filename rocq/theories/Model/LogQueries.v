(** Model of prolothar_common/models/log_queries/{query,queries}.py *)
From Verif.Model Require Import Base ListUtils EventLog.

Section Q.
  Context {A V I : Type} `{Eq A}.
  Inductive query :=
  | ContainsNoneOf (l : list A)      (* queries.py 26-33 *)
  | ContainsActivity (a : A)         (* queries.py 35-39 *)
  | ContainsActivityWith (a : A) (m : attrs V -> bool) (* queries.py 41-55 *)
  | ContainsAllOf (l : list A)       (* queries.py 57-64 *)
  | ContainsSubsequence (l : list A) (* queries.py 66-73 *)
  | And (p q : query)                (* query.py 50-56 *)
  | Or (p q : query)                 (* query.py 58-65 *)
  | Invert (q : query).              (* query.py 67-72 *)

  Fixpoint matches_trace (q : query) (t : trace A V I) : result bool :=
    match q with
    | ContainsNoneOf l => Ok (forallb (fun a => negb (contains_activity t a)) l)
    | ContainsActivity a => Ok (contains_activity t a)
    | ContainsActivityWith a m =>
        Ok (existsb (fun e => eqb (activity e) a && m (ev_attrs e)) (events t))
    | ContainsAllOf l => Ok (forallb (contains_activity t) l)
    | ContainsSubsequence l => is_sublist_bm (to_activity_list t) l
    | And p q => do b <- matches_trace p t ; if b then matches_trace q t else Ok false
    | Or p q => do b <- matches_trace p t ; if b then Ok true else matches_trace q t
    | Invert q => do b <- matches_trace q t ; Ok (negb b)
    end.
  (** query.py 25-34 *)
  Fixpoint execute (q : query) (l : log A V I) : result (log A V I) :=
    match l with
    | [] => Ok []
    | t :: l' => do b <- matches_trace q t ; do r <- execute q l' ; Ok (if b then t :: r else r)
    end.
End Q.
Arguments query : clear implicits.
