(** Specification vocabulary for plot contexts: what happens in a program, in
    order, without looking at pyplot *)
From Coq Require Import String.
From Verif.Model Require Import Base Plots.
Open Scope list_scope.
Open Scope nat_scope.

(** a call on the axes of context [id], the beginning and the end of context [id] *)
Inductive happening := On (id : nat) (c : call) | Begin (id : nat) (x : context) | End (id : nat) (x : context).
(** contexts are numbered from [next] in the order in which they begin; also gives the next
    number and whether the program ends with an exception *)
Fixpoint trace (next : nat) (env : list nat) (p : prog) : list happening * nat * bool :=
  match p with
  | CallOn k c => match nth_error env k with Some id => ([On id c], next, c_fails c) | None => ([], next, true) end
  | NewFigure | CloseFigure => ([], next, false)
  | Raise => ([], next, true)
  | Seq p q => let '(t, n, r) := trace next env p in
               if r then (t, n, true) else let '(t', n', r') := trace n env q in (t ++ t', n', r')
  | Try p q => let '(t, n, r) := trace next env p in
               if r then let '(t', n', r') := trace n env q in (t ++ t', n', r') else (t, n, false)
  | With x p => let '(t, n, r) := trace (S next) (next :: env) p in (Begin next x :: t ++ [End next x], n, r)
  end.
(** what is drawn on the axes of context [id] *)
Definition drawn (id : nat) (t : list happening) : list call :=
  flat_map (fun h => match h with On i c => if (i =? id) && negb (c_fails c) then [c] else [] | _ => [] end) t.
(** the lines in its log file: each logged call, followed by the logged calls made by matplotlib *)
Definition lines (inner : call -> list call) (id : nat) (t : list happening) : list (kind * string) :=
  flat_map (fun h => match h with
    | On i c => if i =? id then (if logged c then [line_of c] else []) ++ (if c_fails c then [] else map line_of (filter logged (inner c))) else []
    | _ => [] end) t.
(** the figure of context [id] as it is in the end *)
Definition result_of (inner : call -> list call) (id : nat) (x : context) (closed : bool) (t : list happening) : figure :=
  Figure (x_title x) (drawn id t) (option_map (fun p => Logfile p (lines inner id t) closed) (x_log x)).
(** the files saved: one at the end of each context that has a file path *)
Definition files (inner : call -> list call) (t : list happening) : list (string * figure) :=
  flat_map (fun h => match h with
    | End id x => match x_file x with Some p => [(p, result_of inner id x false t)] | None => [] end
    | _ => [] end) t.
Definition ends_tight (t : list happening) : list nat :=
  flat_map (fun h => match h with End id x => if x_tight x then [id] else [] | _ => [] end) t.
(** contexts only save, to paths that can be written, and pyplot is not used directly *)
Fixpoint plain (can_save : string -> bool) (p : prog) : bool :=
  match p with
  | NewFigure | CloseFigure => false
  | Seq p q | Try p q => plain can_save p && plain can_save q
  | With x p => negb (x_show x) && match x_file x with Some f => can_save f | None => true end && plain can_save p
  | _ => true
  end.
