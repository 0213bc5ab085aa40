(** Model of prolothar_common/experiments/plots/plot_context.py: figures that
    are saved, shown and closed at the end of a with block.

    What pyplot is taken to do: [plt.subplots] and [plt.figure] make a figure
    and make it the current one, [plt.close] removes the current one and the one
    before becomes current, [plt.show] shows all figures that pyplot knows
    and, if [keep] is false, removes them, [plt.tight_layout] works on the current
    figure and makes one if there is none.  [savefig] raises an exception
    if the path cannot be written ([can_save]).  A drawing method can call other methods of the
    axes itself ([inner], e.g. [hist] calls [bar]). *)
From Coq Require Import String.
From Verif.Model Require Import Base.
Open Scope list_scope.
Open Scope nat_scope.

(** the methods of the axes that are logged, and all others *)
Inductive kind := Plot | Legend | Hist | Bar | Scatter | Other.
(** a call with its arguments, and whether matplotlib raises an exception *)
Record call := Call { c_kind : kind; c_args : string; c_fails : bool }.
Definition logged (c : call) : bool := match c_kind c with Other => false | _ => true end.
Definition line_of (c : call) : kind * string := (c_kind c, c_args c).
Record logfile := Logfile { l_path : string; l_lines : list (kind * string); l_closed : bool }.
(** a figure with what was drawn on its axes, and the log file of the context it belongs to *)
Record figure := Figure { f_title : option string; f_calls : list call; f_log : option logfile }.
(** all figures made so far, those pyplot knows (the last one is the current
    one), files saved, figures shown by each [plt.show], figures laid out tightly *)
Record world := World { heap : list figure; known : list nat; saved : list (string * figure); shown : list (list nat); tight : list nat }.
(** 39-45, 90-102: the arguments of a PlotContext *)
Record context := Context { x_title : option string; x_show : bool; x_file : option string; x_log : option string; x_tight : bool }.

Fixpoint change {A} (n : nat) (f : A -> A) (l : list A) : list A :=
  match l, n with
  | [], _ => []
  | a :: l', 0 => f a :: l'
  | a :: l', S n' => a :: change n' f l'
  end.
Definition add_lines (ls : list (kind * string)) (l : logfile) : logfile := Logfile (l_path l) (l_lines l ++ ls) (l_closed l).
Definition close_log (l : logfile) : logfile := Logfile (l_path l) (l_lines l) true.
Definition write_log (ls : list (kind * string)) (f : figure) : figure := Figure (f_title f) (f_calls f) (option_map (add_lines ls) (f_log f)).
Definition draw (c : call) (f : figure) : figure := Figure (f_title f) (f_calls f ++ [c]) (f_log f).
Definition log_closed (f : figure) : bool := match f_log f with Some l => l_closed l | None => false end.

Inductive prog :=
| CallOn (level : nat) (c : call)  (* a call on the axes of the enclosing context number [level], counted from inside *)
| NewFigure | CloseFigure          (* plt.figure(), plt.close() *)
| Raise
| Seq (p q : prog)
| Try (p handler : prog)
| With (x : context) (p : prog).

Section P.
  Variable inner : call -> list call.
  Variable can_save : string -> bool.
  Variable keep : bool.
  Definition on_heap (w : world) (h : list figure) : world := World h (known w) (saved w) (shown w) (tight w).
  (** a new figure, which is the current one from now on *)
  Definition new_figure (f : figure) (w : world) : world :=
    World (heap w ++ [f]) (known w ++ [length (heap w)]) (saved w) (shown w) (tight w).
  (** [plt.close()] *)
  Definition close_current (w : world) : world := World (heap w) (removelast (known w)) (saved w) (shown w) (tight w).
  (** 114-152: the line is written first, then matplotlib is called; writing to a closed file raises a ValueError *)
  Definition call_on (n : nat) (c : call) (w : world) : world * bool :=
    match nth_error (heap w) n with
    | None => (w, true)
    | Some f =>
      if (logged c || existsb logged (inner c)) && log_closed f then (w, true) else
      let w1 := if logged c then on_heap w (change n (write_log [line_of c]) (heap w)) else w in
      if c_fails c then (w1, true)
      else (on_heap w1 (change n (fun f => draw c (write_log (map line_of (filter logged (inner c))) f)) (heap w1)), false)
    end.
  (** 50-53, 99-112: the figure and the opened log file *)
  Definition enter (x : context) (w : world) : world :=
    new_figure (Figure (x_title x) [] (option_map (fun p => Logfile p [] false) (x_log x))) w.
  (** 65-66 *)
  Definition tight_layout (w : world) : world :=
    let w1 := match known w with [] => new_figure (Figure None [] None) w | _ => w end in
    World (heap w1) (known w1) (saved w1) (shown w1) (tight w1 ++ [last (known w1) 0]).
  (** 69-72 *)
  Definition show_or_close (x : context) (w : world) : world :=
    if x_show x then World (heap w) (if keep then known w else []) (saved w) (shown w ++ [known w]) (tight w)
    else close_current w.
  (** 64-72, 157-160; [n] is the figure of the context *)
  Definition leave (n : nat) (x : context) (w : world) : world * bool :=
    let w1 := if x_tight x then tight_layout w else w in
    let close w2 := (on_heap w2 (change n (fun f => Figure (f_title f) (f_calls f) (option_map close_log (f_log f))) (heap w2)), false) in
    match x_file x, nth_error (heap w1) n with
    | Some p, Some f =>
      if can_save p then close (show_or_close x (World (heap w1) (known w1) (saved w1 ++ [(p, f)]) (shown w1) (tight w1)))
      else (w1, true)
    | _, _ => close (show_or_close x w1)
    end.
  (** what is left behind, and whether an exception is on its way; [env] has the figures of the enclosing contexts *)
  Fixpoint run (env : list nat) (p : prog) (w : world) : world * bool :=
    match p with
    | CallOn k c => match nth_error env k with Some n => call_on n c w | None => (w, true) end
    | NewFigure => (new_figure (Figure None [] None) w, false)
    | CloseFigure => (close_current w, false)
    | Raise => (w, true)
    | Seq p q => let '(w', r) := run env p w in if r then (w', true) else run env q w'
    | Try p q => let '(w', r) := run env p w in if r then run env q w' else (w', false)
    | With x p =>
      let n := length (heap w) in
      let '(w', r) := run (n :: env) p (enter x w) in
      let '(w'', r') := leave n x w' in
      (w'', r || r')
    end.
End P.

(** GridPlotContext.  [plt.subplots] gives an array without the axes of length
    1; the subplot in row [i] and column [j] is the pair of [i] and [j] *)
Inductive array := Scalar (a : Z * Z) | Vector (l : list (Z * Z)) | Matrix (l : list (list (Z * Z))).
Definition range (n : Z) : list Z := map Z.of_nat (seq 0 (Z.to_nat n)).
Definition subplots (nr_of_rows nr_of_columns : Z) : result array :=
  if (nr_of_rows <=? 0)%Z || (nr_of_columns <=? 0)%Z then Err ValueError else
  let rows := map (fun i => map (fun j => (i, j)) (range nr_of_columns)) (range nr_of_rows) in
  Ok (if (nr_of_rows =? 1)%Z && (nr_of_columns =? 1)%Z then Scalar (0, 0)%Z
      else if (nr_of_rows =? 1)%Z || (nr_of_columns =? 1)%Z then Vector (concat rows)
      else Matrix rows).
(** [np.array([a])] for a scalar or a vector *)
Definition boxed (a : array) : array := match a with Scalar a => Vector [a] | Vector l => Matrix [l] | Matrix l => Matrix l end.
(** [.transpose()] of a matrix with one row *)
Definition transposed (a : array) : array := match a with Matrix [l] => Matrix (map (fun x => [x]) l) | _ => a end.
(** 206-216 *)
Definition grid (nr_of_rows nr_of_columns : Z) : result array :=
  do a <- subplots nr_of_rows nr_of_columns ;
  Ok (if (nr_of_rows =? 1)%Z && (nr_of_columns =? 1)%Z then boxed (boxed a)
      else if (nr_of_rows =? 1)%Z then boxed a
      else if (nr_of_columns =? 1)%Z then transposed (boxed a)
      else a).
(** [l[i]] *)
Definition item {A} (l : list A) (i : Z) : result A :=
  let i' := if (i <? 0)%Z then (i + Z.of_nat (length l))%Z else i in
  if (i' <? 0)%Z then Err IndexError else of_option IndexError (nth_error l (Z.to_nat i')).
(** 224-228; subplots cannot be indexed *)
Definition get_axes (a : array) (row_index column_index : Z) : result (Z * Z) :=
  match a with
  | Matrix l => do r <- item l row_index ; item r column_index
  | _ => Err TypeError
  end.
(** 230-231 *)
Definition get_list_of_axes (a : array) : list (Z * Z) :=
  match a with Matrix l => concat l | Vector l => l | Scalar a => [a] end.
