(** Model of prolothar_common/experiments/plots/heatmap.py.  A numpy array is
    its shape and its cells; the values are rational numbers, and the norm of an image is the
    linear one of matplotlib, from [vmin] to [vmax]. *)
From Coq Require Import String QArith.
From Verif.Model Require Import Base.
Open Scope string_scope.
Open Scope list_scope.
Open Scope nat_scope.

Record ndarray := Nd { shape : list nat; cell : nat -> nat -> Q }.
(** what is on the axes after [plot_heatmap]: the data, the label of the
    color bar, ticks with labels, minor ticks *)
Record axes := Axes {
  image : ndarray; colorbar : option string;
  xticks : list Z; xlabels : list string; yticks : list Z; ylabels : list string;
  xminor : list Q; yminor : list Q }.
(** [np.arange(n)] *)
Definition arange (n : nat) : list Z := map Z.of_nat (seq 0 n).
(** 70-115 *)
Definition plot_heatmap (data : ndarray) (row_labels col_labels : list string) (show_colorbar : bool) (colorbar_label : string) : result axes :=
  match shape data with
  | [n; m] =>
    if negb (n =? length row_labels) then Err ValueError else
    if negb (m =? length col_labels) then Err ValueError else
    Ok (Axes data (if show_colorbar then Some colorbar_label else None)
         (arange m) col_labels (arange n) row_labels
         (map (fun i => (inject_Z i - (1 # 2))%Q) (arange (m + 1))) (map (fun i => (inject_Z i - (1 # 2))%Q) (arange (n + 1))))
  | _ => Err ValueError
  end.

(** an image, and what can be given as data: nothing (or anything else that is neither a list nor an array), a list, an array *)
Record picture := Picture { array_of : ndarray; vmin : Q; vmax : Q }.
Inductive given := Nothing | AList | Array (a : ndarray).
(** matplotlib's Normalize *)
Definition norm (im : picture) (v : Q) : Q :=
  if Qeq_bool (vmin im) (vmax im) then 0 else ((v - vmin im) / (vmax im - vmin im))%Q.
Definition Qltb (a b : Q) : bool := negb (Qle_bool b a).
Definition cells (n m : nat) (c : nat -> nat -> Q) : list Q := flat_map (fun i => map (c i) (seq 0 m)) (seq 0 n).
(** [data.max()] *)
Definition maximum (l : list Q) : result Q :=
  match l with
  | [] => Err ValueError
  | q :: r => Ok (fold_left (fun a b => if Qltb a b then b else a) r q)
  end.
Record text := Text { t_x : nat; t_y : nat; t_text : string; t_color : string }.
Section A.
  Variable valfmt : Q -> string.
  Variable textcolors : list string.
  (** 168-173 *)
  Definition loop (im : picture) (n m : nat) (c : nat -> nat -> Q) (threshold : Q) : result (list text) :=
    do rows <- mapM (fun i => mapM (fun j =>
        do color <- of_option IndexError (nth_error textcolors (if Qltb threshold (norm im (c i j)) then 1 else 0)) ;
        Ok (Text j i (valfmt (c i j)) color)) (seq 0 m)) (seq 0 n) ;
    Ok (concat rows).
  (** 146-173; a list has neither [max] nor [shape] *)
  Definition annotate_heatmap (im : picture) (data : given) (threshold : option Q) : result (list text) :=
    match (match data with Nothing => Some (array_of im) | Array a => Some a | AList => None end) with
    | None => Err AttributeError
    | Some a =>
      match shape a with
      | [n; m] =>
        do t <- match threshold with
                | Some t => Ok (norm im t)
                | None => do q <- maximum (cells n m (cell a)) ; Ok (norm im q / 2)%Q
                end ;
        loop im n m (cell a) t
      | _ => Err IndexError
      end
    end.
End A.
