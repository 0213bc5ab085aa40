(** Model of prolothar_common/experiments/plots/histogram.py: the arguments
    handed over to [ax.bar] and [ax.hist].  [leb] is the order of the values. *)
From Coq Require Import String.
From Verif.Model Require Import Base Sort EventLog.
Open Scope string_scope.
Open Scope list_scope.
Open Scope nat_scope.

Section H.
  Context {V : Type} `{Eq V}.
  Variable leb : V -> V -> bool.
  (** 49-51 *)
  Definition counter (values : list V) : dict V nat := fold_left (fun c v => counter_inc v c) values [].
  (** [<=] of pairs: the first components that differ decide *)
  Definition item_leb (a b : V * nat) : bool :=
    if eqb (fst a) (fst b) then snd a <=? snd b else leb (fst a) (fst b).
  (** [x, y = zip( *l )]: a ValueError if there is nothing to unpack *)
  Definition unzip {A B} (l : list (A * B)) : result (list A * list B) :=
    match l with [] => Err ValueError | _ => Ok (map fst l, map snd l) end.
  (** 46-61 *)
  Definition plot_counts (values : list V) (order_by : string) (bar_width : Z) : result (list V * list nat * Z) :=
    let items := counter values in
    do xy <-
      (if String.eqb order_by "value" then unzip (stable_sort item_leb items)
       else if String.eqb order_by "frequency_asc" then unzip (stable_sort (fun a b => snd a <=? snd b) items)
       else if String.eqb order_by "frequency_desc" then unzip (stable_sort (fun a b => (- Z.of_nat (snd a) <=? - Z.of_nat (snd b))%Z) items)
       else Err ValueError) ;
    Ok (fst xy, snd xy, bar_width).
End H.
(** 86-91: the number of bins; the float square root is taken to be exact before
    it is cut off; numpy raises a ValueError unless there is at least one bin *)
Definition nr_of_bins {A} (values : list A) (bins : option Z) : result Z :=
  let n := match bins with
           | Some k => if (k =? 0)%Z then Z.sqrt (Z.of_nat (length values)) else k
           | None => Z.sqrt (Z.of_nat (length values))
           end in
  if (n <? 1)%Z then Err ValueError else Ok n.
