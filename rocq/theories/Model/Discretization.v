(** Model of prolothar_common/models/dataset/transformer/
    quantile_based_discretization.py and trainable_q_based_discretization.py.

    Numbers are exact (Qc); [show] is Python's str/format of a number, left
    open.  An attribute value is a number or a text. *)
From Coq Require Import String QArith Qcanon.
From Verif.Model Require Import Base Sort LogNoise Dataset Transformers.
Open Scope string_scope.
Open Scope list_scope.
Open Scope nat_scope.

Inductive val := Num (q : Qc) | Txt (s : string).
#[global] Instance Eq_val : Base.Eq val.
Proof.
  refine {| eqb x y := match x, y with
                       | Num p, Num q => eqb p q | Txt s, Txt t => eqb s t | _, _ => false end |}.
  intros [p|s] [q|t]; try (constructor; discriminate).
  - destruct (eqb_ok p q); constructor; congruence.
  - destruct (eqb_ok s t); constructor; congruence.
Defined.

Definition Qc_leb (x y : Qc) : bool := Qle_bool (this x) (this y).
(** comparing or adding a text and a number is a TypeError *)
Definition number (v : val) : result Qc := match v with Num q => Ok q | Txt _ => Err TypeError end.
Definition of_Z (z : Z) : Qc := Q2Qc (inject_Z z).

(** Python's statistics.quantiles(data, n=n, method='inclusive'); its
    StatisticsError is a ValueError *)
Definition quantiles (values : list Qc) (n : Z) : result (list Qc) :=
  if (n <? 1)%Z then Err ValueError else
  let data := stable_sort Qc_leb values in
  let ld := length data in
  if ld <? 2 then Err ValueError else
  let m := ld - 1 in
  let n := Z.to_nat n in
  mapM (fun i => let j := (i * m) / n in let delta := (i * m) mod n in
                 do x <- of_option IndexError (nth_error data j) ;
                 do y <- of_option IndexError (nth_error data (j + 1)) ;
                 Ok ((x * of_Z (Z.of_nat (n - delta)) + y * of_Z (Z.of_nat delta)) / of_Z (Z.of_nat n))%Qc)
       (seq 1 (n - 1)).

Section D.
  Context {I T : Type} `{Base.Eq I}.
  Notation heap := (heap I val T).
  Notation dataset := (dataset val).
  Variable show : Qc -> string.
  (** Python's str *)
  Definition str (v : val) : string := match v with Num q => show q | Txt s => s end.

  (** quantile_based_discretization.py 53-60; Python's for/else *)
  Fixpoint scan (pairs : list (Qc * Qc)) (v : Qc) : option string :=
    match pairs with
    | [] => None
    | (a, b) :: rest =>
      if negb (Qc_leb v a) && Qc_leb v b then Some ("(" ++ show a ++ ", " ++ show b ++ "]")%string
      else scan rest v
    end.
  Definition label_for_value (v : Qc) (cuts : list Qc) (mn mx : Qc) : result string :=
    do c0 <- of_option IndexError (nth_error cuts 0) ;
    if Qc_leb v c0 then Ok ("[" ++ show mn ++ ", " ++ show c0 ++ "]")%string
    else match scan (combine cuts (tl cuts)) v with
         | Some s => Ok s
         | None => do c <- of_option IndexError (nth_error cuts (length cuts - 1)) ;
                   Ok ("(" ++ show c ++ ", " ++ show mx ++ "]")%string
         end.
  (** quantile_based_discretization.py 38-51 *)
  Definition discretize_attribute (nr_of_bins : Z) (it : list nat) (h : heap) (d : dataset) (name : string) (_ : list val)
    : result (heap * dataset) :=
    do values <- mapM (getitem h name) it ;
    do y <- of_option KeyError (dict_get name (attrs d)) ;
    do labels <- (if (nr_of_bins <? Z.of_nat (length (auniq y)))%Z then
                    do qs <- mapM number values ;
                    do cuts <- quantiles qs nr_of_bins ;
                    do mn <- Qc_min qs ;
                    do mx <- Qc_max qs ;
                    mapM (fun v => label_for_value v cuts mn mx) qs
                  else Ok (map str values)) ;
    do (h1, d1) <- to_result (remove_attribute h d it name) ;
    to_result (add_attribute Categorical h1 d1 it name (map Txt labels)).
  (** quantile_based_discretization.py 33-36 *)
  Definition discretize (nr_of_bins : Z) (it : list nat) (h : heap) (d : dataset) : result (heap * dataset) :=
    each_attribute Numerical (discretize_attribute nr_of_bins it) h d.

  (** trainable_q_based_discretization.py 42-55.  A bin is an interval
      (a, b] with its str() *)
  Definition in_bin (v : Qc) (b : Qc * Qc * string) : bool :=
    negb (Qc_leb v (fst (fst b))) && Qc_leb v (snd (fst b)).
  Definition bin_label (bins : list (Qc * Qc * string)) (v : Qc) : result string :=
    match find (in_bin v) bins with
    | Some b => Ok (snd b)
    | None => do b <- of_option IndexError (nth_error bins (length bins - 1)) ; Ok (snd b)
    end.
  Definition bin_attribute (bins_dict : dict string (list (Qc * Qc * string))) (it : list nat)
      (h : heap) (d : dataset) (name : string) (_ : list val) : result (heap * dataset) :=
    do bins <- of_option KeyError (dict_get name bins_dict) ;
    do labels <- mapM (fun a => do v <- getitem h name a ; do q <- number v ; bin_label bins q) it ;
    do (h1, d1) <- to_result (remove_attribute h d it name) ;
    to_result (add_attribute Categorical h1 d1 it name (map Txt labels)).
  (** trainable_q_based_discretization.py 37-40 *)
  Definition discretize_trained bins_dict (it : list nat) (h : heap) (d : dataset) : result (heap * dataset) :=
    each_attribute Numerical (bin_attribute bins_dict it) h d.

  (** pandas.qcut(values, n, duplicates='drop').categories, called in
      trainable_q_based_discretization.py 62.  pandas is not part of the
      repository; this follows its documentation.  The quantiles are the edges
      of the bins, each once.  [rnd edges] rounds an edge to as many digits as
      keep the edges apart, and [gap edges] is one unit of the last of these
      digits, by which the first edge is lowered so that the least value is in
      the first bin; both are left open.  With fewer than two different values
      or less than one bin there are no bins; what happens then is left open
      and modelled as an error. *)
  Variable rnd : list Qc -> Qc -> Qc.
  Variable gap : list Qc -> Qc.
  Definition quantile_edges (values : list Qc) (n : nat) : result (list Qc) :=
    let data := stable_sort Qc_leb values in
    let m := length data - 1 in
    mapM (fun i => let j := (i * m) / n in let delta := (i * m) mod n in
                   do x <- of_option IndexError (nth_error data j) ;
                   do y <- of_option IndexError (nth_error data (Nat.min (j + 1) m)) ;
                   Ok (x + (y - x) * of_Z (Z.of_nat delta) / of_Z (Z.of_nat n))%Qc)
         (seq 0 (n + 1)).
  Definition breaks (edges : list Qc) : list Qc :=
    match map (rnd edges) edges with
    | [] => []
    | b :: bs => (b - gap edges)%Qc :: bs
    end.
  Definition qcut (values : list Qc) (n : Z) : result (list (Qc * Qc * string)) :=
    if (n <? 1)%Z then Err ValueError else
    do quantiles <- quantile_edges values (Z.to_nat n) ;
    let edges := set_of quantiles in
    if length edges <? 2 then Err ValueError else
    Ok (map (fun '(a, b) => (a, b, ("(" ++ show a ++ ", " ++ show b ++ "]")%string)) (combine (breaks edges) (tl (breaks edges)))).
  (** trainable_q_based_discretization.py 57-64 *)
  Definition train (nr_of_bins : Z) (it : list nat) (h : heap) (d : dataset) : result (dict string (list (Qc * Qc * string))) :=
    foldM (fun bins_dict '(n, y) =>
             match akind y with
             | Categorical => Ok bins_dict
             | Numerical =>
               do values <- mapM (getitem h n) it ;
               do qs <- mapM number values ;
               do bins <- qcut qs nr_of_bins ;
               Ok (dict_set n bins bins_dict)
             end) (attrs d) [].
End D.
