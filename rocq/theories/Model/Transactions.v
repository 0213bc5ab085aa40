(** Model of prolothar_common/models/transactions.py.

    A transaction is the list of its items in the order in which Python
    iterates over it.  Files are lists of structured lines: the decimal
    printing of numbers and the separators are not modelled. *)
From Verif.Model Require Import Base Sort.

(** a dictionary comprehension / [dict(pairs)] *)
Definition dict_of {K V} `{Eq K} (l : list (K * V)) : dict K V :=
  fold_left (fun d '(k, v) => dict_set k v d) l [].

(** the lines of a fic file (lines 53-70); the constant sS is left out *)
Inductive fic_line :=
| Version
| Info (nR nT nI aS mL : nat)
| Ab (ids : list nat)
| Ac (counts : list nat)
| It (ids : list nat)
| Row (size : nat) (ids : list nat).

Section T.
  Context {I : Type} `{Eq I}.
  Notation database := (list (list I)).

  (** 133-146 *)
  Definition count_item_occurence (db : database) : dict I nat :=
    fold_left (fun c t => fold_left (fun c item =>
      dict_set item (match dict_get item c with Some n => S n | None => 1 end) c) t c) db [].
  (** 124-131 *)
  Definition get_itemset (db : database) : list I :=
    fold_left (fun s t => fold_left (fun s item => set_add item s) t s) db [].
  (** 118-122 *)
  Definition get_nr_of_different_items (db : database) : nat := length (get_itemset db).
  (** 109-116 *)
  Definition get_nr_of_items_in_transactions (db : database) : nat :=
    fold_left (fun n t => n + length t) db 0.
  (** equality of transactions: of sets *)
  Definition same_items (t u : list I) : bool :=
    forallb (fun x => mem x u) t && forallb (fun x => mem x t) u.
  (** 102-107 *)
  Definition get_nr_of_unique_transactions (db : database) : nat :=
    length (fold_left (fun s t => if existsb (same_items t) s then s else s ++ [t]) db []).
  (** 148-152: max of nothing raises ValueError *)
  Definition get_maximum_transaction_length (db : database) : result nat :=
    match db with
    | [] => Err ValueError
    | t :: db' => Ok (fold_left (fun m t => Nat.max m (length t)) db' (length t))
    end.

  (** 49-51 *)
  Definition item_to_id (counts : dict I nat) : dict I nat :=
    dict_of (combine (keys counts) (seq 0 (length (keys counts)))).
  (** 66-70 *)
  Definition rows (ids : dict I nat) (db : database) : result (list fic_line) :=
    mapM (fun t => do r <- mapM (fun item => of_option KeyError (dict_get item ids)) t ; Ok (Row (length t) r)) db.
  (** 34-71: what is in the file when the function is left, and what it
      returns or raises; the lookups of lines 62 and 69 find their keys
      (an exception there would be reported with the lines before the loop) *)
  Definition save_to_fic_file (db : database) : list fic_line * result (dict nat I) :=
    let counts := count_item_occurence db in
    let ids := item_to_id counts in
    match get_maximum_transaction_length db with
    | Err e => ([Version], Err e)
    | Ok mL =>
      let head := [Version;
         Info (length db) (get_nr_of_unique_transactions db) (get_nr_of_items_in_transactions db) (length ids) mL;
         Ab (stable_sort Nat.leb (values ids))] in
      match mapM (fun '(item, _) => of_option KeyError (dict_get item counts))
                 (stable_sort (fun a b => snd b <=? snd a) ids) with
      | Err e => (head, Err e)
      | Ok ac =>
        let head := head ++ [Ac ac; It (stable_sort Nat.leb (values ids))] in
        match rows ids db with
        | Err e => (head, Err e)
        | Ok rs => (head ++ rs, Ok (dict_of (map (fun '(k, v) => (v, k)) ids)))
        end
      end
    end.

  (** 73-94; [leb] compares items, [order] is the order in which Python
      iterates over the set of items *)
  Definition save_to_dat_file (leb : I -> I -> bool) (order : list I -> list I) (db : database) (offset : Z) :
    result (list (list Z) * dict Z I) :=
    let sorted := stable_sort leb (order (get_itemset db)) in
    let ids := dict_of (combine sorted (map (fun i => (Z.of_nat i + offset)%Z) (seq 0 (length sorted)))) in
    do lines <- mapM (mapM (fun item => of_option KeyError (dict_get item ids))) db ;
    Ok (lines, dict_of (map (fun '(k, v) => (v, k)) ids)).
End T.
