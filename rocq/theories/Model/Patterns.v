(** Model of prolothar_common/models/patterns.py.  Start indices are
    non-negative. *)
From Verif.Model Require Import Base Sort ListUtils MathUtils.

Section P.
  Context {A : Type} `{Eq A}.

  (** patterns.py 50-54 *)
  Fixpoint tandem_loop (fuel : nat) (trace w : list A) (max_k : option nat) (start k : nat) : result nat :=
    if (start + length w <=? length trace)
       && eqb (slice trace start (start + length w)) w
       && match max_k with None => true | Some m => k <? m end
    then
      match fuel with
      | 0 => Err OutOfFuel
      | S fuel' => tandem_loop fuel' trace w max_k (start + length w) (k + 1)
      end
    else Ok k.
  (** patterns.py 32-59 with return_k=True *)
  Definition is_tandem_array (fuel : nat) (trace : list A) (start : nat) (w : list A) (max_k : option nat)
    : result (bool * nat) :=
    do k <- tandem_loop fuel trace w max_k start 0 ; Ok (2 <=? k, k).

  (** patterns.py 240-250: the loop; [k == L / subsequence_L] compares with an
      exact float quotient because subsequence_L divides L *)
  Fixpoint primitive_loop (fuel : nat) (w : list A) (factors checked : list Z) : result bool :=
    match factors with
    | [] => Ok true
    | f :: rest =>
      if mem f checked then primitive_loop fuel w rest checked
      else
        let L := length w in
        let subL := Z.to_nat (Z.of_nat L / f) in
        do bk <- is_tandem_array fuel w 0 (firstn subL w) None ;
        if fst bk && (snd bk * subL =? L) then Ok false
        else primitive_loop fuel w rest (f :: checked)
    end.
  (** patterns.py 222-250 *)
  Definition is_primitive_tandem_repeat_type (fuel : nat) (w : list A) : result bool :=
    do pf <- prime_factors fuel (Z.of_nat (length w)) ;
    primitive_loop fuel w (1%Z :: pf) [].

  (** patterns.py 310-320: [arr] is new_tandem_array without the repeat type,
      [last] is last_processed_occurence *)
  Fixpoint tandem_runs (len : nat) (last : nat) (arr : nat * nat) (occ : list nat) (acc : list (nat * nat))
    : list (nat * nat) :=
    match occ with
    | [] => acc ++ [arr]
    | o :: occ' =>
      if Z.abs_nat (Z.of_nat last - Z.of_nat o) =? len
      then tandem_runs len o (fst arr, snd arr + 1) occ' acc
      else tandem_runs len o (o, 1) occ' (acc ++ [arr])
    end.
  (** patterns.py 288-322; the triples carry the repeat type in the middle *)
  Definition create_tandem_arrays_from_repeat_type (w sequence : list A)
    : result (list (nat * list A * nat)) :=
    do occ <- search_all sequence w ;
    match occ with
    | [] => Ok []
    | o :: occ' =>
      Ok (map (fun '(i, k) => (i, w, k)) (tandem_runs (length w) o (o, 1) occ' []))
    end.
  (** patterns.py 284-285 sort key (start index, length of the repeat type) *)
  Definition tandem_leb (a b : nat * list A * nat) : bool :=
    let '(i, u, _) := a in
    let '(j, v, _) := b in
    (i <? j) || ((i =? j) && (length u <=? length v)).
  (** patterns.py 262-286 *)
  Definition create_tandem_arrays_from_repeat_types (types : list (list A)) (sequence : list A)
    : result (list (nat * list A * nat)) :=
    do arrays <- foldM (fun acc w => do ts <- create_tandem_arrays_from_repeat_type w sequence ; Ok (acc ++ ts))
                       types [] ;
    Ok (stable_sort tandem_leb arrays).

  (** patterns.py 125-130 *)
  Fixpoint contained_in_any (w : list A) (others : list (list A)) : result bool :=
    match others with
    | [] => Ok false
    | o :: rest => do b <- is_sublist_bm o w ; if b then Ok true else contained_in_any w rest
    end.
  (** patterns.py 121-132; the Boyer-Moore tables handed to is_sublist_bm are
      the ones it would compute itself *)
  Fixpoint super_maximal_loop (repeats : list (list A)) : result (list (list A)) :=
    match repeats with
    | [] => Ok []
    | w :: rest =>
      do b <- contained_in_any w rest ;
      do r <- super_maximal_loop rest ;
      Ok (if b then r else w :: r)
    end.
  (** patterns.py 116-134 *)
  Definition filter_super_maximal_repeats (maximal_repeats : list (list A)) : result (list (list A)) :=
    super_maximal_loop (stable_sort (fun u v => length u <=? length v) maximal_repeats).

  (** patterns.py 252-259; [order] is the iteration order of the set *)
  Definition extract_words (order : list (list A) -> list (list A)) (sequence : list A) (word_size : Z)
    : list (list A) :=
    order (set_of (map (fun i => slice sequence i (i + Z.to_nat word_size))
                       (seq 0 (Z.to_nat (Z.of_nat (length sequence) - word_size + 1))))).
  (** patterns.py 217-220 *)
  Fixpoint has_adjacent (len : nat) (occ : list nat) : bool :=
    match occ with
    | a :: ((b :: _) as rest) =>
      if Z.abs_nat (Z.of_nat a - Z.of_nat b) =? len then true else has_adjacent len rest
    | _ => false
    end.
  (** patterns.py 207-211: body for one word *)
  Definition add_word (fuel : nat) (sequence : list A) (tandem_repeats : list (list A)) (word : list A)
    : result (list (list A)) :=
    do b <- is_primitive_tandem_repeat_type fuel word ;
    if b then
      do occ <- search_all sequence word ;
      Ok (if has_adjacent (length word) occ then tandem_repeats ++ [word] else tandem_repeats)
    else Ok tandem_repeats.
  (** patterns.py 195-212 *)
  Definition find_primitive_tandem_repeats (order : list (list A) -> list (list A)) (fuel : nat)
             (sequence : list A) (min_word_length : Z) (max_word_length : option Z)
    : result (list (list A)) :=
    let max_len := match max_word_length with
                   | None => (Z.of_nat (length sequence) / 2)%Z
                   | Some m => m end in
    foldM
      (fun acc word_length => foldM (add_word fuel sequence) (extract_words order sequence word_length) acc)
      (map (fun k => (min_word_length + Z.of_nat k)%Z)
           (seq 0 (Z.to_nat (max_len + 1 - min_word_length))))
      [].

  (** patterns.py 343-353: the constructor *)
  Record tandem_array := TandemArray {
    ta_trace : list A; ta_start : nat; ta_type : list A; ta_repeats : nat }.
  Definition create_tandem_array (fuel : nat) (trace : list A) (start : nat) (w : list A) (n : nat)
    : result tandem_array :=
    do bk <- is_tandem_array fuel trace start w (Some n) ;
    if fst bk then Ok (TandemArray trace start w n) else Err ValueError.
  (** patterns.py 355-367 *)
  Definition ta_is_maximal (t : tandem_array) : bool :=
    let L := length (ta_type t) in
    let n := length (ta_trace t) in
    let e := ta_start t + L * ta_repeats t in
    negb (eqb (slice (ta_trace t) (ta_start t - L) (ta_start t)) (ta_type t)) &&
    negb (eqb (slice (ta_trace t) (Nat.min n e) (Nat.min n (ta_start t + L + L * ta_repeats t))) (ta_type t)).
  (** patterns.py 369-373 *)
  Definition ta_has_primitive_type (fuel : nat) (t : tandem_array) : result bool :=
    is_primitive_tandem_repeat_type fuel (ta_type t).
End P.
