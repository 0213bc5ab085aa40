(** Model of the datasets with a target: classification_dataset.py,
    multilabel_dataset.py, multiset_dataset.py, target_sequence_dataset.py.

    Each subclass keeps a state of its own next to the one of Dataset, so a
    dataset here is a pair.  The target of an instance (instance.pyx 62-136)
    is the field [target]: class label, label set, Counter or sequence. *)
From Verif.Model Require Import Base Sort Dataset.
Open Scope nat_scope.

(** [defaultdict(int)] and [Counter]: [d[k] += 1] *)
Definition count_of {K} `{Eq K} (k : K) (d : dict K nat) : nat :=
  match dict_get k d with Some n => n | None => 0 end.
Definition bump {K} `{Eq K} (k : K) (d : dict K nat) : dict K nat := dict_set k (count_of k d + 1) d.
(** [d[k]] of a defaultdict: a missing key is entered *)
Definition look {K X} `{Eq K} (k : K) (x0 : X) (d : dict K X) : X * dict K X :=
  match dict_get k d with Some x => (x, d) | None => (x0, dict_set k x0 d) end.

Section C.
  Context {I V L : Type} `{Eq I} `{Eq V} `{Eq L}.
  Notation heap := (heap I V L).

  (** classification_dataset.py 29-34 *)
  Record counters := {
    by_category : dict string (dict V nat);
    by_category_and_class : dict string (dict (V * L) nat);
    by_class : dict L nat
  }.
  Definition no_counts : counters := {| by_category := []; by_category_and_class := []; by_class := [] |}.
  Definition class_new (cs ns : list string) : dataset V * counters := (new cs ns, no_counts).

  (** classification_dataset.py 67-71, one categorical attribute *)
  Definition count_attribute (x : inst I V L) (c : counters) (n : string) : result counters :=
    do v <- of_option KeyError (dict_get n (feats x)) ;
    Ok {| by_category :=
            dict_set n (bump v (fst (look (X := dict V nat) n [] (by_category c)))) (by_category c);
          by_category_and_class :=
            dict_set n (bump (v, target x) (fst (look (X := dict (V * L) nat) n [] (by_category_and_class c)))) (by_category_and_class c);
          by_class := by_class c |}.
  (** classification_dataset.py 64-71 *)
  Definition class_add (h : heap) (D : dataset V * counters) (a : nat) : result (dataset V * counters) :=
    do d <- add_instance h (fst D) a ;
    do x <- of_option AttributeError (nth_error h a) ;
    let c := {| by_category := by_category (snd D); by_category_and_class := by_category_and_class (snd D);
                by_class := bump (target x) (by_class (snd D)) |} in
    do c' <- foldM (count_attribute x) (cats d) c ;
    Ok (d, c').
  (** classification_dataset.py 36-41 *)
  Definition class_remove_attribute (h : heap) (D : dataset V * counters) (it : list nat) (n : string)
    : heap * (dataset V * counters) * option error :=
    match remove_attribute h (fst D) it n with
    | (h', d', Some e) => (h', (d', snd D), Some e)
    | (h', d', None) =>
      (h', (d', {| by_category := dict_del n (by_category (snd D));
                   by_category_and_class := dict_del n (by_category_and_class (snd D));
                   by_class := by_class (snd D) |}), None)
    end.
  (** classification_dataset.py 43-48; a defaultdict remembers the question *)
  Definition get_count_for_category (c : counters) (n : string) (v : V) : nat * counters :=
    let '(inner, outer) := look (X := dict V nat) n [] (by_category c) in
    let '(r, inner') := look v 0 inner in
    (r, {| by_category := dict_set n inner' outer; by_category_and_class := by_category_and_class c;
           by_class := by_class c |}).
  (** classification_dataset.py 50-56 *)
  Definition get_count_for_category_and_class (c : counters) (n : string) (v : V) (l : L) : nat * counters :=
    let '(inner, outer) := look (X := dict (V * L) nat) n [] (by_category_and_class c) in
    let '(r, inner') := look (v, l) 0 inner in
    (r, {| by_category := by_category c; by_category_and_class := dict_set n inner' outer;
           by_class := by_class c |}).
  (** classification_dataset.py 58-62 *)
  Definition get_class_count (c : counters) (l : L) : nat * counters :=
    let '(r, outer) := look l 0 (by_class c) in
    (r, {| by_category := by_category c; by_category_and_class := by_category_and_class c; by_class := outer |}).
  (** classification_dataset.py 86-87 *)
  Definition get_set_of_classes (c : counters) : list L := keys (by_class c).
  (** dataset.py 113-119 with [type(self)] = ClassificationDataset *)
  Definition class_subdataset (h : heap) (D : dataset V * counters) (l : list nat) : result (dataset V * counters) :=
    foldM (class_add h) l (class_new (cats (fst D)) (nums (fst D))).
End C.
Arguments counters : clear implicits.

(** the subclasses that only collect: [upd t x] is what add_instance does with
    the own state [x] for an instance with target [t] after
    [super().add_instance(instance)] *)
Section S.
  Context {I V T X : Type} `{Eq I} `{Eq V}.
  Variables (x0 : X) (upd : T -> X -> X).
  Definition sub_add (h : heap I V T) (D : dataset V * X) (a : nat) : result (dataset V * X) :=
    do d <- add_instance h (fst D) a ;
    do i <- of_option AttributeError (nth_error h a) ;
    Ok (d, upd (target i) (snd D)).
  Definition sub_subdataset (h : heap I V T) (D : dataset V * X) (l : list nat) : result (dataset V * X) :=
    foldM (sub_add h) l (new (cats (fst D)) (nums (fst D)), x0).
End S.

Section U.
  Context {L : Type} `{Eq L}.
  (** [set.update]: multilabel_dataset.py 35, target_sequence_dataset.py 37 *)
  Definition collect (labels s : list L) : list L := fold_left (fun s l => set_add l s) labels s.
  (** multiset_dataset.py 32-33 *)
  Definition no_multisets : dict L nat * dict L nat := ([], []).
  (** multiset_dataset.py 37-39: [Counter.update] of the sums and the running
      maxima *)
  Definition count_multiset (m : dict L nat) (x : dict L nat * dict L nat) : dict L nat * dict L nat :=
    (fold_left (fun s '(l, n) => dict_set l (n + count_of l s) s) m (fst x),
     fold_left (fun s '(l, n) => dict_set l (Nat.max (count_of l s) n) s) m (snd x)).
  (** multiset_dataset.py 56-60 *)
  Definition multiset_classes (x : dict L nat * dict L nat) : list L := keys (fst x).
End U.

Section Q.
  Context {I V L : Type} `{Eq L}.
  Notation heap := (heap I V (list L)).
  (** the target sequences in the order of the iteration *)
  Definition sequences (h : heap) (it : list nat) : result (list (list L)) :=
    mapM (fun a => do x <- of_option AttributeError (nth_error h a) ; Ok (target x)) it.
  (** target_sequence_dataset.py 39-44 *)
  Definition compute_set_of_unique_sequences (h : heap) (it : list nat) : result (list (list L)) :=
    do ss <- sequences h it ; Ok (set_of ss).
  (** tuples are compared lexicographically *)
  Definition key_le (x y : list L * (nat * nat)) : bool :=
    let '(a, b) := snd x in let '(c, d) := snd y in
    (a <? c) || ((a =? c) && (b <=? d)).
  (** target_sequence_dataset.py 85-116 *)
  Definition get_sequences_ordered_by_frequency (h : heap) (it : list nat) : result (list (list L)) :=
    do ss <- sequences h it ;
    let sequence_frequencies := fold_left (fun d s => bump s d) ss [] in
    let event_frequencies := fold_left (fun d s => fold_left (fun d e => bump e d) s d) ss [] in
    Ok (map fst (stable_sort key_le
         (map (fun '(s, f) => (s, (f, list_sum (map (fun e => count_of e event_frequencies) s))))
              sequence_frequencies))).
End Q.
