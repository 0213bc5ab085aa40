(** Properties C20-C23, C66, C67: patterns.py (tandem arrays and repeats) *)
From Verif.Model Require Import Base Patterns.
From Verif.Spec Require Import Lists Words.
From Verif.Proofs Require Patterns.
From Coq Require Import Sorted Permutation.
Open Scope nat_scope.

(** C20 *)
Theorem C20_primitive_repeat_type :
  forall {A} `{Eq A} (w : list A) (fuel : nat),
    w <> [] -> (Z.of_nat (length w) <= 2 ^ 53)%Z -> length w < fuel ->
    exists b, is_primitive_tandem_repeat_type fuel w = Ok b /\ (b = true <-> primitive w).
Proof. exact @Patterns.is_primitive_ok. Qed.
Print Assumptions C20_primitive_repeat_type.
Example C20_example :
  is_primitive_tandem_repeat_type 20 [1;2;1;2;1;2] = Ok false /\
  is_primitive_tandem_repeat_type 20 [1;2;1;2;1] = Ok true.
Proof. split; vm_compute; reflexivity. Qed.
(** the empty word makes the search for prime factors run forever *)
Theorem C20_empty_diverges :
  forall {A} `{Eq A} (fuel : nat), is_primitive_tandem_repeat_type fuel ([] : list A) = Err OutOfFuel.
Proof. exact @Patterns.is_primitive_empty_diverges. Qed.
Print Assumptions C20_empty_diverges.

(** C21 *)
Theorem C21_is_tandem_array :
  forall {A} `{Eq A} (w trace : list A) (start : nat) (max_k : option nat) (fuel : nat),
    w <> [] -> length trace < fuel ->
    exists k, is_tandem_array fuel trace start w max_k = Ok (2 <=? k, k) /\
      (1 <= k -> occurs_at (power w k) trace start) /\
      match max_k with None => True | Some m => k <= m end /\
      (forall k', 1 <= k' -> match max_k with None => True | Some m => k' <= m end ->
                  occurs_at (power w k') trace start -> k' <= k).
Proof. exact @Patterns.is_tandem_array_ok. Qed.
Print Assumptions C21_is_tandem_array.
Example C21_example :
  is_tandem_array 20 [9;1;2;1;2;1;2;1] 1 [1;2] None = Ok (true, 3) /\
  is_tandem_array 20 [9;1;2;1;2;1;2;1] 1 [1;2] (Some 2) = Ok (true, 2).
Proof. split; vm_compute; reflexivity. Qed.
Theorem C21_empty_type_diverges :
  forall {A} `{Eq A} (trace : list A) (start fuel : nat), start <= length trace ->
    is_tandem_array fuel trace start [] None = Err OutOfFuel.
Proof. exact @Patterns.is_tandem_array_empty_diverges. Qed.
Print Assumptions C21_empty_type_diverges.

(** C22: a primitive repeat type gives exactly its maximal runs, in order of
    their start *)
Theorem C22_maximal_runs :
  forall {A} `{Eq A} (w l : list A), primitive w ->
    exists ts, create_tandem_arrays_from_repeat_type w l = Ok ts /\
      ascending (map (fun t => fst (fst t)) ts) /\
      forall i v k, In (i, v, k) ts <-> v = w /\ maximal_run w l i k.
Proof. exact @Patterns.tandem_arrays_primitive. Qed.
Print Assumptions C22_maximal_runs.
Theorem C22_maximal_runs_of_types :
  forall {A} `{Eq A} (types : list (list A)) (l : list A), (forall w, In w types -> primitive w) ->
    exists ts, create_tandem_arrays_from_repeat_types types l = Ok ts /\
      StronglySorted (fun a b => fst (fst a) < fst (fst b) \/
         (fst (fst a) = fst (fst b) /\ length (snd (fst a)) <= length (snd (fst b)))) ts /\
      forall i v k, In (i, v, k) ts <-> In v types /\ maximal_run v l i k.
Proof. exact @Patterns.tandem_arrays_types. Qed.
Print Assumptions C22_maximal_runs_of_types.
(** any non-empty repeat type: the reported triples are runs and cover every
    occurrence *)
Theorem C22_sound_and_covering :
  forall {A} `{Eq A} (w l : list A), w <> [] ->
    exists ts, create_tandem_arrays_from_repeat_type w l = Ok ts /\
      (forall i v k, In (i, v, k) ts -> v = w /\ 1 <= k /\ occurs_at (power w k) l i) /\
      (forall o, occurs_at w l o -> exists i k j, In (i, w, k) ts /\ j < k /\ o = i + j * length w).
Proof. exact @Patterns.tandem_arrays_sound. Qed.
Print Assumptions C22_sound_and_covering.
Example C22_example :
  create_tandem_arrays_from_repeat_type [1;2] [1;2;1;2;3;1;2;2;1;2;1;2;1;2] =
    Ok [(0,[1;2],2); (5,[1;2],1); (8,[1;2],3)].
Proof. vm_compute. reflexivity. Qed.
(** without primitivity the runs are broken into pieces *)
Theorem C22_non_primitive_witness :
  exists (w l : list nat) ts i k, w <> [] /\
    create_tandem_arrays_from_repeat_type w l = Ok ts /\ In (i, w, k) ts /\ ~ maximal_run w l i k.
Proof.
  exists [1;1], [1;1;1;1], [(0,[1;1],1); (1,[1;1],1); (2,[1;1],1)], 0, 1.
  split; [discriminate|]. split; [vm_compute; reflexivity|]. split; [left; reflexivity|].
  intros (_ & _ & Hn & _). apply Hn. exists [1;1], []. auto.
Qed.
Print Assumptions C22_non_primitive_witness.

(** C23 *)
Theorem C23_super_maximal_repeats :
  forall {A} `{Eq A} (repeats : list (list A)),
    exists r, filter_super_maximal_repeats repeats = Ok r /\ NoDup r /\
      StronglySorted (fun u v => length u <= length v) r /\
      forall w, In w r <-> In w repeats /\ forall o, In o repeats -> o <> w -> ~ sublist w o.
Proof. exact @Patterns.super_maximal_ok. Qed.
Print Assumptions C23_super_maximal_repeats.
Example C23_example :
  filter_super_maximal_repeats [[1;2;3];[4];[2;3];[4];[5;4;6]] = Ok [[1;2;3];[5;4;6]].
Proof. vm_compute. reflexivity. Qed.

(** C66 *)
Theorem C66_find_primitive_tandem_repeats :
  forall {A} `{Eq A} (order : list (list A) -> list (list A)) (fuel : nat) (l : list A) (mn : Z) (mx : option Z),
    (forall s, Permutation (order s) s) -> (1 <= mn)%Z ->
    (Z.of_nat (length l) <= 2 ^ 53)%Z -> length l < fuel ->
    exists r, find_primitive_tandem_repeats order fuel l mn mx = Ok r /\ NoDup r /\
      forall w, In w r <->
        (mn <= Z.of_nat (length w) <= match mx with None => Z.of_nat (length l) / 2 | Some m => m end)%Z /\
        primitive w /\ exists p, occurs_at (w ++ w) l p.
Proof. exact @Patterns.find_primitive_ok. Qed.
Print Assumptions C66_find_primitive_tandem_repeats.
Example C66_example :
  find_primitive_tandem_repeats (fun s => s) 20 [1;1;2;1;1;2;3;3] 1 None = Ok [[1];[3];[1;1;2]].
Proof. vm_compute. reflexivity. Qed.

(** C67: constructor and maximality of a TandemArray *)
Theorem C67_constructor :
  forall {A} `{Eq A} (trace : list A) (start : nat) (w : list A) (n fuel : nat),
    w <> [] -> length trace < fuel ->
    (create_tandem_array fuel trace start w n = Ok (TandemArray trace start w n) /\
       2 <= n /\ occurs_at (power w 2) trace start) \/
    (create_tandem_array fuel trace start w n = Err ValueError /\
       (n < 2 \/ ~ occurs_at (power w 2) trace start)).
Proof. exact @Patterns.create_tandem_array_ok. Qed.
Print Assumptions C67_constructor.
Theorem C67_is_maximal :
  forall {A} `{Eq A} (t : tandem_array), ta_type t <> [] ->
    occurs_at (power (ta_type t) (ta_repeats t)) (ta_trace t) (ta_start t) ->
    (ta_is_maximal t = true <->
     ~ occurs_at (ta_type t) (ta_trace t) (ta_start t + ta_repeats t * length (ta_type t)) /\
     forall h, h + length (ta_type t) = ta_start t -> ~ occurs_at (ta_type t) (ta_trace t) h).
Proof. exact @Patterns.is_maximal_ok. Qed.
Print Assumptions C67_is_maximal.
Example C67_example :
  create_tandem_array 20 [1;2;1;2;3] 0 [1;2] 2 = Ok (TandemArray [1;2;1;2;3] 0 [1;2] 2) /\
  ta_is_maximal (TandemArray [1;2;1;2;3] 0 [1;2] 2) = true.
Proof. split; vm_compute; reflexivity. Qed.
(** the constructor accepts a number of repeats that the trace does not have *)
Theorem C67_number_of_repeats_witness :
  exists (trace w : list nat) (n fuel : nat) t, create_tandem_array fuel trace 0 w n = Ok t /\
    ta_repeats t = n /\ ~ occurs_at (power w n) trace 0.
Proof.
  exists [1;1], [1], 5, 10, (TandemArray [1;1] 0 [1] 5). split; [vm_compute; reflexivity|].
  split; [reflexivity|]. intros (pre & post & E & _).
  apply (f_equal (@length nat)) in E. rewrite !app_length in E. cbn in E. lia.
Qed.
Print Assumptions C67_number_of_repeats_witness.
