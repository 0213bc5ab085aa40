(** Properties C24, C68, C69: suffix_tree.py and the repeats found with it.
    [dollar] is the terminator '$'. *)
From Verif.Model Require Import Base SuffixTree SuffixObjects.
From Verif.Spec Require Import Lists Words.
From Verif.Proofs Require Repeats RepeatsLog SuffixObjectsD.
From Coq Require Import Permutation.
Open Scope nat_scope.

(** C24: exactly the right-branching words, each once *)
Theorem C24_reported_repeats :
  forall {A} `{Eq A} (dollar : A) (s : list A) (m : Z), s <> [] -> ~ In dollar s ->
    exists r, find_maximal_repeats dollar s m = Ok r /\ NoDup r /\
      forall u, In u r <-> u <> [] /\ (m <= Z.of_nat (length u))%Z /\ right_branching s u.
Proof. exact @Repeats.find_maximal_repeats_ok. Qed.
Print Assumptions C24_reported_repeats.
(** hence no maximal pair is missed and every result stands at two places *)
Theorem C24_no_pair_missed :
  forall {A} `{Eq A} (dollar : A) (s : list A) (m : Z) r u, s <> [] -> ~ In dollar s ->
    find_maximal_repeats dollar s m = Ok r -> u <> [] -> (m <= Z.of_nat (length u))%Z ->
    maximal_pair_word s u -> In u r.
Proof.
  intros A HA dollar s m r u Hs Hd E Hu Hm Hp.
  destruct (Repeats.find_maximal_repeats_ok dollar s m Hs Hd) as (r' & E' & _ & Hr).
  rewrite E in E'. injection E' as <-. apply Hr. split; [exact Hu|]. split; [exact Hm|].
  exact (Repeats.maximal_pairs_found s u Hp).
Qed.
Print Assumptions C24_no_pair_missed.
(** the code works on node objects and remembers the numbers of descendants: same
    results, same errors *)
Theorem C24_objects : forall (A : Type) (EA : Eq A) (dollar : A) (s : list A) (m : Z),
  find_maximal_repeats_objects dollar s m = find_maximal_repeats dollar s m.
Proof. exact @SuffixObjectsD.C24_objects. Qed.
Print Assumptions C24_objects.
Example C24_example :
  find_maximal_repeats 0 [1;2;3;9;1;2;3;8;2;3] 1 = Ok [[1;2;3];[2;3];[3]].
Proof. vm_compute. reflexivity. Qed.
(** but words that can always be extended to the left are reported too *)
Theorem C24_left_maximality_witness :
  exists (s u : list nat) r, find_maximal_repeats 0 s 1 = Ok r /\ In u r /\
    ~ left_branching s u /\ ~ maximal_pair_word s u.
Proof.
  exists [2;3;1;2;3], [3], [[2;3];[3]]. split; [vm_compute; reflexivity|]. split; [right; left; reflexivity|].
  assert (Hocc : forall p, occurs_at [3] [2;3;1;2;3] p -> symbol_before [2;3;1;2;3] p = Some 2).
  { intros p (pre & post & E & <-).
    destruct pre as [|a [|b [|c [|d [|e pre]]]]]; try discriminate; try (injection E; intros; subst; reflexivity).
    apply (f_equal (@length nat)) in E. rewrite !app_length in E. cbn in E. lia. }
  split.
  - intros (p & q & Hp & Hq & Hne). rewrite (Hocc p Hp), (Hocc q Hq) in Hne. auto.
  - intros (p & q & _ & Hp & Hq & Hne & _). rewrite (Hocc p Hp), (Hocc q Hq) in Hne. auto.
Qed.
Print Assumptions C24_left_maximality_witness.
(** a sequence that contains the terminator can make the call crash *)
Theorem C24_terminator_in_sequence_crashes :
  exists (s : list nat), s <> [] /\ find_maximal_repeats 0 s 1 = Err IndexError.
Proof. exists [0;1;0;2]. split; [discriminate|]. vm_compute. reflexivity. Qed.
Print Assumptions C24_terminator_in_sequence_crashes.
Theorem C24_empty_sequence_crashes :
  forall {A} `{Eq A} (dollar : A) (m : Z), find_maximal_repeats dollar [] m = Err IndexError.
Proof. reflexivity. Qed.
Print Assumptions C24_empty_sequence_crashes.

(** C68: super maximal and near super maximal repeats *)
Theorem C68_super_maximal :
  forall {A} `{Eq A} (dollar : A) (s : list A) (m : Z), s <> [] -> ~ In dollar s ->
    exists r, find_super_maximal_repeats dollar s m = Ok r /\ NoDup r /\
      forall u, In u r <-> inclusion_maximal
         (fun v => v <> [] /\ (m <= Z.of_nat (length v))%Z /\ right_branching s v) u.
Proof. exact @Repeats.find_super_ok. Qed.
Print Assumptions C68_super_maximal.
Theorem C68_near_super_maximal :
  forall {A} `{Eq A} (dollar : A) order (s : list A) (m : Z), (forall x, Permutation (order x) x) ->
    s <> [] -> ~ In dollar s ->
    exists r, find_near_super_maximal_repeats dollar order s m = Ok r /\ NoDup r /\
      forall u, In u r <->
        let family := fun v => v <> [] /\ (m <= Z.of_nat (length v))%Z /\ right_branching s v in
        family u /\
        (inclusion_maximal family u \/
         exists p, occurs_at u s p /\
           forall v q, inclusion_maximal family v -> occurs_at v s q -> ~ overlap p (length u) q (length v)).
Proof. exact @Repeats.find_near_ok. Qed.
Print Assumptions C68_near_super_maximal.
Example C68_example :
  find_super_maximal_repeats 0 [1;2;3;9;1;2;3;8;2;3] 1 = Ok [[1;2;3]] /\
  find_near_super_maximal_repeats 0 (fun x => x) [1;2;3;9;1;2;3;8;2;3] 1 = Ok [[3];[2;3];[1;2;3]].
Proof. split; vm_compute; reflexivity. Qed.

(** C69: repeats over a whole log *)
Theorem C69_repeats_over_log :
  forall {A} `{Eq A} (dollar sep : A) order (log : list (list A)) (m : Z), (forall x, Permutation (order x) x) ->
    join_with sep log <> [] -> dollar <> sep -> (forall t, In t log -> ~ In dollar t) ->
    exists r, get_maximal_repeats_over_log dollar order log sep m = Ok r /\ NoDup r /\
      forall u, In u r <-> (m <= Z.of_nat (length u))%Z /\
        exists w, inclusion_maximal (fun v => v <> [] /\ (m <= Z.of_nat (length v))%Z /\
                                     right_branching (join_with sep log) v) w /\ segment sep w u.
Proof. exact @RepeatsLog.over_log_ok. Qed.
Print Assumptions C69_repeats_over_log.
Theorem C69_inside_traces_twice :
  forall {A} `{Eq A} (dollar sep : A) order (log : list (list A)) (m : Z) r u, (forall x, Permutation (order x) x) ->
    join_with sep log <> [] -> dollar <> sep -> (forall t, In t log -> ~ In dollar t) -> (1 <= m)%Z ->
    get_maximal_repeats_over_log dollar order log sep m = Ok r -> In u r ->
    ~ In sep u /\
    exists i j ti tj p q, (i, p) <> (j, q) /\ nth_error log i = Some ti /\ occurs_at u ti p /\
                          nth_error log j = Some tj /\ occurs_at u tj q.
Proof. exact @RepeatsLog.over_log_twice. Qed.
Print Assumptions C69_inside_traces_twice.
Example C69_example :
  get_maximal_repeats_over_log 0 (fun x => x) [[1;2;3];[4;5;1;2];[3;4;5]] 9 2 = Ok [[1;2];[4;5]].
Proof. vm_compute. reflexivity. Qed.
