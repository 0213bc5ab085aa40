(** Property C132: processes that use the same cache file at the same time *)
From Verif.Model Require Import Base Parallel ResultCache CacheRace.
From Verif.Spec Require Import CacheRaceSpec.
From Verif.Proofs Require CacheRaceA CacheRaceB CacheRaceC.
Open Scope nat_scope.

(** C132: Processes that share a cache file *)
(** whenever no call is writing, the file does not exist or is complete; once a
    call has ended, it exists *)
Theorem C132_file : forall (R B : Type) (zero : B) (p : pickle R B) function r bytes content n sched s,
  (forall i, function i = Ok r) -> dump p r = (bytes, None) -> content = None \/ content = Some bytes ->
  exec (race_step zero p function) sched (race_init content n) = Some s ->
  ((forall ph, In ph (phases s) -> ~ writes ph) -> file s = None \/ file s = Some bytes) /\
  ((exists ph, In ph (phases s) /\ has_ended ph) -> file s <> None).
Proof. exact @CacheRaceA.C132_file. Qed.
Print Assumptions C132_file.
(** a call returns the result of the function, or it ends with what it has read
    from an incomplete file *)
Theorem C132_calls : forall (R B : Type) (zero : B) (p : pickle R B) function r bytes content n sched s e,
  (forall i, function i = Ok r) -> dump p r = (bytes, None) -> content = None \/ content = Some bytes ->
  exec (race_step zero p function) sched (race_init content n) = Some s -> In (Ended e) (phases s) ->
  e = Returned r \/ exists got, patchy zero bytes got /\ e = match load p got with Ok r' => Returned r' | Err x => RaisedExc x end.
Proof. exact @CacheRaceA.C132_calls. Qed.
Print Assumptions C132_calls.
(** once the file is complete and no call that missed it is still busy, every
    call that starts returns the result, and the file does not change *)
Theorem C132_later : forall (R B : Type) (zero : B) (p : pickle R B) function r bytes sched s s' i e,
  load p bytes = Ok r -> file s = Some bytes -> (forall ph, In ph (phases s) -> ~ busy ph) ->
  exec (race_step zero p function) sched s = Some s' -> nth_error (phases s) i = Some Started ->
  file s' = Some bytes /\ (forall ph, In ph (phases s') -> ~ busy ph) /\ (nth_error (phases s') i = Some (Ended e) -> e = Returned r).
Proof. exact @CacheRaceA.C132_later. Qed.
Print Assumptions C132_later.
(** each process that has not ended can go on, and all end after finitely many steps *)
Theorem C132_finishes : forall (R B : Type) (zero : B) (p : pickle R B) function r bytes content n sched s,
  (forall i, function i = Ok r) -> dump p r = (bytes, None) -> content = None \/ content = Some bytes ->
  exec (race_step zero p function) sched (race_init content n) = Some s ->
  length sched <= n * (length bytes + 4) /\
  forall i ph, nth_error (phases s) i = Some ph -> ~ has_ended ph -> exists s', race_step zero p function (i, 0) s = Some s'.
Proof. exact @CacheRaceA.C132_finishes. Qed.
Print Assumptions C132_finishes.
(** a process alone does what a call of [ResultCache] does *)
Theorem C132_alone : forall (A R B : Type) (zero : B) (p : pickle R B) function content sched s e name (a : A),
  exec (race_step zero p function) sched (race_init content 1) = Some s -> phases s = [Ended e] ->
  let w := World (match content with None => [] | Some c => [(name, c)] end) 0 in
  let '(w', e') := wrapper p (Call name None (fun k _ => function k) a) NotKilled w in
  e' = e /\ dict_get name (files w') = file s.
Proof. exact @CacheRaceA.C132_alone. Qed.
Print Assumptions C132_alone.
(** three calls of a function that always returns [7; 8]: one returns [0; 8] *)
Theorem C132_wrong_result_witness : exists sched s, exec (race_step 0 counted_pickle (fun _ => Ok [7; 8])) sched (race_init None 3) = Some s /\
  phases s = [Ended (Returned [7; 8]); Ended (Returned [7; 8]); Ended (Returned [0; 8])] /\ file s = Some [2; 7; 8] /\
  (forall r, load counted_pickle (fst (dump counted_pickle r)) = Ok r) /\ (forall r k, k < length (fst (dump counted_pickle r)) -> exists x, load counted_pickle (firstn k (fst (dump counted_pickle r))) = Err x).
Proof. exact @CacheRaceA.C132_wrong_result_witness. Qed.
Print Assumptions C132_wrong_result_witness.
(** two calls of a function that returns different results: the file holds neither *)
Theorem C132_mixture_witness : exists sched s, exec (race_step 0 counted_pickle (fun i => Ok (if i =? 0 then [7; 8] else [5; 6]))) sched (race_init None 3) = Some s /\
  phases s = [Ended (Returned [7; 8]); Ended (Returned [5; 6]); Ended (Returned [5; 8])].
Proof. exact @CacheRaceA.C132_mixture_witness. Qed.
Print Assumptions C132_mixture_witness.
(** processes can be killed at any time: a call that ends returns the result of
    the function, or it ends with what it has read from an incomplete file; in
    the file each byte is right or zero *)
Theorem C132_killed_calls : forall (R B : Type) (zero : B) (p : pickle R B) function r bytes content n sched s,
  (forall i, function i = Ok r) -> dump p r = (bytes, None) -> content = None \/ content = Some bytes ->
  exec (kill_step zero p function) sched (race_init content n) = Some s ->
  (forall c, file s = Some c -> patchy zero bytes c) /\
  forall e, In (Ended e) (phases s) -> e = Killed \/ e = Returned r \/
    exists got, patchy zero bytes got /\ e = match load p got with Ok r' => Returned r' | Err x => RaisedExc x end.
Proof. exact @CacheRaceB.C132_killed_calls. Qed.
Print Assumptions C132_killed_calls.
(** if no process is killed while it has the file open for writing, then
    whenever no call is writing, the file does not exist or is complete *)
Theorem C132_killed_file : forall (R B : Type) (zero : B) (p : pickle R B) function r bytes content n sched s,
  (forall i, function i = Ok r) -> dump p r = (bytes, None) -> content = None \/ content = Some bytes ->
  exec (kill_step zero p function) sched (race_init content n) = Some s ->
  (forall before i after t ph, sched = before ++ Kill i :: after -> exec (kill_step zero p function) before (race_init content n) = Some t ->
    nth_error (phases t) i = Some ph -> ~ writes ph) ->
  (forall ph, In ph (phases s) -> ~ writes ph) -> file s = None \/ file s = Some bytes.
Proof. exact @CacheRaceB.C132_killed_file. Qed.
Print Assumptions C132_killed_file.
(** the file is repaired: if process [i] opens it for writing, no other call that
    missed it is about to, and [i] returns, then the file is complete, whatever
    was in it and whoever was killed *)
Theorem C132_killed_last : forall (R B : Type) (zero : B) (p : pickle R B) function r bytes content n sched s i k s1 sched' s2,
  (forall i, function i = Ok r) -> dump p r = (bytes, None) -> content = None \/ content = Some bytes ->
  exec (kill_step zero p function) sched (race_init content n) = Some s -> nth_error (phases s) i = Some (Evaluated r) ->
  (forall j ph, nth_error (phases s) j = Some ph -> j <> i -> ph <> Evaluating /\ forall r', ph <> Evaluated r') ->
  kill_step zero p function (Go i k) s = Some s1 ->
  exec (kill_step zero p function) sched' s1 = Some s2 -> nth_error (phases s2) i = Some (Ended (Returned r)) ->
  file s2 = Some bytes.
Proof. exact @CacheRaceB.C132_killed_last. Qed.
Print Assumptions C132_killed_last.
(** processes that are not killed end after finitely many steps *)
Theorem C132_killed_finishes : forall (R B : Type) (zero : B) (p : pickle R B) function r bytes content n sched s,
  (forall i, function i = Ok r) -> dump p r = (bytes, None) -> content = None \/ content = Some bytes ->
  exec (kill_step zero p function) sched (race_init content n) = Some s ->
  length sched <= n * (length bytes + 5) /\
  forall i ph, nth_error (phases s) i = Some ph -> ~ has_ended ph -> exists s', kill_step zero p function (Go i 0) s = Some s'.
Proof. exact @CacheRaceB.C132_killed_finishes. Qed.
Print Assumptions C132_killed_finishes.
(** Whatever the functions return or raise, and whoever is killed: every process
    that has not ended can go on, all end after finitely many steps, and a call
    ends with the exception or the result of its own function, or with what
    unpickling makes of bytes it has read. *)
Theorem C132_any_function : forall (R B : Type) (zero : B) (p : pickle R B) function size content n sched s,
  (forall i r, function i = Ok r -> length (fst (dump p r)) <= size) -> (forall c, content = Some c -> length c <= size) ->
  exec (kill_step zero p function) sched (race_init content n) = Some s ->
  length sched <= n * (size + 4) /\
  (forall i ph, nth_error (phases s) i = Some ph -> ~ has_ended ph -> exists s', kill_step zero p function (Go i 0) s = Some s') /\
  (forall i e, nth_error (phases s) i = Some (Ended e) -> e = Killed \/
    (exists x, function i = Err x /\ e = RaisedExc x) \/
    (exists r, function i = Ok r /\ e = match snd (dump p r) with None => Returned r | Some x => RaisedExc x end) \/
    (exists got, length got <= size /\ e = match load p got with Ok r => Returned r | Err x => RaisedExc x end)).
Proof. exact @CacheRaceC.C132_any_function. Qed.
Print Assumptions C132_any_function.
(** a process that is killed while it writes spoils the file for good: [load]
    raises in every later call *)
Theorem C132_killed_witness : exists sched s, exec (kill_step 0 counted_pickle (fun _ => Ok [7; 8])) sched (race_init None 3) = Some s /\
  phases s = [Ended Killed; Ended (RaisedExc EOFError); Ended (RaisedExc EOFError)] /\ file s = Some [2; 7].
Proof. exact @CacheRaceB.C132_killed_witness. Qed.
Print Assumptions C132_killed_witness.
(** the functions of two processes return different results, that of a third raises *)
Example C132_example_any : let function i := if i =? 0 then Ok [7; 8] else if i =? 1 then Ok [5] else Err ValueError in
  (forall i r, function i = Ok r -> length (fst (dump counted_pickle r)) <= 3) /\
  exists s, exec (kill_step 0 counted_pickle function) [Go 0 0; Go 1 0; Go 2 0; Go 0 0; Go 1 0; Go 2 0; Go 0 0; Go 0 9; Go 1 0; Go 1 9; Go 0 0; Go 1 0] (race_init None 3) = Some s /\
    phases s = [Ended (Returned [7; 8]); Ended (Returned [5]); Ended (RaisedExc ValueError)] /\ file s = Some [1; 5].
Proof.
  split; [|eexists; split; [vm_compute; reflexivity|split; reflexivity]]. intros [|[|i]] r H; cbn in H; try discriminate; injection H as <-; cbn; auto.
Qed.
(** two calls; the second one starts when half of the file is written and
    raises, a third one starts later *)
Example C132_example : exists s,
  exec (race_step 0 counted_pickle (fun _ => Ok [7; 8])) [(0, 0); (0, 0); (0, 0); (0, 1); (1, 0); (1, 5); (1, 0); (0, 0); (0, 0); (2, 0); (2, 1); (2, 1); (2, 0)] (race_init None 3) = Some s /\
  phases s = [Ended (Returned [7; 8]); Ended (RaisedExc EOFError); Ended (Returned [7; 8])] /\ file s = Some [2; 7; 8] /\
  dump counted_pickle [7; 8] = ([2; 7; 8], None) /\ load counted_pickle [2; 7; 8] = Ok [7; 8].
Proof. eexists. split; [vm_compute; reflexivity|]. repeat split. Qed.
(** a state in which the file is complete and a call is about to start *)
Example C132_example_later : exists s,
  exec (race_step 0 counted_pickle (fun _ => Ok [7; 8])) [(0, 0); (0, 0); (0, 0); (0, 5); (0, 0)] (race_init None 2) = Some s /\
  file s = Some [2; 7; 8] /\ nth_error (phases s) 1 = Some Started /\ (forall ph, In ph (phases s) -> ~ busy ph).
Proof. eexists. split; [vm_compute; reflexivity|]. split; [reflexivity|]. split; [reflexivity|]. intros ph [<-|[<-|[]]] []. Qed.
(** process 0 is killed while it writes, process 1 has missed the file as well and
    repairs it *)
Example C132_example_killed : exists s s1 s2,
  exec (kill_step 0 counted_pickle (fun _ => Ok [7; 8])) [Go 0 0; Go 1 0; Go 0 0; Go 1 0; Go 0 0; Go 0 1; Kill 0; Go 2 0; Kill 2] (race_init None 3) = Some s /\
  file s = Some [2; 7] /\ nth_error (phases s) 1 = Some (Evaluated [7; 8]) /\
  (forall j ph, nth_error (phases s) j = Some ph -> j <> 1 -> ph <> Evaluating /\ forall r', ph <> Evaluated r') /\
  kill_step 0 counted_pickle (fun _ => Ok [7; 8]) (Go 1 0) s = Some s1 /\
  exec (kill_step 0 counted_pickle (fun _ => Ok [7; 8])) [Go 1 5; Go 1 0] s1 = Some s2 /\
  phases s2 = [Ended Killed; Ended (Returned [7; 8]); Ended Killed].
Proof.
  eexists _, _, _. split; [vm_compute; reflexivity|]. split; [reflexivity|]. split; [reflexivity|]. split; [|split; [reflexivity|split; [vm_compute; reflexivity|reflexivity]]].
  intros [|[|[|j]]] ph H N; try discriminate; try congruence; [injection H as <-|injection H as <-|destruct j; discriminate H]; split; intros; discriminate.
Qed.
(** processes that are killed while they do not write *)
Example C132_example_harmless : exists s,
  exec (kill_step 0 counted_pickle (fun _ => Ok [7; 8])) [Go 0 0; Go 0 0; Kill 0; Go 1 0; Go 1 0; Go 1 0; Go 1 4; Go 1 0; Go 2 0; Kill 2] (race_init None 3) = Some s /\
  phases s = [Ended Killed; Ended (Returned [7; 8]); Ended Killed] /\ file s = Some [2; 7; 8].
Proof. eexists. split; [vm_compute; reflexivity|]. split; reflexivity. Qed.
