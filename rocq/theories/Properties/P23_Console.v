(** Properties C113 and C114: progress bars and silenced output *)
From Coq Require Import String Ascii QArith.
From Verif.Model Require Import Base Console.
From Verif.Spec Require Import ConsoleSpec.
From Verif.Proofs Require ConsA.
Open Scope string_scope.
Open Scope list_scope.
Open Scope nat_scope.

(** C113: Progress bars show the progress *)
Theorem C113_bar : forall fmt iteration total prefix suffix decimals length (c : ascii),
  (0 <= iteration <= total)%Z -> (0 < total)%Z -> (0 <= decimals)%Z -> (0 <= length)%Z ->
  exists k, print_progress_bar fmt iteration total prefix suffix decimals length (String c "") =
      Ok (String (ascii_of_nat 13) (prefix ++ " |" ++ row k c ++ row (Z.to_nat length - k) "-" ++ "| " ++
          fmt decimals (100 * (inject_Z iteration / inject_Z total))%Q ++ "% " ++ suffix ++ String (ascii_of_nat 13)
          (if (iteration =? total)%Z then String line_break "" else "")))%string /\
    (Z.of_nat k * total <= length * iteration < (Z.of_nat k + 1) * total)%Z /\ (Z.of_nat k <= length)%Z /\
    (Z.of_nat k = length <-> iteration = total \/ length = 0%Z).
Proof. exact @ConsA.C113_bar. Qed.
Print Assumptions C113_bar.
(** later calls do not show less *)
Theorem C113_monotone : forall fmt total prefix suffix decimals length (c : ascii) i j s t, (0 <= length)%Z -> (0 < total)%Z -> (0 <= i <= j)%Z -> (j <= total)%Z ->
  c <> "-"%char -> (forall d q, occurrences c (fmt d q) = 0) ->
  print_progress_bar fmt i total prefix suffix decimals length (String c "") = Ok s ->
  print_progress_bar fmt j total prefix suffix decimals length (String c "") = Ok t -> occurrences c s <= occurrences c t.
Proof. exact @ConsA.C113_monotone. Qed.
Print Assumptions C113_monotone.
Theorem C113_errors : forall fmt iteration total prefix suffix decimals length fill,
  (total = 0%Z -> print_progress_bar fmt iteration total prefix suffix decimals length fill = Err ZeroDivisionError) /\
  (total <> 0%Z -> (decimals < 0)%Z -> print_progress_bar fmt iteration total prefix suffix decimals length fill = Err ValueError) /\
  (total <> 0%Z -> (0 <= decimals)%Z -> exists s, print_progress_bar fmt iteration total prefix suffix decimals length fill = Ok s).
Proof. exact @ConsA.C113_errors. Qed.
Print Assumptions C113_errors.
(** one line break in a loop from 0 to the total *)
Theorem C113_loop : forall fmt (n : nat) prefix suffix decimals length fill,
  occurrences line_break prefix = 0 -> occurrences line_break suffix = 0 -> occurrences line_break fill = 0 ->
  (forall d q, occurrences line_break (fmt d q) = 0) -> (0 <= decimals)%Z -> 0 < n ->
  exists ts, mapM (fun i => print_progress_bar fmt (Z.of_nat i) (Z.of_nat n) prefix suffix decimals length fill) (seq 0 (S n)) = Ok ts /\
    occurrences line_break (String.concat "" ts) = 1.
Proof. exact @ConsA.C113_loop. Qed.
Print Assumptions C113_loop.
(** after the total the bar is longer than wanted *)
Theorem C113_beyond_witness : forall fmt iteration total prefix suffix decimals length (c : ascii),
  (total < iteration)%Z -> (0 < total)%Z -> (0 <= decimals)%Z -> (0 <= length)%Z ->
  exists k, print_progress_bar fmt iteration total prefix suffix decimals length (String c "") =
      Ok (String (ascii_of_nat 13) (prefix ++ " |" ++ row k c ++ "| " ++
          fmt decimals (100 * (inject_Z iteration / inject_Z total))%Q ++ "% " ++ suffix ++ String (ascii_of_nat 13) ""))%string /\
    (Z.of_nat k * total <= length * iteration < (Z.of_nat k + 1) * total)%Z /\ (length <= Z.of_nat k)%Z /\
    (total <= length * (iteration - total) -> length < Z.of_nat k)%Z.
Proof. exact @ConsA.C113_beyond_witness. Qed.
Print Assumptions C113_beyond_witness.
Definition no_digits (d : Z) (q : Q) : string := "?".
Example C113_example : print_progress_bar no_digits 2 5 "run" "done" 1 10 "#" =
  Ok (String (ascii_of_nat 13) ("run |####------| ?% done" ++ String (ascii_of_nat 13) ""))%string /\
  map (fun i => bar "#" 4 i 3) [0; 1; 2; 3]%Z = ["----"; "#---"; "##--"; "####"] /\ bar "#" 4 6 3 = "########".
Proof. vm_compute. auto. Qed.
Example C113_example_loop : forall d q, occurrences line_break (no_digits d q) = 0.
Proof. reflexivity. Qed.

(** C114: Silencing the output *)
(** only what is not silenced is seen, and afterwards everything is as before *)
Theorem C114_heard : forall p c o e, plain p = true -> out c = Process o -> err c = Process e -> (forall n, In n (closed c) -> n < opened c) ->
  exists c', run p c = (c', snd (heard o e false false p)) /\ seen c' = seen c ++ fst (heard o e false false p) /\
    out c' = out c /\ err c' = err c /\ (all_closed c -> all_closed c').
Proof. exact @ConsA.C114_heard. Qed.
Print Assumptions C114_heard.
(** even if the program redirects the streams itself *)
Theorem C114_restored : forall p suppress_stdout suppress_stderr c c' r, run (Nullify suppress_stdout suppress_stderr p) c = (c', r) ->
  (suppress_stdout = true -> out c' = out c) /\ (suppress_stderr = true -> err c' = err c).
Proof. exact @ConsA.C114_restored. Qed.
Print Assumptions C114_restored.
(** contexts that overlap without being nested leave a closed stream behind *)
Theorem C114_overlap_witness : forall c t, let '(c1, k1) := enter true true c in let '(c2, k2) := enter true true c1 in
  let c3 := leave k2 (leave k1 c2) in out c3 = Null (opened c) /\ snd (write (out c3) t c3) = true.
Proof. exact @ConsA.C114_overlap_witness. Qed.
Print Assumptions C114_overlap_witness.
Definition session : prog :=
  Seq (Print "start") (Seq (Try (Nullify true false (Seq (Print "hidden") (Seq (PrintErr "warning") (Seq (Nullify false true (PrintErr "hidden too")) Raise)))) (Print "failed")) (Print "end")).
Definition at_start : console := Console (Process 1) (Process 2) [] 0 [].
Example C114_example : plain session = true /\ heard 1 2 false false session = ([(1, "start"); (2, "warning"); (1, "failed"); (1, "end")], false) /\
  (forall n, In n (closed at_start) -> n < opened at_start) /\ all_closed at_start /\
  exists c, run session at_start = (c, false) /\ opened c = 2 /\ closed c = [0; 1].
Proof.
  split; [reflexivity|]. split; [reflexivity|]. split; [intros n []|]. split; [intros n H; inversion H|]. eexists. split; [vm_compute; reflexivity|]. split; reflexivity.
Qed.
