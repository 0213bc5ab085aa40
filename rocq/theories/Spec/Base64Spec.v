(** Vocabulary for text in base 64 (RFC 4648), stopwatches and variables *)
From Coq Require Import String Ascii ZArith QArith.
From Verif.Model Require Import Base PetriNet Variables Stopwatch.
Open Scope string_scope.
Open Scope list_scope.
Open Scope nat_scope.

(** ** base 64, bit by bit *)
(** the value of a character: A-Z, a-z, 0-9, +, / *)
Definition sextet (c : ascii) : option nat :=
  let n := nat_of_ascii c in
  if (65 <=? n) && (n <=? 90) then Some (n - 65)
  else if (97 <=? n) && (n <=? 122) then Some (n - 97 + 26)
  else if (48 <=? n) && (n <=? 57) then Some (n - 48 + 52)
  else if n =? 43 then Some 62
  else if n =? 47 then Some 63
  else None.
(** [k] bits of a number, the most significant one first *)
Definition bits (k n : nat) : list bool := map (Nat.testbit n) (rev (seq 0 k)).
(** eight bits make a byte; what is left over is padding *)
Fixpoint bytes_of (bs : list bool) : list ascii :=
  match bs with
  | b7 :: b6 :: b5 :: b4 :: b3 :: b2 :: b1 :: b0 :: bs' => Ascii b0 b1 b2 b3 b4 b5 b6 b7 :: bytes_of bs'
  | _ => []
  end.
(** the bytes a text stands for; None if it has other characters *)
Fixpoint bits_of_text (cs : list ascii) : option (list bool) :=
  match cs with
  | [] => Some []
  | c :: cs' =>
    if Ascii.eqb c "=" then bits_of_text cs' else
    match sextet c, bits_of_text cs' with Some n, Some bs => Some (bits 6 n ++ bs) | _, _ => None end
  end.
Definition decoded (text : string) : option (list ascii) := option_map bytes_of (bits_of_text (list_ascii_of_string text)).

(** ** stopwatches *)
(** the position of the last start among the first [k] calls *)
Fixpoint last_start (cs : list call) (k : nat) : option nat :=
  match k with
  | 0 => None
  | S k' => match nth_error cs k' with Some Start => Some k' | _ => last_start cs k' end
  end.
(** what the calls of get_elapsed_time have to give if call [i] reads the clock at [k0 + i]:
    the time since the last start *)
Definition expected (clock : nat -> Z) (k0 : nat) (cs : list call) : list (result Z) :=
  concat (map (fun i =>
    match nth_error cs i with
    | Some Elapsed => [match last_start cs i with Some j => Ok (Z.sub (clock (k0 + i)) (clock (k0 + j))) | None => Err AttributeError end]
    | _ => []
    end) (seq 0 (length cs))).

(** ** variables *)
(** a variable with the values that were assigned to it, the oldest first *)
Definition assigned (v : variable) (xs : list val) : variable := fold_left (fun v x => set_value x v) xs v.
