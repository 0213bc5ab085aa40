(** Model of prolothar_common/random_utils.py *)
From Verif.Model Require Import Base.

Section BC.
  Context {A P : Type}.
  (** [choice k] is what the [k]-th call of [Generator.choice(options,
      p=probabilities, size=buffer_size)] returns (or raises) *)
  Variable choice : nat -> result (list A).

  (** random_utils.py 50-54 (the generator itself is the oracle [choice]
      together with the number of calls made so far) *)
  Record buffering_choice := BC { bc_buffer : list A; bc_calls : nat }.
  (** random_utils.py 25-54 *)
  Definition bc_create (options : list A) (probabilities : list P) (buffer_size : Z)
    : result buffering_choice :=
    if negb (length options =? length probabilities) then Err ValueError
    else if (buffer_size <? 1)%Z then Err ValueError
    else Ok (BC [] 0).
  (** random_utils.py 56-65 *)
  Definition bc_next_sample (b : buffering_choice) : result (A * buffering_choice) :=
    match bc_buffer b with
    | x :: rest => Ok (x, BC rest (bc_calls b))
    | [] =>
      do buf <- choice (bc_calls b) ;
      match buf with
      | x :: rest => Ok (x, BC rest (S (bc_calls b)))
      | [] => Err StopIteration
      end
    end.
  (** [n] calls of next_sample, samples in order *)
  Fixpoint bc_samples (n : nat) (b : buffering_choice) : result (list A * buffering_choice) :=
    match n with
    | 0 => Ok ([], b)
    | S n' =>
      do xb <- bc_next_sample b ;
      do xsb <- bc_samples n' (snd xb) ;
      Ok (fst xb :: fst xsb, snd xsb)
    end.
End BC.
