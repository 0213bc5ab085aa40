(** Properties C140 to C142: figures as text, the stopwatch, variables of nets *)
From Coq Require Import String Ascii ZArith QArith Lia.
From Verif.Model Require Import Base Plots Base64 PetriNet Variables Stopwatch.
From Verif.Spec Require Import Base64Spec.
From Verif.Proofs Require Base64A.
Open Scope string_scope.
Open Scope list_scope.
Open Scope nat_scope.

(** C140: Figures as text *)
(** What to_base_64 gives is the image of the figure of the context, whatever
    the current figure is: decoding the text gives the bytes of the image. It has
    no line breaks and is as long as RFC 4648 says. *)
Theorem C140_text : forall render w n f image_format bytes,
  nth_error (heap w) n = Some f -> render f image_format = Ok bytes ->
  exists text, to_base_64 render w (Some n) image_format = Ok text /\ decoded text = Some bytes /\
    String.length text = 4 * ((length bytes + 2) / 3) /\
    forall c, In c (list_ascii_of_string text) -> c = "="%char \/ sextet c <> None.
Proof. exact @Base64A.C140_text. Qed.
Print Assumptions C140_text.
(** Before the with block there is no figure; an exception of matplotlib is
    passed on. *)
Theorem C140_errors : forall render w n f image_format e,
  to_base_64 render w None image_format = Err AttributeError /\
  (nth_error (heap w) n = Some f -> render f image_format = Err e -> to_base_64 render w (Some n) image_format = Err e).
Proof. exact @Base64A.C140_errors. Qed.
Print Assumptions C140_errors.
Example C140_example : let w := World [Figure (Some "a") [] None; Figure (Some "b") [] None] [0; 1] [] [] [] in
  let render := fun f (fmt : string) => match f_title f with Some t => if eqb fmt "png" then Ok (list_ascii_of_string (t ++ "cde")) else Err ValueError | None => Ok [] end in
  nth_error (heap w) 0 = Some (Figure (Some "a") [] None) /\ to_base_64 render w (Some 0) "png" = Ok "YWNkZQ==" /\
  decoded "YWNkZQ==" = Some (list_ascii_of_string "acde") /\ to_base_64 render w (Some 0) "bmp" = Err ValueError.
Proof. vm_compute. auto. Qed.

(** C141: The stopwatch *)
(** Whatever is called in whatever order and whatever the clock says: the
    elapsed time is the difference of the clock to the last start. *)
Theorem C141_elapsed : forall clock k0 cs, run clock (new_stopwatch k0) cs = expected clock k0 cs.
Proof. exact @Base64A.C141_elapsed. Qed.
Print Assumptions C141_elapsed.
(** With a clock that is never set back, no elapsed time is negative. *)
Theorem C141_not_negative : forall clock k0 cs z, (forall i j, i <= j -> (clock i <= clock j)%Z) -> In (Ok z) (run clock (new_stopwatch k0) cs) -> (0 <= z)%Z.
Proof. exact @Base64A.C141_not_negative. Qed.
Print Assumptions C141_not_negative.
(** datetime.now() can be set back. *)
Theorem C141_negative_witness : exists clock, run clock (new_stopwatch 0) [Start; Elapsed] = [Ok (-5)%Z].
Proof. exact @Base64A.C141_negative_witness. Qed.
Print Assumptions C141_negative_witness.
Example C141_example : run (fun i => Z.of_nat (i * i)) (new_stopwatch 3) [Elapsed; Start; Elapsed; OtherReading; Elapsed; Start; Elapsed] =
  [Err AttributeError; Ok 9%Z; Ok 33%Z; Ok 17%Z] /\ forall i j, i <= j -> (Z.of_nat (i * i) <= Z.of_nat (j * j))%Z.
Proof. split; [reflexivity|]. intros i j H. nia. Qed.

(** C142: Variables of data petri nets *)
(** After any assignments a variable has the value assigned last and its old
    name and bounds; nothing is checked against the bounds. *)
Theorem C142_values : forall v xs,
  get_value (assigned v xs) = last xs (get_value v) /\ v_name (assigned v xs) = v_name v /\
  get_lower_bound_as_number (assigned v xs) = get_lower_bound_as_number v /\ get_upper_bound_as_number (assigned v xs) = get_upper_bound_as_number v.
Proof. exact @Base64A.C142_values. Qed.
Print Assumptions C142_values.
(** The number of a variable with a number is the value itself and its bounds
    are those given to it; the number of a bool variable is 1 or 0 and always
    between its bounds. *)
Theorem C142_numbers : forall name value lower upper xs,
  (let i := assigned (int_variable name value lower upper) xs in
   get_value_as_number i = last xs value /\ get_lower_bound_as_number i = lower /\ get_upper_bound_as_number i = upper) /\
  (let f := assigned (float_variable name value lower upper) xs in
   get_value_as_number f = last xs value /\ get_lower_bound_as_number f = lower /\ get_upper_bound_as_number f = upper) /\
  (let b := assigned (bool_variable name value) xs in
   get_value_as_number b = VNum (if truthy (last xs value) then 1 else 0) /\
   val_le (get_lower_bound_as_number b) (get_value_as_number b) = Ok true /\ val_le (get_value_as_number b) (get_upper_bound_as_number b) = Ok true).
Proof. exact @Base64A.C142_numbers. Qed.
Print Assumptions C142_numbers.
Theorem C142_bounds_witness : exists name lower upper x,
  let v := assigned (int_variable name (VNum 1) (VNum lower) (VNum upper)) [x] in
  val_le (get_value_as_number v) (get_upper_bound_as_number v) = Ok false.
Proof. exact @Base64A.C142_bounds_witness. Qed.
Print Assumptions C142_bounds_witness.
Example C142_example : get_value_as_number (assigned (bool_variable "b" VNone) [VBool false; VNum 3]) = VNum 1 /\
  get_value (assigned (int_variable "i" (VNum 2) (VNum 0) (VNum 5)) [VNum 9; VNone]) = VNone.
Proof. vm_compute. auto. Qed.
