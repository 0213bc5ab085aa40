(** Model of prolothar_common/experiments/plots/plot_context.py 74-81: a figure
    as text.  [render] is what matplotlib writes into the buffer for a figure and
    an image format, or the exception it raises. *)
From Coq Require Import String Ascii.
From Verif.Model Require Import Base Plots.
Open Scope string_scope.
Open Scope list_scope.
Open Scope nat_scope.

Definition alphabet : string := "ABCDEFGHIJKLMNOPQRSTUVWXYZabcdefghijklmnopqrstuvwxyz0123456789+/".
Definition symbol (n : nat) : ascii := match String.get n alphabet with Some c => c | None => "="%char end.
(** [base64.b64encode] (binascii.b2a_base64 without a newline) *)
Fixpoint b64encode (bytes : list ascii) : string :=
  match bytes with
  | [] => ""
  | [a] =>
    let x := nat_of_ascii a in
    String (symbol (x / 4)) (String (symbol (x mod 4 * 16)) "==")
  | [a; b] =>
    let x := nat_of_ascii a in let y := nat_of_ascii b in
    String (symbol (x / 4)) (String (symbol (x mod 4 * 16 + y / 16)) (String (symbol (y mod 16 * 4)) "="))
  | a :: b :: c :: bytes' =>
    let x := nat_of_ascii a in let y := nat_of_ascii b in let z := nat_of_ascii c in
    String (symbol (x / 4)) (String (symbol (x mod 4 * 16 + y / 16)) (String (symbol (y mod 16 * 4 + z / 64)) (String (symbol (z mod 64)) (b64encode bytes'))))
  end.
(** [text.replace("\n", "")] *)
Fixpoint without_newlines (s : string) : string :=
  match s with
  | EmptyString => ""
  | String c s' => if nat_of_ascii c =? 10 then without_newlines s' else String c (without_newlines s')
  end.
(** 47-48, 74-81; [n] is the figure of the context, which there is none of
    before the with block *)
Definition to_base_64 (render : figure -> string -> result (list ascii)) (w : world) (n : option nat) (image_format : string) : result string :=
  do i <- of_option AttributeError n ;
  do f <- of_option AttributeError (nth_error (heap w) i) ;
  do bytes <- render f image_format ;
  Ok (without_newlines (b64encode bytes)).
