(** Model of prolothar_common/color_utils.py with real numbers in place of floats *)
From Coq Require Import Reals.
From Verif.Model Require Import Base.
Open Scope list_scope.

Inductive brightness := Light | Dark.
(** 36-41 *)
Definition is_light_or_dark_rgb (rgb : list Z) : result brightness :=
  match rgb with
  | [r; g; b] =>
    let hsp := sqrt (0.299 * (IZR r * IZR r) + 0.587 * (IZR g * IZR g) + 0.114 * (IZR b * IZR b)) in
    Ok (if Rlt_dec 127.5 hsp then Light else Dark)
  | _ => Err ValueError
  end.
