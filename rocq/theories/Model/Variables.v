(** Model of prolothar_common/models/data_petri_net.py 25-89: the variables of
    data petri nets.  None is [VNone]. *)
From Coq Require Import String QArith.
From Verif.Model Require Import Base PetriNet.
Open Scope string_scope.
Open Scope list_scope.
Open Scope nat_scope.

(** 49-52, 64-67, 79-80 *)
Inductive kind := IntVariable | FloatVariable | BoolVariable.
Record variable := Variable_ { v_kind : kind; v_name : string; v_value : val; v_lower : val; v_upper : val }.
Definition int_variable name value lower upper : variable := Variable_ IntVariable name value lower upper.
Definition float_variable name value lower upper : variable := Variable_ FloatVariable name value lower upper.
Definition bool_variable name value : variable := Variable_ BoolVariable name value VNone VNone.
(** 30-34 *)
Definition get_value (v : variable) : val := v_value v.
Definition set_value (x : val) (v : variable) : variable := Variable_ (v_kind v) (v_name v) x (v_lower v) (v_upper v).
(** 54-55, 69-70, 82-83 *)
Definition get_value_as_number (v : variable) : val :=
  match v_kind v with
  | IntVariable => get_value v
  | FloatVariable => get_value v
  | BoolVariable => VNum (if truthy (v_value v) then 1 else 0)
  end.
(** 57-61, 72-76, 85-89 *)
Definition get_lower_bound_as_number (v : variable) : val :=
  match v_kind v with BoolVariable => VNum 0 | _ => v_lower v end.
Definition get_upper_bound_as_number (v : variable) : val :=
  match v_kind v with BoolVariable => VNum 1 | _ => v_upper v end.
