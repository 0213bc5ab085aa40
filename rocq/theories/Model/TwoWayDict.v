(** Model of prolothar_common/collections/two_way_dict.py.  The public
    attribute [dict] is only changed through [__setitem__]. *)
From Verif.Model Require Import Base.

Section TWD.
  Context {K V : Type} `{Eq K} `{Eq V}.
  (** two_way_dict.py 25-27 *)
  Record two_way_dict := TWD { twd_dict : dict K V; twd_inverse : dict V (list K) }.
  Definition twd_empty : two_way_dict := TWD [] [].
  (** two_way_dict.py 29-33 *)
  Definition twd_setitem (d : two_way_dict) (key : K) (value : V) : two_way_dict :=
    let fwd := dict_set key value (twd_dict d) in
    let inv := if dict_has value (twd_inverse d) then twd_inverse d
               else dict_set value [] (twd_inverse d) in
    let inv := match dict_get value inv with
               | Some ks => dict_set value (set_add key ks) inv
               | None => inv
               end in
    TWD fwd inv.
  (** two_way_dict.py 35-36 *)
  Definition twd_getitem (d : two_way_dict) (key : K) : result V :=
    of_option KeyError (dict_get key (twd_dict d)).
  (** two_way_dict.py 38-39 *)
  Definition twd_contains (d : two_way_dict) (key : K) : bool := dict_has key (twd_dict d).
  (** two_way_dict.py 41-42 *)
  Definition twd_inverse_lookup (d : two_way_dict) (value : V) : result (list K) :=
    of_option KeyError (dict_get value (twd_inverse d)).
  (** a history of assignments, oldest first *)
  Definition twd_run (h : list (K * V)) : two_way_dict :=
    fold_left (fun d kv => twd_setitem d (fst kv) (snd kv)) h twd_empty.
End TWD.
