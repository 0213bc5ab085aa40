(** Property C112: from datasets with target sequences to event logs *)
From Coq Require Import String Permutation.
From Verif.Model Require Import Base EventLog Dataset Converter.
From Verif.Spec Require Import DatasetSpec.
From Verif.Proofs Require ConvA.
Open Scope string_scope.
Open Scope list_scope.
Open Scope nat_scope.
Definition orders_h : heap nat string (list string) :=
  [ {| iid := 7; feats := [("colour", "red"); ("size", "L")]; target := ["a"; "b"; "c"] |};
    {| iid := 8; feats := [("size", "M"); ("colour", "blue")]; target := ["b"] |} ].
Definition orders_d : dataset string :=
  match foldM (add_instance orders_h) [0; 1] (new ["colour"] ["size"]) with Ok d => d | Err _ => new [] [] end.
Example orders_history : history true orders_h orders_d.
Proof.
  assert (P : proper orders_h).
  { intros a x E. do 2 (destruct a as [|a]; [injection E as <-; repeat constructor; cbn; intuition discriminate|]). destruct a; discriminate. }
  eapply (hist_add true orders_h _ 1); [eapply (hist_add true orders_h _ 0)|]; [apply (hist_new true orders_h ["colour"] ["size"])| |]; try (vm_compute; reflexivity); auto.
  intros _. repeat constructor; cbn; intuition discriminate.
Qed.
Example orders_order : Permutation [1; 0] (insts orders_d).
Proof. vm_compute. constructor. Qed.

(** C112: Event logs made from datasets with target sequences *)
Theorem C112_convert : forall (I V : Type) (EI : Eq I) (EV : Eq V) fresh (h : heap I V (list string)) (d : dataset V) it,
  history fresh h d -> Permutation it (insts d) ->
  ((forall a x, member h d a x -> target x <> []) -> exists l, convert h it = Ok l /\
     Forall2 (fun a t => exists x, member h d a x /\ made_id t = iid x /\ map activity (made_events t) = target x /\
       Forall (fun e => ev_attrs e = [] /\ transition e = None) (made_events t) /\ attributes_in h t = Some (feats x)) it l /\
     NoDup (map made_id l)) /\
  ((exists a x, member h d a x /\ target x = []) -> convert h it = Err ValueError).
Proof. exact @ConvA.C112_convert. Qed.
Print Assumptions C112_convert.
(** the attributes of a trace are those that its instance has later on *)
Theorem C112_shared : forall (I V : Type) (h h' : heap I V (list string)) it l, convert h it = Ok l ->
  Forall2 (fun a t => attributes_in h' t = option_map feats (nth_error h' a)) it l.
Proof. exact @ConvA.C112_shared. Qed.
Print Assumptions C112_shared.
(** so an attribute removed from the dataset disappears from the log *)
Theorem C112_remove_witness : forall (I V : Type) (EI : Eq I) (EV : Eq V) fresh (h : heap I V (list string)) (d : dataset V) it it' l n h' d',
  history fresh h d -> Permutation it (insts d) -> Permutation it' (insts d) -> convert h it = Ok l ->
  remove_attribute h d it' n = (h', d', None) ->
  Forall (fun t => exists fs fs', attributes_in h t = Some fs /\ attributes_in h' t = Some fs' /\
    forall k, dict_get k fs' = if eqb k n then None else dict_get k fs) l.
Proof. exact @ConvA.C112_remove_witness. Qed.
Print Assumptions C112_remove_witness.
(** a log made from a copy of the dataset is independent of the dataset *)
Theorem C112_copy : forall (I V : Type) (EI : Eq I) (EV : Eq V) (h : heap I V (list string)) (d : dataset V) it it' h1 c l h2,
  history true h d -> Permutation it (insts d) -> copy h d it = Ok (h1, c) -> Permutation it' (insts c) -> convert h1 it' = Ok l ->
  (forall a, ~ In a (insts d) -> nth_error h2 a = nth_error h1 a) ->
  Forall (fun t => attributes_in h2 t = attributes_in h1 t) l.
Proof. exact @ConvA.C112_copy. Qed.
Print Assumptions C112_copy.
Example C112_example : exists l h' d', convert orders_h [1; 0] = Ok l /\ map made_id l = [8; 7] /\
  map (fun t => map activity (made_events t)) l = [["b"]; ["a"; "b"; "c"]] /\
  map (attributes_in orders_h) l = [Some [("size", "M"); ("colour", "blue")]; Some [("colour", "red"); ("size", "L")]] /\
  remove_attribute orders_h orders_d [0; 1] "size" = (h', d', None) /\
  map (attributes_in h') l = [Some [("colour", "blue")]; Some [("colour", "red")]].
Proof. do 3 eexists. split; [vm_compute; reflexivity|]. do 3 (split; [reflexivity|]). split; [vm_compute; reflexivity|]. reflexivity. Qed.
Example C112_example_empty : exists (h : heap nat string (list string)), convert h [0] = Err ValueError.
Proof. exists [{| iid := 7; feats := []; target := [] |}]. reflexivity. Qed.
Example C112_example_copy : exists h1 c l, copy orders_h orders_d [1; 0] = Ok (h1, c) /\ convert h1 (insts c) = Ok l /\ map made_id l = [8; 7].
Proof. do 3 eexists. split; [vm_compute; reflexivity|]. split; vm_compute; reflexivity. Qed.
