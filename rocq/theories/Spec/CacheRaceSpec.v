(** What processes that share a cache file see *)
From Verif.Model Require Import Base ResultCache CacheRace.
Section S.
  Context {R B : Type}.
  Definition busy (ph : phase R B) : Prop := match ph with Evaluating | Evaluated _ | Writing _ _ => True | _ => False end.
  Definition writes (ph : phase R B) : Prop := match ph with Writing _ _ => True | _ => False end.
  Definition has_ended (ph : phase R B) : Prop := match ph with Ended _ => True | _ => False end.
  (** not more bytes than there should be, and each is right or zero *)
  Definition patchy (zero : B) (bytes got : list B) : Prop :=
    length got <= length bytes /\ forall j b, nth_error got j = Some b -> nth_error bytes j = Some b \/ b = zero.
End S.
(** a pickle format for lists of numbers: their number, then the numbers *)
Definition counted_pickle : pickle (list nat) nat :=
  {| dump := fun r => (length r :: r, None);
     load := fun bytes => match bytes with [] => Err EOFError | n :: r => if length r <? n then Err EOFError else Ok (firstn n r) end |}.
