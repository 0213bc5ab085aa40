(** Text in base 64, stopwatches and variables: proofs *)
From Coq Require Import String Ascii ZArith QArith Lia List.
From Verif.Model Require Import Base Plots Base64 PetriNet Variables Stopwatch.
From Verif.Lib Require Import ListLib.
From Verif.Spec Require Import Base64Spec.
Open Scope string_scope.
Open Scope list_scope.
Open Scope nat_scope.

Definition all_bytes : list ascii := map ascii_of_nat (seq 0 256).
Lemma all_bytes_ok a : In a all_bytes.
Proof. apply in_map_iff. exists (nat_of_ascii a). split; [apply ascii_nat_embedding|]. apply in_seq. pose proof (nat_ascii_bounded a). lia. Qed.
Definition bools_eqb (l m : list bool) : bool := if list_eq_dec Bool.bool_dec l m then true else false.
Lemma bools_eqb_ok l m : bools_eqb l m = true -> l = m.
Proof. unfold bools_eqb. destruct (list_eq_dec Bool.bool_dec l m); auto; discriminate. Qed.
Lemma one_byte (P : ascii -> bool) : forallb P all_bytes = true -> forall a, P a = true.
Proof. intros H a. rewrite forallb_forall in H. apply H, all_bytes_ok. Qed.
Lemma two_bytes (P : ascii -> ascii -> bool) : forallb (fun a => forallb (P a) all_bytes) all_bytes = true -> forall a b, P a b = true.
Proof. intros H a b. apply (one_byte (fun b => P a b)). apply (one_byte (fun a => forallb (P a) all_bytes)); auto. Qed.

Definition byte (a : ascii) : list bool := bits 8 (nat_of_ascii a).
Definition sextet_is (c : ascii) (bs : list bool) : bool :=
  negb (Ascii.eqb c "=") && negb (nat_of_ascii c =? 10) && match sextet c with Some n => bools_eqb (bits 6 n) bs | None => false end.
Lemma sextet_is_ok c bs : sextet_is c bs = true -> Ascii.eqb c "=" = false /\ (nat_of_ascii c =? 10) = false /\ exists n, sextet c = Some n /\ bits 6 n = bs.
Proof.
  unfold sextet_is. rewrite !andb_true_iff, !negb_true_iff. intros [[H1 H2] H3]. split; [auto|]. split; [auto|].
  destruct (sextet c) as [n|]; [|discriminate]. exists n. split; [auto|]. apply bools_eqb_ok. auto.
Qed.
Lemma first_sextet a : sextet_is (symbol (nat_of_ascii a / 4)) (firstn 6 (byte a)) = true.
Proof. revert a. apply one_byte. vm_compute. reflexivity. Qed.
Lemma second_sextet a b : sextet_is (symbol (nat_of_ascii a mod 4 * 16 + nat_of_ascii b / 16)) (skipn 6 (byte a) ++ firstn 4 (byte b)) = true.
Proof. revert a b. apply two_bytes. vm_compute. reflexivity. Qed.
Lemma third_sextet a b : sextet_is (symbol (nat_of_ascii a mod 16 * 4 + nat_of_ascii b / 64)) (skipn 4 (byte a) ++ firstn 2 (byte b)) = true.
Proof. revert a b. apply two_bytes. vm_compute. reflexivity. Qed.
Lemma fourth_sextet a : sextet_is (symbol (nat_of_ascii a mod 64)) (skipn 2 (byte a)) = true.
Proof. revert a. apply one_byte. vm_compute. reflexivity. Qed.
Lemma second_end a : sextet_is (symbol (nat_of_ascii a mod 4 * 16)) (skipn 6 (byte a) ++ [false; false; false; false]) = true.
Proof. revert a. apply one_byte. vm_compute. reflexivity. Qed.
Lemma third_end a : sextet_is (symbol (nat_of_ascii a mod 16 * 4)) (skipn 4 (byte a) ++ [false; false]) = true.
Proof. revert a. apply one_byte. vm_compute. reflexivity. Qed.

Lemma byte_parts a : exists b7 b6 b5 b4 b3 b2 b1 b0, byte a = [b7; b6; b5; b4; b3; b2; b1; b0] /\ a = Ascii b0 b1 b2 b3 b4 b5 b6 b7.
Proof.
  destruct a as [b0 b1 b2 b3 b4 b5 b6 b7]. exists b7, b6, b5, b4, b3, b2, b1, b0. split; [|reflexivity].
  destruct b0, b1, b2, b3, b4, b5, b6, b7; vm_compute; reflexivity.
Qed.
Lemma bytes_of_byte a bs : bytes_of (byte a ++ bs) = a :: bytes_of bs.
Proof. destruct (byte_parts a) as (b7 & b6 & b5 & b4 & b3 & b2 & b1 & b0 & E & ->). rewrite E. reflexivity. Qed.
Lemma bits_step c bs cs r : sextet_is c bs = true -> bits_of_text cs = Some r -> bits_of_text (c :: cs) = Some (bs ++ r).
Proof. intros Hc Hr. apply sextet_is_ok in Hc as (H1 & _ & n & H2 & <-). cbn [bits_of_text]. rewrite H1, H2, Hr. reflexivity. Qed.

Lemma by_three (P : list ascii -> Prop) : P [] -> (forall a, P [a]) -> (forall a b, P [a; b]) -> (forall a b c l, P l -> P (a :: b :: c :: l)) -> forall l, P l.
Proof.
  intros H0 H1 H2 H3. assert (G : forall n l, length l <= n -> P l).
  { induction n as [|n IH]; intros l Hl; [destruct l; [auto|cbn in Hl; lia]|]. destruct l as [|a [|b [|c l]]]; auto. apply H3, IH. cbn in Hl. lia. }
  intros l. apply (G (length l)). auto.
Qed.
Lemma one_pad : bits_of_text ["="%char] = Some [].
Proof. reflexivity. Qed.
Lemma two_pads : bits_of_text ["="; "="]%char = Some [].
Proof. reflexivity. Qed.
Lemma encode_bits l : exists pad, bits_of_text (list_ascii_of_string (b64encode l)) = Some (concat (map byte l) ++ pad) /\ length pad < 8.
Proof.
  induction l as [|a|a b|a b c l (pad & IH & Hp)] using by_three.
  - exists []. split; [reflexivity|cbn; lia].
  - exists [false; false; false; false]. split; [|cbn; lia]. cbn [b64encode list_ascii_of_string map concat app].
    rewrite (bits_step _ _ _ _ (first_sextet a) (bits_step _ _ _ _ (second_end a) two_pads)).
    destruct (byte_parts a) as (? & ? & ? & ? & ? & ? & ? & ? & E & _). rewrite E. reflexivity.
  - exists [false; false]. split; [|cbn; lia]. cbn [b64encode list_ascii_of_string map concat app].
    rewrite (bits_step _ _ _ _ (first_sextet a) (bits_step _ _ _ _ (second_sextet a b) (bits_step _ _ _ _ (third_end b) one_pad))).
    destruct (byte_parts a) as (? & ? & ? & ? & ? & ? & ? & ? & E & _). destruct (byte_parts b) as (? & ? & ? & ? & ? & ? & ? & ? & E' & _). rewrite E, E'. reflexivity.
  - exists pad. split; [|exact Hp]. cbn [b64encode list_ascii_of_string map concat].
    rewrite (bits_step _ _ _ _ (first_sextet a) (bits_step _ _ _ _ (second_sextet a b) (bits_step _ _ _ _ (third_sextet b c) (bits_step _ _ _ _ (fourth_sextet c) IH)))).
    destruct (byte_parts a) as (? & ? & ? & ? & ? & ? & ? & ? & E & _). destruct (byte_parts b) as (? & ? & ? & ? & ? & ? & ? & ? & E' & _).
    destruct (byte_parts c) as (? & ? & ? & ? & ? & ? & ? & ? & E'' & _). rewrite E, E', E''. reflexivity.
Qed.
Lemma bytes_of_short pad : length pad < 8 -> bytes_of pad = [].
Proof. intros H. do 8 (destruct pad as [|? pad]; [reflexivity|]). cbn in H. lia. Qed.
Lemma encode_decoded l : decoded (b64encode l) = Some l.
Proof.
  unfold decoded. destruct (encode_bits l) as (pad & E & Hp). rewrite E. cbn [option_map]. f_equal. clear E.
  induction l as [|a l IH]; cbn [map concat app]; [apply bytes_of_short; auto|]. rewrite <- app_assoc, bytes_of_byte, IH. reflexivity.
Qed.
Definition good (c : ascii) : Prop := c = "="%char \/ sextet c <> None.
Lemma good_symbol c bs : sextet_is c bs = true -> good c /\ (nat_of_ascii c =? 10) = false.
Proof. intros H. apply sextet_is_ok in H as (_ & H & n & E & _). split; [right; congruence|auto]. Qed.
Lemma encode_chars l c : In c (list_ascii_of_string (b64encode l)) -> good c /\ (nat_of_ascii c =? 10) = false.
Proof.
  assert (Heq : good "=" /\ (nat_of_ascii "=" =? 10) = false) by (split; [left; reflexivity|reflexivity]).
  induction l as [|a|a b|a b d l IH] using by_three; cbn [b64encode list_ascii_of_string In]; intros H; decompose [or] H; subst; try contradiction; auto;
    eauto using good_symbol, first_sextet, second_sextet, third_sextet, fourth_sextet, second_end, third_end.
Qed.
Lemma without_newlines_id s : (forall c, In c (list_ascii_of_string s) -> (nat_of_ascii c =? 10) = false) -> without_newlines s = s.
Proof. induction s as [|c s IH]; intros H; [reflexivity|]. cbn [without_newlines]. rewrite (H c) by (left; auto). f_equal. apply IH. intros d Hd. apply H. right. auto. Qed.
Lemma encode_length l : String.length (b64encode l) = 4 * ((length l + 2) / 3).
Proof.
  induction l as [|a|a b|a b c l IH] using by_three; try reflexivity. cbn [b64encode String.length length]. rewrite IH.
  replace (S (S (S (length l))) + 2) with (length l + 2 + 1 * 3) by lia. rewrite Nat.div_add by lia. lia.
Qed.

(*P C140 Figures as text *)
(** What to_base_64 gives is the image of the figure of the context, whatever
    the current figure is: decoding the text gives the bytes of the image. It has
    no line breaks and is as long as RFC 4648 says. *)
Lemma C140_text : forall render w n f image_format bytes,
  nth_error (heap w) n = Some f -> render f image_format = Ok bytes ->
  exists text, to_base_64 render w (Some n) image_format = Ok text /\ decoded text = Some bytes /\
    String.length text = 4 * ((length bytes + 2) / 3) /\
    forall c, In c (list_ascii_of_string text) -> c = "="%char \/ sextet c <> None.
Proof.
  intros render w n f fmt bytes Hf Hr. exists (b64encode bytes). unfold to_base_64. cbn [of_option bind]. rewrite Hf. cbn [of_option bind]. rewrite Hr. cbn [bind].
  rewrite without_newlines_id by (intros c Hc; apply (encode_chars bytes c Hc)).
  split; [reflexivity|]. split; [apply encode_decoded|]. split; [apply encode_length|]. intros c Hc. apply (encode_chars bytes c Hc).
Qed.
(*P C140 Figures as text *)
(** Before the with block there is no figure; an exception of matplotlib is
    passed on. *)
Lemma C140_errors : forall render w n f image_format e,
  to_base_64 render w None image_format = Err AttributeError /\
  (nth_error (heap w) n = Some f -> render f image_format = Err e -> to_base_64 render w (Some n) image_format = Err e).
Proof. intros render w n f fmt e. split; [reflexivity|]. intros Hf Hr. unfold to_base_64. cbn [of_option bind]. rewrite Hf. cbn [of_option bind]. rewrite Hr. reflexivity. Qed.

Lemma last_start_app cs c k : k <= length cs -> last_start (cs ++ [c]) k = last_start cs k.
Proof. induction k as [|k IH]; intros Hk; [reflexivity|]. cbn [last_start]. rewrite nth_error_app1 by lia. rewrite IH by lia. reflexivity. Qed.
Lemma run_app clock cs ds : forall w, run clock w (cs ++ ds) = run clock w cs ++ run clock (fold_left (fun w c => fst (step clock w c)) cs w) ds.
Proof.
  induction cs as [|c cs IH]; intros w; [reflexivity|]. cbn [app run fold_left]. destruct (step clock w c) as [w' r] eqn:E. cbn [fst]. rewrite IH, app_assoc. reflexivity.
Qed.
Lemma state_ok clock k0 cs : fold_left (fun w c => fst (step clock w c)) cs (new_stopwatch k0) =
  Stopwatch (option_map (fun j => clock (k0 + j)) (last_start cs (length cs))) (k0 + length cs).
Proof.
  induction cs as [|c cs IH] using rev_ind; [cbn; rewrite Nat.add_0_r; reflexivity|]. rewrite fold_left_app, IH, app_length. cbn [fold_left length].
  rewrite Nat.add_1_r, Nat.add_succ_r. cbn [last_start]. rewrite nth_error_app2, Nat.sub_diag by lia. cbn [nth_error].
  rewrite last_start_app by lia. destruct c; reflexivity.
Qed.
(*P C141 The stopwatch *)
(** Whatever is called in whatever order and whatever the clock says: the
    elapsed time is the difference of the clock to the last start. *)
Lemma C141_elapsed : forall clock k0 cs, run clock (new_stopwatch k0) cs = expected clock k0 cs.
Proof.
  intros clock k0 cs. induction cs as [|c cs IH] using rev_ind; [reflexivity|]. rewrite run_app, IH, state_ok. unfold expected.
  rewrite app_length. cbn [length]. rewrite Nat.add_1_r, seq_S, map_app, concat_app. cbn [map concat]. rewrite nth_error_app2, Nat.sub_diag by lia. cbn [nth_error].
  rewrite last_start_app by lia. f_equal.
  - f_equal. apply map_ext_in. intros i Hi. apply in_seq in Hi. rewrite nth_error_app1 by lia. rewrite last_start_app by lia. reflexivity.
  - rewrite app_nil_r, Nat.add_0_l. destruct c; cbn [run step get_elapsed_time start_time readings]; rewrite ?app_nil_r; try reflexivity.
    destruct (last_start cs (length cs)); reflexivity.
Qed.
Lemma last_start_lt cs k j : last_start cs k = Some j -> j < k /\ nth_error cs j = Some Start.
Proof.
  induction k as [|k IH]; cbn [last_start]; [discriminate|]. destruct (nth_error cs k) as [[| |]|] eqn:E.
  - intros H. injection H as <-. auto.
  - intros H. apply IH in H. destruct H. split; [lia|auto].
  - intros H. apply IH in H. destruct H. split; [lia|auto].
  - intros H. apply IH in H. destruct H. split; [lia|auto].
Qed.
(*P C141 The stopwatch *)
(** With a clock that is never set back, no elapsed time is negative. *)
Lemma C141_not_negative : forall clock k0 cs z, (forall i j, i <= j -> (clock i <= clock j)%Z) -> In (Ok z) (run clock (new_stopwatch k0) cs) -> (0 <= z)%Z.
Proof.
  intros clock k0 cs z Hc. rewrite C141_elapsed. unfold expected. intros H. apply in_concat in H as (l & Hl & Hz). apply in_map_iff in Hl as (i & <- & _).
  destruct (nth_error cs i) as [[| |]|]; try contradiction. destruct Hz as [Hz|[]]. destruct (last_start cs i) as [j|] eqn:Ej; [|discriminate]. injection Hz as <-.
  apply last_start_lt in Ej as [Ej _]. specialize (Hc (k0 + j) (k0 + i)). lia.
Qed.
(*P C141 The stopwatch *)
(** datetime.now() can be set back. *)
Lemma C141_negative_witness : exists clock, run clock (new_stopwatch 0) [Start; Elapsed] = [Ok (-5)%Z].
Proof. exists (fun i => if i =? 0 then 5%Z else 0%Z). reflexivity. Qed.

Lemma assigned_app v xs x : assigned v (xs ++ [x]) = set_value x (assigned v xs).
Proof. unfold assigned. rewrite fold_left_app. reflexivity. Qed.
(*P C142 Variables of data petri nets *)
(** After any assignments a variable has the value assigned last and its old
    name and bounds; nothing is checked against the bounds. *)
Lemma C142_values : forall v xs,
  get_value (assigned v xs) = last xs (get_value v) /\ v_name (assigned v xs) = v_name v /\
  get_lower_bound_as_number (assigned v xs) = get_lower_bound_as_number v /\ get_upper_bound_as_number (assigned v xs) = get_upper_bound_as_number v.
Proof.
  intros v xs. induction xs as [|x xs (H1 & H2 & H3 & H4)] using rev_ind; [auto|]. rewrite assigned_app, last_last.
  split; [reflexivity|]. split; [exact H2|]. split; [exact H3|exact H4].
Qed.
(*P C142 Variables of data petri nets *)
(** The number of a variable with a number is the value itself and its bounds
    are those given to it; the number of a bool variable is 1 or 0 and always
    between its bounds. *)
Lemma C142_numbers : forall name value lower upper xs,
  (let i := assigned (int_variable name value lower upper) xs in
   get_value_as_number i = last xs value /\ get_lower_bound_as_number i = lower /\ get_upper_bound_as_number i = upper) /\
  (let f := assigned (float_variable name value lower upper) xs in
   get_value_as_number f = last xs value /\ get_lower_bound_as_number f = lower /\ get_upper_bound_as_number f = upper) /\
  (let b := assigned (bool_variable name value) xs in
   get_value_as_number b = VNum (if truthy (last xs value) then 1 else 0) /\
   val_le (get_lower_bound_as_number b) (get_value_as_number b) = Ok true /\ val_le (get_value_as_number b) (get_upper_bound_as_number b) = Ok true).
Proof.
  intros name value lower upper xs.
  assert (Hk : forall v, v_kind (assigned v xs) = v_kind v) by (intros v; induction xs as [|x xs IH] using rev_ind; [reflexivity|rewrite assigned_app; exact IH]).
  assert (Hv : forall v, v_value (assigned v xs) = last xs (v_value v)) by (intros v; apply (C142_values v xs)).
  assert (Hb : forall v, v_lower (assigned v xs) = v_lower v /\ v_upper (assigned v xs) = v_upper v) by (clear; intros v; induction xs as [|x xs IH] using rev_ind; [auto|rewrite assigned_app; exact IH]).
  unfold get_value_as_number, get_lower_bound_as_number, get_upper_bound_as_number, get_value. cbv zeta. rewrite !Hk, !Hv, !(proj1 (Hb _)), !(proj2 (Hb _)).
  cbn [v_kind v_value v_lower v_upper int_variable float_variable bool_variable].
  split; [auto|]. split; [auto|]. split; [reflexivity|]. destruct (truthy (last xs value)); split; reflexivity.
Qed.
(*P C142 Variables of data petri nets *)
Lemma C142_bounds_witness : exists name lower upper x,
  let v := assigned (int_variable name (VNum 1) (VNum lower) (VNum upper)) [x] in
  val_le (get_value_as_number v) (get_upper_bound_as_number v) = Ok false.
Proof. exists "x", 0%Q, 5%Q, (VNum 7). reflexivity. Qed.
