(** Printed nets and logs *)
From Coq Require Import String Ascii ZArith DecimalString DecimalZ.
From Verif.Model Require Import Base Dot EventLog PetriNet Printing.
From Verif.Proofs Require Import DotA.
Open Scope string_scope.
Open Scope list_scope.
Open Scope nat_scope.

(** reading one character of a quoted string back *)
Definition unhex (c : ascii) : nat := let n := nat_of_ascii c in if n <? 58 then n - 48 else n - 87.
Definition read_char (q : ascii) (l : list ascii) : option (ascii * list ascii) :=
  match l with
  | [] => None
  | c :: r =>
    if Ascii.eqb c q then None
    else if Ascii.eqb c backslash then
      match r with
      | [] => None
      | d :: r' =>
        if Ascii.eqb d "t" then Some (tabulator, r')
        else if Ascii.eqb d "n" then Some (linebreak, r')
        else if Ascii.eqb d "r" then Some ("013"%char, r')
        else if Ascii.eqb d "x" then match r' with a :: b :: r'' => Some (ascii_of_nat (16 * unhex a + unhex b), r'') | _ => None end
        else Some (d, r')
      end
    else Some (c, r)
  end.
Definition is_quote (q : ascii) : Prop := q = single_quote \/ q = quotation.
Lemma read_repr q c l : is_quote q -> read_char q (chars (repr_char q c) ++ l) = Some (c, l).
Proof. intros [->| ->]; destruct c as [[] [] [] [] [] [] [] []]; reflexivity. Qed.
Lemma repr_quote_ok s : is_quote (repr_quote s).
Proof. unfold repr_quote. destruct (_ && _); [right|left]; auto. Qed.
Lemma repr_body_decode q : is_quote q -> forall s t r u, chars (repr_body q s) ++ q :: r = chars (repr_body q t) ++ q :: u -> s = t /\ r = u.
Proof.
  intros Q. assert (N : forall l, read_char q (q :: l) = None) by (intros l; cbn; rewrite Ascii.eqb_refl; auto).
  induction s as [|c s IH]; intros [|d t] r u E; cbn [repr_body] in E; rewrite ?chars_app, <- ?app_assoc in E.
  - cbn in E. injection E as E. auto.
  - exfalso. apply (f_equal (read_char q)) in E. rewrite read_repr in E by auto. cbn [chars list_ascii_of_string app] in E. rewrite N in E. discriminate.
  - exfalso. apply (f_equal (read_char q)) in E. rewrite read_repr in E by auto. cbn [chars list_ascii_of_string app] in E. rewrite N in E. discriminate.
  - apply (f_equal (read_char q)) in E. rewrite !read_repr in E by auto. assert (Ec : c = d) by congruence. subst d. assert (E' : chars (repr_body q s) ++ q :: r = chars (repr_body q t) ++ q :: u) by congruence.
    destruct (IH t r u E') as [-> ->]. auto.
Qed.
Lemma chars_repr s : chars (repr s) = repr_quote s :: chars (repr_body (repr_quote s) s) ++ [repr_quote s].
Proof. unfold repr. change (chars (String ?c ?x)) with (c :: chars x). rewrite chars_app. auto. Qed.
Lemma repr_decode s t r u : chars (repr s) ++ r = chars (repr t) ++ u -> s = t /\ r = u.
Proof.
  rewrite !chars_repr. cbn [app]. intros E. assert (Eq : repr_quote s = repr_quote t) by congruence. assert (E' := f_equal (@tl _) E). cbn [tl] in E'. rewrite Eq in E'. rewrite <- !app_assoc in E'. cbn [app] in E'.
  eapply repr_body_decode; [apply repr_quote_ok|exact E'].
Qed.
Lemma repr_line s : ~ In linebreak (chars (repr s)).
Proof.
  rewrite chars_repr. pose proof (repr_quote_ok s) as Q. generalize dependent (repr_quote s). intros q Q.
  assert (A : q <> linebreak) by (destruct Q as [->| ->]; discriminate). assert (B : forall c, ~ In linebreak (chars (repr_char q c))) by (intros c; destruct Q as [->| ->]; destruct c as [[] [] [] [] [] [] [] []]; vm_compute; intuition discriminate).
  intros [H|H]; [auto|]. apply in_app_or in H. destruct H as [H|[H|[]]]; [|auto]. induction s as [|c s IH]; [destruct H|]. cbn [repr_body] in H. rewrite chars_app in H. apply in_app_or in H. destruct H as [H|H]; [eapply B; eauto|auto].
Qed.
(** numbers have no other characters than digits and the sign *)
Lemma str_digits a c : In c (chars (str a)) -> In c (chars "0123456789-").
Proof.
  assert (U : forall u, Forall (fun c => In c (chars "0123456789-")) (chars (NilEmpty.string_of_uint u))) by (induction u; cbn; constructor; auto; cbn; tauto).
  assert (W : Forall (fun c => In c (chars "0123456789-")) (chars (str a))).
  { unfold str. destruct (Z.to_int a) as [u|u]; cbn [NilEmpty.string_of_int]; [apply U|]. constructor; [cbn; tauto|apply U]. }
  rewrite Forall_forall in W. auto.
Qed.
Lemma str_not a c : ~ In c (chars "0123456789-") -> ~ In c (chars (str a)).
Proof. intros N H. apply N. eapply str_digits; eauto. Qed.
Lemma until_not (x : ascii) (l l' r r' : list ascii) : ~ In x l -> ~ In x l' -> l ++ x :: r = l' ++ x :: r' -> l = l' /\ r = r'.
Proof.
  intros A B. apply (until (fun c => negb (Ascii.eqb c x)) x).
  - rewrite Ascii.eqb_refl. auto.
  - apply forallb_forall. intros c Hc. apply negb_true_iff, Ascii.eqb_neq. intros ->. auto.
  - apply forallb_forall. intros c Hc. apply negb_true_iff, Ascii.eqb_neq. intros ->. auto.
Qed.
(** texts of lines *)
Lemma printed_cons l ls : chars (printed (l :: ls)) = chars l ++ linebreak :: chars (printed ls).
Proof. unfold printed. rewrite !chars_concat. unfold cat. cbn [map concat]. rewrite chars_app, <- app_assoc. auto. Qed.
Lemma printed_inj : forall l m, (forall x, In x l \/ In x m -> ~ In linebreak (chars x)) -> printed l = printed m -> l = m.
Proof.
  induction l as [|x l IH]; intros [|y m] N E; [auto| | |].
  - apply (f_equal chars) in E. rewrite printed_cons in E. destruct (chars y); discriminate E.
  - apply (f_equal chars) in E. rewrite printed_cons in E. destruct (chars x); discriminate E.
  - apply (f_equal chars) in E. rewrite !printed_cons in E. apply until_not in E; [|apply N; left; left; auto|apply N; right; left; auto]. destruct E as [E1 E2].
    apply chars_inj in E1, E2. subst y. f_equal. apply IH; auto. intros z [H|H]; apply N; [left|right]; right; auto.
Qed.
Ltac cs := rewrite ?chars_app; change (chars (String tabulator ?x)) with (tabulator :: chars x).
Lemma place_line_inj i p j q : place_line i p = place_line j q -> i = j /\ p_label p = p_label q /\ p_tokens p = p_tokens q.
Proof.
  unfold place_line. intros E. apply (f_equal chars) in E. revert E. cs. intros E. assert (E1 := f_equal (@tl _) E). cbn [tl] in E1. rewrite !chars_app in E1. apply app_inv_head in E1.
  apply repr_decode in E1. destruct E1 as [-> E1]. apply app_inv_head in E1. apply repr_decode in E1. destruct E1 as [-> E1]. apply app_inv_head, app_inv_tail, chars_inj, str_inj in E1. auto.
Qed.
Lemma variable_line_inj show i v j w : variable_line show i v = variable_line show j w -> i = j /\ show v = show w.
Proof.
  unfold variable_line. intros E. apply (f_equal chars) in E. revert E. cs. intros E. assert (E1 := f_equal (@tl _) E). cbn [tl] in E1. rewrite !chars_app in E1. apply app_inv_head in E1.
  apply repr_decode in E1. destruct E1 as [-> E1]. apply app_inv_head, app_inv_tail, chars_inj in E1. auto.
Qed.
Lemma not_in_app {X} (x : X) l m : ~ In x l -> ~ In x m -> ~ In x (l ++ m).
Proof. intros A B H. apply in_app_or in H. tauto. Qed.
Ltac no_break := repeat (rewrite chars_app; apply not_in_app); try apply repr_line; try (apply str_not; vm_compute; intuition discriminate); try (vm_compute; intuition discriminate).
Lemma place_line_break i p : ~ In linebreak (chars (place_line i p)).
Proof. unfold place_line. change (chars (String tabulator ?x)) with (tabulator :: chars x). intros [H|H]; [discriminate|]. revert H. no_break. Qed.
Lemma variable_line_break show i v : ~ In linebreak (chars (show v)) -> ~ In linebreak (chars (variable_line show i v)).
Proof. intros S. unfold variable_line. change (chars (String tabulator ?x)) with (tabulator :: chars x). intros [H|H]; [discriminate|]. revert H. no_break. Qed.

(*P C146 The printed state of a net *)
Lemma C146_state : forall show st n st' n', (forall v, ~ In linebreak (list_ascii_of_string (show v))) ->
  printed (print_state show st n) = printed (print_state show st' n') <->
  map (fun '(id, p) => (id, p_label p, p_tokens p)) (places n) = map (fun '(id, p) => (id, p_label p, p_tokens p)) (places n') /\
  map (fun '(name, r) => (name, show (value st r))) (variables n) = map (fun '(name, r) => (name, show (value st' r))) (variables n').
Proof.
  intros show st n st' n' S.
  assert (L : forall st n x, In x (print_state show st n) -> ~ In linebreak (chars x)).
  { clear - S. intros st n x [<-|H]; [vm_compute; intuition discriminate|]. apply in_app_or in H. destruct H as [H|[<-|H]].
    - apply in_map_iff in H. destruct H as ([i p] & <- & _). apply place_line_break.
    - vm_compute. intuition discriminate.
    - apply in_map_iff in H. destruct H as ([i p] & <- & _). apply variable_line_break, S. }
  split.
  - intros E. apply printed_inj in E; [|intros x [H|H]; eapply L; eauto]. unfold print_state in E. assert (E1 := f_equal (@tl _) E). cbn [tl] in E1. clear E L.
    generalize dependent (places n'). induction (places n) as [|[i p] l IH]; intros [|[j q] l'] E; cbn [map app] in E.
    + split; [auto|]. assert (E1 := f_equal (@tl _) E). cbn [tl] in E1. clear E. generalize dependent (variables n'). induction (variables n) as [|[i r] l IH]; intros [|[j q] l'] E; cbn [map] in E; [auto|discriminate|discriminate|].
      assert (E1 : variable_line show i (value st r) = variable_line show j (value st' q)) by congruence. apply variable_line_inj in E1. destruct E1 as [-> E1]. cbn [map]. rewrite E1. f_equal. apply IH. congruence.
    + discriminate E.
    + discriminate E.
    + assert (E1 : place_line i p = place_line j q) by congruence. apply place_line_inj in E1. destruct E1 as (-> & E1 & E2). destruct (IH l') as [I1 I2]; [congruence|]. split; [|auto]. cbn [map]. rewrite E1, E2. congruence.
  - intros [E1 E2]. f_equal. unfold print_state. do 2 f_equal; [|f_equal].
    + clear E2. generalize dependent (places n'). induction (places n) as [|[i p] l IH]; intros [|[j q] l'] E; cbn [map] in *; [auto|discriminate|discriminate|]. f_equal; [|apply IH; congruence]. unfold place_line. congruence.
    + clear E1. generalize dependent (variables n'). induction (variables n) as [|[i p] l IH]; intros [|[j q] l'] E; cbn [map] in *; [auto|discriminate|discriminate|]. f_equal; [|apply IH; congruence]. unfold variable_line. congruence.
Qed.

Section Logs.
  Context {V I : Type} (show_id : I -> string).
  Lemma list_repr_cons a l : chars (list_repr (a :: l)) = "["%char :: chars (repr a) ++ match l with [] => ["]"%char] | _ => ","%char :: " "%char :: tl (chars (list_repr l)) end.
  Proof.
    unfold list_repr. rewrite !chars_app. destruct l as [|b l]; [reflexivity|]. cbn [map]. change (String.concat ", " (repr a :: repr b :: map repr l)) with (repr a ++ ", " ++ String.concat ", " (repr b :: map repr l))%string.
    rewrite !chars_app. change (chars "[") with ["["%char]. cbn [app tl]. rewrite <- app_assoc. reflexivity.
  Qed.
  Lemma list_repr_head l : exists r, chars (list_repr l) = "["%char :: r.
  Proof. eexists. unfold list_repr. rewrite chars_app. reflexivity. Qed.
  Lemma items_not_end a l : exists q r, chars (list_repr (a :: l)) = "["%char :: q :: r /\ q <> "]"%char.
  Proof. rewrite list_repr_cons. rewrite chars_repr. do 2 eexists. split; [reflexivity|]. destruct (repr_quote_ok a) as [->| ->]; discriminate. Qed.
  Lemma list_decode : forall l m r u, chars (list_repr l) ++ r = chars (list_repr m) ++ u -> l = m /\ r = u.
  Proof.
    induction l as [|a l IH]; intros [|b m] r u E.
    - apply app_inv_head in E. auto.
    - exfalso. destruct (items_not_end b m) as (q & s & E1 & N). rewrite E1 in E. change (chars (list_repr [])) with ["["%char; "]"%char] in E. cbn [app] in E. congruence.
    - exfalso. destruct (items_not_end a l) as (q & s & E1 & N). rewrite E1 in E. change (chars (list_repr [])) with ["["%char; "]"%char] in E. cbn [app] in E. congruence.
    - rewrite !list_repr_cons in E. cbn [app] in E. assert (E1 := f_equal (@tl _) E). cbn [tl] in E1. rewrite <- !app_assoc in E1. apply repr_decode in E1. destruct E1 as [-> E1].
      destruct l as [|a' l], m as [|b' m]; cbn [app] in E1; try discriminate E1; [split; [auto|congruence]|].
      destruct (IH (b' :: m) r u) as [-> ->]; [|auto]. destruct (list_repr_head (a' :: l)) as [x X]. destruct (list_repr_head (b' :: m)) as [y Y]. rewrite X, Y in *. cbn [tl app] in *. congruence.
  Qed.
  Definition shown (t : trace string V I) : string * list string := (show_id (tid t), map activity (events t)).
  Lemma trace_decode t t' r u : ~ In ")"%char (chars (show_id (tid t))) -> ~ In ")"%char (chars (show_id (tid t'))) ->
    chars (trace_repr show_id t) ++ r = chars (trace_repr show_id t') ++ u -> shown t = shown t' /\ r = u.
  Proof.
    intros A B E. unfold trace_repr in E. rewrite !chars_app, <- !app_assoc in E. apply app_inv_head in E. change (chars ")") with [")"%char] in E. cbn [app] in E. apply until_not in E; [|auto|auto]. destruct E as [E1 E2].
    apply list_decode in E2. destruct E2 as [E2 ->]. split; [|auto]. apply chars_inj in E1. unfold shown. congruence.
  Qed.
End Logs.

(*P C147 The printed form of a log *)
Lemma C147_log : forall {V I} (show_id : I -> string) (l m : log string V I),
  (forall t, In t l \/ In t m -> ~ In ")"%char (list_ascii_of_string (show_id (tid t)))) ->
  log_repr show_id l = log_repr show_id m <->
  map (fun t => (show_id (tid t), map activity (events t))) l = map (fun t => (show_id (tid t), map activity (events t))) m.
Proof.
  intros V I show_id l m N. split.
  - intros E. apply (f_equal chars) in E. unfold log_repr in E. rewrite !chars_app in E. do 3 apply app_inv_head in E. change (chars " traces") with (" "%char :: chars "traces") in E. cbn [app] in E.
    apply until_not in E; [|apply str_not; vm_compute; intuition discriminate|apply str_not; vm_compute; intuition discriminate]. destruct E as [_ E]. do 4 apply app_inv_head in E. revert m N E.
    assert (H : forall t : trace string V I, exists r, chars (trace_repr show_id t) = "T"%char :: r) by (intros t; eexists; unfold trace_repr; rewrite chars_app; reflexivity).
    induction l as [|t l IH]; intros [|u m] N E; [auto| | |].
    + exfalso. cbn [map] in E. rewrite printed_cons in E. destruct (H u) as [r R]. rewrite R in E. discriminate E.
    + exfalso. cbn [map] in E. rewrite printed_cons in E. destruct (H t) as [r R]. rewrite R in E. discriminate E.
    + cbn [map] in E. rewrite !printed_cons, <- !app_assoc in E. apply trace_decode in E; [|apply N; left; left; auto|apply N; right; left; auto]. destruct E as [E1 E2]. cbn [map]. unfold shown in E1. rewrite E1. f_equal.
      apply IH; [intros v [W|W]; apply N; [left|right]; right; auto|]. cbn [app] in E2. congruence.
  - intros E. assert (L : length l = length m) by (apply (f_equal (@length _)) in E; rewrite !map_length in E; auto). unfold log_repr. rewrite L. do 8 f_equal.
    assert (T : map (trace_repr show_id) l = map (trace_repr show_id) m); [|rewrite T; auto]. clear L N. revert m E. induction l as [|t l IH]; intros [|u m] E; cbn [map] in *; [auto|discriminate|discriminate|]. f_equal; [|apply IH; congruence]. unfold trace_repr. congruence.
Qed.
(** ids with parentheses and line breaks can make different logs look the same *)
Lemma C147_id_witness : exists l m : log string unit string, log_repr (fun i => i) l = log_repr (fun i => i) m /\
  map (fun t => map activity (events t)) l = [["a"]; ["c"]] /\ map (fun t => map activity (events t)) m = [["b"]; ["c"]].
Proof.
  exists [Trace "p" [new_event "a"] []; Trace ("q)['b']" ++ newline ++ "Trace(id=r")%string [new_event "c"] []], [Trace ("p)['a']" ++ newline ++ "Trace(id=q")%string [new_event "b"] []; Trace "r" [new_event "c"] []].
  vm_compute. auto.
Qed.
(** the lines in detail *)
Lemma C146_lines : forall show st n, length (print_state show st n) = 2 + length (places n) + length (variables n) /\
  nth_error (print_state show st n) 0 = Some "Places:" /\
  (forall i id p, nth_error (places n) i = Some (id, p) -> nth_error (print_state show st n) (1 + i) =
     Some (String tabulator ("<id=" ++ repr id ++ ",label=" ++ repr (p_label p) ++ ",tokens=" ++ str (p_tokens p) ++ ">"))%string) /\
  nth_error (print_state show st n) (1 + length (places n)) = Some "Variables:" /\
  (forall i name r, nth_error (variables n) i = Some (name, r) -> nth_error (print_state show st n) (2 + length (places n) + i) =
     Some (String tabulator ("<name=" ++ repr name ++ ",value=" ++ show (value st r) ++ ">"))%string).
Proof.
  intros show st n. unfold print_state. split; [|split; [|split; [|split]]].
  - cbn [length]. rewrite app_length. cbn [length]. rewrite !map_length. lia.
  - reflexivity.
  - intros i id p E. cbn [nth_error Nat.add]. rewrite nth_error_app1 by (rewrite map_length; apply nth_error_Some; congruence).
    rewrite nth_error_map, E. reflexivity.
  - cbn [nth_error Nat.add]. rewrite nth_error_app2 by (rewrite map_length; lia). rewrite map_length, Nat.sub_diag. reflexivity.
  - intros i name r E. rewrite app_comm_cons, nth_error_app2 by (cbn [length]; rewrite map_length; lia). cbn [length]. rewrite map_length.
    replace (2 + length (places n) + i - S (length (places n))) with (S i) by lia. cbn [nth_error]. rewrite nth_error_map, E. reflexivity.
Qed.
Lemma C146_marking : forall show st n st' n', (forall v, ~ In linebreak (list_ascii_of_string (show v))) ->
  printed (print_state show st n) = printed (print_state show st' n') -> get_marking n = get_marking n'.
Proof.
  intros show st n st' n' S E. apply C146_state in E; [|auto]. destruct E as [E _]. apply (f_equal (map (fun '(i, _, k) => (i, k)))) in E. rewrite !map_map in E. unfold get_marking.
  rewrite (map_ext (fun '(id, p) => (id, p_tokens p)) (fun x => let '(i, _, k) := (let '(id, p) := x in (id, p_label p, p_tokens p)) in (i, k))) by (intros [i p]; auto). rewrite E. apply map_ext. intros [i p]. auto.
Qed.
