(** The text of drawings *)
From Coq Require Import String Ascii DecimalString DecimalZ QArith.
From Verif.Model Require Import Base Sort Dot Drawings EventLog Dfg.
From Verif.Spec Require Import DotSpec Graphs EventLogSpec DfgSpec DfgBuilt.
From Verif.Lib Require Import ListLib.
From Verif.Proofs Require Import DfgA DfgJ.
Open Scope string_scope.
Open Scope list_scope.
Open Scope nat_scope.

Definition chars (s : string) : list ascii := list_ascii_of_string s.
Lemma chars_app a b : chars (a ++ b)%string = chars a ++ chars b.
Proof. unfold chars. induction a as [|c a IH]; cbn; [auto|]. rewrite IH. auto. Qed.
Lemma chars_inj a b : chars a = chars b -> a = b.
Proof. intros E. rewrite <- (string_of_list_ascii_of_string a), <- (string_of_list_ascii_of_string b). unfold chars in E. rewrite E. auto. Qed.
Lemma drop_incl p l : incl (drop p l) l.
Proof. induction l as [|c l IH]; cbn; [apply incl_refl|]. destruct (p c); [apply incl_tl; auto|apply incl_refl]. Qed.
Lemma not_html s : ~ (In "<"%char (chars s) /\ In ">"%char (chars s)) -> is_html_string s = false.
Proof.
  intros N. unfold is_html_string. fold (chars s). destruct (drop is_blank (chars s)) as [|c r] eqn:E; [auto|]. destruct (Ascii.eqb_spec c "<"); [|auto]. subst c.
  cbn [andb]. pose proof (drop_incl is_blank (chars s)) as I. rewrite E in I. destruct (drop is_blank (rev r)) as [|d q] eqn:F; [auto|]. destruct (Ascii.eqb_spec d ">"); [|auto]. subst d. exfalso. apply N.
  split; [apply I; left; auto|]. pose proof (drop_incl is_blank (rev r)) as J. rewrite F in J. apply I. right. apply in_rev. apply J. left. auto.
Qed.
Lemma chop_id l : ~ In linebreak l -> chop l = l.
Proof.
  intros N. unfold chop. destruct (rev l) as [|c r] eqn:E.
  - rewrite <- (rev_involutive l), E. auto.
  - destruct (Ascii.eqb_spec c linebreak); [|auto]. subst c. exfalso. apply N. apply in_rev. rewrite E. left. auto.
Qed.
(** the characters of names that are not quoted *)
Definition wordchar (c : ascii) : bool := is_alpha c || is_digit c || (c =? "-")%char || (c =? ".")%char.
Lemma drop_digits l : forallb wordchar (drop is_digit l) = true -> forallb wordchar l = true.
Proof.
  induction l as [|c l IH]; cbn; [auto|]. destruct (is_digit c) eqn:E; [|auto]. intros Q. rewrite IH by auto. unfold wordchar. rewrite E, orb_true_r. auto.
Qed.
Lemma digits_word l : forallb is_digit l = true -> forallb wordchar l = true.
Proof. rewrite !forallb_forall. intros Q c Hc. unfold wordchar. rewrite (Q c Hc), orb_true_r. auto. Qed.
Lemma number_word l : is_number l = true -> forallb wordchar l = true.
Proof.
  unfold is_number. destruct l as [|c r]; [auto|]. destruct (Ascii.eqb_spec c ".").
  - subst c. intros Q. apply andb_true_iff in Q. cbn [forallb]. rewrite (digits_word r) by tauto. auto.
  - intros Q. apply andb_true_iff in Q. destruct Q as [D Q]. cbn [forallb]. rewrite andb_true_iff. split; [unfold wordchar; rewrite D, orb_true_r; auto|].
    apply drop_digits. destruct (drop is_digit r) as [|d q]; [auto|]. apply andb_true_iff in Q. destruct Q as [Q1 Q2]. cbn [forallb]. rewrite (digits_word q) by auto. apply Ascii.eqb_eq in Q1. subst d. auto.
Qed.
Lemma id_word s : ~ In linebreak (chars s) -> is_valid_id s = true -> s <> "" /\ forallb wordchar (chars s) = true.
Proof.
  intros N. unfold is_valid_id. fold (chars s). rewrite chop_id by auto. destruct (chars s) as [|c r] eqn:E; [discriminate|]. intros Q.
  split; [intros ->; discriminate|]. apply orb_true_iff in Q. destruct Q as [Q|Q].
  - apply andb_true_iff in Q. destruct Q as [Q1 Q2]. cbn [forallb]. rewrite andb_true_iff. split; [unfold wordchar; rewrite Q1; auto|]. rewrite forallb_forall in *. intros d Hd. unfold wordchar. rewrite (Q2 d Hd). auto.
  - destruct (Ascii.eqb_spec c "-"); [|apply number_word; auto]. subst c. cbn [forallb]. rewrite (number_word r) by auto. auto.
Qed.
Lemma escape_id s : forall b, ~ In quotation (chars s) -> ~ In backslash (chars s) -> escape b s = s.
Proof.
  induction s as [|c s IH]; intros b A B; [auto|]. cbn [escape]. cbn in A, B. destruct (Ascii.eqb_spec c backslash); [exfalso; auto|]. destruct (Ascii.eqb_spec c quotation); [exfalso; auto|]. rewrite IH by auto. auto.
Qed.
(** the name as it is, or in quotation marks *)
Lemma quote_cases s : ordinary s -> (quote s = s /\ s <> "" /\ forallb wordchar (chars s) = true) \/
  chars (quote s) = quotation :: chars s ++ [quotation].
Proof.
  intros (A & B & C & D & H). unfold quote. rewrite not_html by auto. destruct (is_valid_id s) eqn:V; cbn [negb orb].
  - destruct (is_keyword s); [right|left; split; [auto|apply id_word; auto]]. rewrite escape_id by auto. change (chars (String quotation s ++ String quotation "")) with (quotation :: chars (s ++ String quotation "")). rewrite chars_app. auto.
  - right. rewrite escape_id by auto. change (chars (String quotation s ++ String quotation "")) with (quotation :: chars (s ++ String quotation "")). rewrite chars_app. auto.
Qed.
Lemma partition_id s : ~ In ":"%char (chars s) -> partition s = (s, "").
Proof. induction s as [|c s IH]; intros N; [auto|]. cbn [partition]. cbn in N. destruct (Ascii.eqb_spec c ":"); [exfalso; auto|]. rewrite IH by auto. auto. Qed.
Lemma quote_edge_id s : ordinary s -> quote_edge s = quote s.
Proof. intros (A & B & C & D & H). unfold quote_edge. rewrite partition_id by auto. auto. Qed.
(** a part up to a character that is not in it *)
Lemma until (p : ascii -> bool) x : p x = false -> forall l l' r r', forallb p l = true -> forallb p l' = true -> l ++ x :: r = l' ++ x :: r' -> l = l' /\ r = r'.
Proof.
  intros X. induction l as [|c l IH]; intros [|c' l'] r r' F F' E; cbn in *.
  - injection E as E. auto.
  - injection E as -> E. rewrite X in F'. discriminate.
  - injection E as -> E. rewrite X in F. discriminate.
  - injection E as -> E. apply andb_true_iff in F, F'. destruct (IH l' r r') as [-> ->]; tauto.
Qed.
Lemma quote_decode a b r s : ordinary a -> ordinary b -> chars (quote a) ++ " "%char :: r = chars (quote b) ++ " "%char :: s -> a = b /\ r = s.
Proof.
  intros A B E. destruct (quote_cases a A) as [(Qa & Na & Wa)|Qa]; destruct (quote_cases b B) as [(Qb & Nb & Wb)|Qb].
  - rewrite Qa, Qb in E. destruct (until wordchar " "%char eq_refl _ _ _ _ Wa Wb E) as [E1 E2]. split; [apply chars_inj; auto|auto].
  - rewrite Qa, Qb in E. destruct a as [|c a]; [congruence|]. cbn in E. injection E as -> _. discriminate Wa.
  - rewrite Qa, Qb in E. destruct b as [|c b]; [congruence|]. cbn in E. injection E as <- _. discriminate Wb.
  - rewrite Qa, Qb in E. cbn [app] in E. assert (E0 : (chars a ++ [quotation]) ++ " "%char :: r = (chars b ++ [quotation]) ++ " "%char :: s) by congruence. rewrite <- !app_assoc in E0. cbn [app] in E0.
    assert (P : forall x, ~ In quotation (chars x) -> forallb (fun c => negb (c =? quotation)%char) (chars x) = true).
    { intros x N. apply forallb_forall. intros c Hc. apply negb_true_iff, Ascii.eqb_neq. intros ->. auto. }
    destruct (until (fun c => negb (c =? quotation)%char) quotation eq_refl _ _ _ _ (P a (proj1 A)) (P b (proj1 B)) E0) as [E1 E2].
    split; [apply chars_inj; auto|congruence].
Qed.
Lemma str_inj a b : str a = str b -> a = b.
Proof.
  unfold str. intros E. assert (Q : NilEmpty.int_of_string (NilEmpty.string_of_int (Z.to_int a)) = NilEmpty.int_of_string (NilEmpty.string_of_int (Z.to_int b))) by (rewrite E; auto).
  rewrite !NilEmpty.isi in Q. assert (Q2 : Z.to_int a = Z.to_int b) by congruence. rewrite <- (of_to a), <- (of_to b), Q2. auto.
Qed.
Lemma str_ordinary a : ordinary (str a).
Proof.
  assert (U : forall u, Forall (fun c => In c (chars "0123456789-")) (chars (NilEmpty.string_of_uint u))) by (induction u; cbn; constructor; auto; cbn; tauto).
  assert (W : Forall (fun c => In c (chars "0123456789-")) (chars (str a))).
  { unfold str. destruct (Z.to_int a) as [u|u]; cbn [NilEmpty.string_of_int]; [apply U|]. constructor; [cbn; tauto|apply U]. }
  rewrite Forall_forall in W. assert (Q : forall c, ~ In c (chars "0123456789-") -> ~ In c (chars (str a))) by (intros c N H; apply N, W; auto).
  unfold ordinary. fold (chars (str a)). repeat split; try (apply Q; cbn; intuition discriminate). intros [H _]. revert H. apply Q. cbn. intuition discriminate.
Qed.

Section T.
  Variable show : Q -> string.
  Definition eline '((a, b, c) : string * string * Z) : statement := EdgeStatement a b (Some (str c)) [("penwidth", "1.0")].
  Lemma plot_lines g : dfg_plot show true false 1 10 g = map dfg_node (fst (plot g)) ++ map eline (snd (plot g)).
  Proof. unfold dfg_plot, plot. cbn [fst snd]. f_equal. Qed.
  Definition cat (l : list string) : list ascii := concat (map chars l).
  Lemma chars_concat l : chars (String.concat "" l) = cat l.
  Proof.
    unfold cat. induction l as [|s l IH]; [auto|]. cbn [map concat]. rewrite <- IH. destruct l as [|t l]; [cbn; rewrite app_nil_r; auto|].
    change (String.concat "" (s :: t :: l)) with (s ++ "" ++ String.concat "" (t :: l))%string. rewrite chars_app. auto.
  Qed.
  Definition node_rest : list ascii := chars ("[fillcolor=white fontcolor=black shape=rectangle style=filled]" ++ newline)%string.
  Lemma node_line a : chars (line (dfg_node a)) = tabulator :: chars (quote a) ++ " "%char :: node_rest.
  Proof.
    unfold line, dfg_node. change (String tabulator (quote a) ++ ?x)%string with (String tabulator (quote a ++ x)). change (chars (String tabulator ?x)) with (tabulator :: chars x). rewrite chars_app. reflexivity.
  Qed.
  Definition edge_rest : list ascii := chars ("penwidth=1.0]" ++ newline)%string.
  Lemma edge_attrs c : chars (attr_list (Some (str c)) [("penwidth", "1.0")]) = " "%char :: chars "[label=" ++ chars (quote (str c)) ++ " "%char :: chars "penwidth=1.0]".
  Proof.
    unfold attr_list. cbn [map app]. assert (P : (quote "penwidth" ++ "=" ++ quote "1.0")%string = "penwidth=1.0") by reflexivity. rewrite P. cbn [String.concat].
    rewrite !chars_app. rewrite <- !app_assoc. reflexivity.
  Qed.
  Lemma edge_line a b c : ordinary a -> ordinary b -> chars (line (eline (a, b, c))) =
    tabulator :: chars (quote a) ++ " "%char :: chars "-> " ++ chars (quote b) ++ " "%char :: chars "[label=" ++ chars (quote (str c)) ++ " "%char :: edge_rest.
  Proof.
    intros A B. unfold line, eline. rewrite !quote_edge_id by auto. rewrite !chars_app, edge_attrs. change (chars (String tabulator ?x)) with (tabulator :: chars x). cbn [app].
    change (chars " -> ") with (" "%char :: chars "-> "). cbn [app]. unfold edge_rest. rewrite chars_app. repeat (rewrite <- ?app_assoc; cbn [app]). reflexivity.
  Qed.
  Definition closing : list ascii := chars ("}" ++ newline)%string.
  Lemma edges_decode : forall es es', (forall a b c, In (a, b, c) es \/ In (a, b, c) es' -> ordinary a /\ ordinary b) ->
    cat (map line (map eline es)) ++ closing = cat (map line (map eline es')) ++ closing -> es = es'.
  Proof.
    induction es as [|[[a b] c] es IH]; intros [|[[a' b'] c'] es'] O E; [auto| | |].
    - exfalso. cbn [map] in E. unfold cat in E. cbn [map concat] in E. destruct (O a' b' c') as [A B]; [right; left; auto|]. rewrite edge_line in E by auto. discriminate E.
    - exfalso. cbn [map] in E. unfold cat in E. cbn [map concat] in E. destruct (O a b c) as [A B]; [left; left; auto|]. rewrite edge_line in E by auto. discriminate E.
    - cbn [map] in E. unfold cat in E. cbn [map concat] in E. destruct (O a b c) as [A B]; [left; left; auto|]. destruct (O a' b' c') as [A' B']; [right; left; auto|]. rewrite !edge_line in E by auto.
      fold (cat (map line (map eline es))) (cat (map line (map eline es'))) in E. rewrite <- ?app_assoc in E. cbn [app] in E. assert (E1 := f_equal (@tl _) E). cbn [tl] in E1. rewrite <- ?app_assoc in E1. cbn [app] in E1.
      apply quote_decode in E1; [|auto|auto]. destruct E1 as [-> E1]. rewrite <- ?app_assoc in E1. apply app_inv_head in E1. rewrite <- ?app_assoc in E1. cbn [app] in E1. apply quote_decode in E1; [|auto|auto]. destruct E1 as [-> E1].
      rewrite <- ?app_assoc in E1. apply app_inv_head in E1. rewrite <- ?app_assoc in E1. cbn [app] in E1. apply quote_decode in E1; [|apply str_ordinary|apply str_ordinary]. destruct E1 as [S E1]. apply str_inj in S. subst c'.
      apply app_inv_head in E1. f_equal. apply IH; [|auto]. intros x y z [H|H]; eapply O; [left|right]; right; exact H.
  Qed.
  Lemma all_decode : forall ns ns' es es', (forall a, In a ns \/ In a ns' -> ordinary a) -> (forall a b c, In (a, b, c) es \/ In (a, b, c) es' -> ordinary a /\ ordinary b) ->
    cat (map line (map dfg_node ns)) ++ cat (map line (map eline es)) ++ closing = cat (map line (map dfg_node ns')) ++ cat (map line (map eline es')) ++ closing -> ns = ns' /\ es = es'.
  Proof.
    assert (M : forall n ns es es', ordinary n -> (forall a b c, In (a, b, c) es -> ordinary a /\ ordinary b) -> cat (map line (map dfg_node (n :: ns))) ++ es' = cat (map line (map eline es)) ++ closing -> False).
    { intros n ns es es' N O E. cbn [map] in E. unfold cat in E. cbn [map concat] in E. rewrite node_line in E. destruct es as [|[[a b] c] es]; [discriminate E|]. cbn [map concat] in E. destruct (O a b c) as [A B]; [left; auto|]. rewrite edge_line in E by auto.
      rewrite <- ?app_assoc in E. cbn [app] in E. assert (E1 := f_equal (@tl _) E). cbn [tl] in E1. rewrite <- ?app_assoc in E1. cbn [app] in E1. apply quote_decode in E1; [|auto|auto]. destruct E1 as [-> E1]. discriminate E1. }
    induction ns as [|n ns IH]; intros [|n' ns'] es es' N O E.
    - split; [auto|]. apply edges_decode; auto.
    - exfalso. symmetry in E. apply (M _ _ _ _ (N n' (or_intror (or_introl eq_refl))) (fun a b c H => O a b c (or_introl H)) E).
    - exfalso. apply (M _ _ _ _ (N n (or_introl (or_introl eq_refl))) (fun a b c H => O a b c (or_intror H)) E).
    - cbn [map] in E. unfold cat in E. cbn [map concat] in E. rewrite !node_line in E. rewrite <- ?app_assoc in E. cbn [app] in E. assert (E1 := f_equal (@tl _) E). cbn [tl] in E1. rewrite <- ?app_assoc in E1. cbn [app] in E1.
      apply quote_decode in E1; [|apply N; left; left; auto|apply N; right; left; auto]. destruct E1 as [-> E1]. apply app_inv_head in E1. destruct (IH ns' es es') as [-> ->]; auto. intros a [H|H]; apply N; [left|right]; right; auto.
  Qed.
  Lemma repr_chars g : chars (dfg_repr show g) = chars ("digraph {" ++ newline)%string ++ cat (map line (map dfg_node (fst (plot g)))) ++ cat (map line (map eline (snd (plot g)))) ++ closing.
  Proof.
    unfold dfg_repr, source. rewrite plot_lines. rewrite !chars_app, chars_concat. rewrite <- !app_assoc. do 2 f_equal. rewrite map_app. unfold cat. rewrite map_app, concat_app, <- app_assoc. do 2 f_equal. 
  Qed.
End T.

(*P C122 Graphs are compared by their drawings *)
Lemma C122_equality : forall show g h N C M D, built g -> shows g N C -> built h -> shows h M D ->
  (forall a, N a \/ M a -> ordinary a) ->
  dfg_eq show g h = true <-> (forall a, N a <-> M a) /\ (forall a b, C a b = D a b).
Proof.
  intros show g h N C M D B S B2 S2 O. rewrite <- (C74_equality g h N C M D B S B2 S2). unfold graph_eqb.
  assert (E1 : forall a, In a (fst (plot g)) -> N a) by (intros a Ha; apply (proj2 (sh_nodes _ _ _ S)); apply (proj1 (SortLib.sort_In String.leb _ _)) in Ha; auto).
  assert (E2 : forall a, In a (fst (plot h)) -> M a) by (intros a Ha; apply (proj2 (sh_nodes _ _ _ S2)); apply (proj1 (SortLib.sort_In String.leb _ _)) in Ha; auto).
  assert (E3 : forall a b c, In (a, b, c) (snd (plot g)) -> N a /\ N b) by (intros a b c Ha; apply (sh_ends _ _ _ S); unfold edge_of; apply (proj1 (SortLib.sort_In edge_leb _ _)) in Ha; apply (proj2 (sh_edges _ _ _ S)) in Ha; congruence).
  assert (E4 : forall a b c, In (a, b, c) (snd (plot h)) -> M a /\ M b) by (intros a b c Ha; apply (sh_ends _ _ _ S2); unfold edge_of; apply (proj1 (SortLib.sort_In edge_leb _ _)) in Ha; apply (proj2 (sh_edges _ _ _ S2)) in Ha; congruence).
  split.
  - unfold dfg_eq. intros Q. apply String.eqb_eq in Q. apply (f_equal chars) in Q. rewrite !repr_chars in Q. apply app_inv_head in Q.
    destruct (all_decode (fst (plot g)) (fst (plot h)) (snd (plot g)) (snd (plot h))) as [P1 P2]; [| |exact Q|].
    + intros a [H|H]; apply O; auto.
    + intros a b c [H|H]; [apply E3 in H|apply E4 in H]; split; apply O; tauto.
    + destruct (eqb_ok (plot g) (plot h)) as [|X]; [auto|]. exfalso. apply X. destruct (plot g), (plot h). cbn [fst snd] in *. congruence.
  - intros Q. destruct (eqb_ok (plot g) (plot h)) as [E|]; [|discriminate]. unfold dfg_eq. apply String.eqb_eq. apply chars_inj. rewrite !repr_chars, E. auto.
Qed.
(** whatever the names are, the same graph has the same text *)
Lemma C122_same : forall show g h N C M D, built g -> shows g N C -> built h -> shows h M D ->
  (forall a, N a <-> M a) -> (forall a b, C a b = D a b) -> dfg_repr show g = dfg_repr show h /\ dfg_eq show g h = true.
Proof.
  intros show g h N C M D B S B2 S2 E F. assert (Q : graph_eqb g h = true) by (apply (C74_equality g h N C M D B S B2 S2); auto). unfold graph_eqb in Q.
  destruct (eqb_ok (plot g) (plot h)) as [P|]; [|discriminate]. assert (R : dfg_repr show g = dfg_repr show h) by (apply chars_inj; rewrite !repr_chars, P; auto). split; [auto|]. unfold dfg_eq. rewrite R. apply String.eqb_refl.
Qed.
(** the end of an edge is only named up to the first colon *)
Lemma C122_colon_witness : forall show g h, (do g1 <- add_count "a" "b" 1 empty ; Ok (add_node "a:" g1)) = Ok g -> (do h1 <- add_count "a:" "b" 1 empty ; Ok (add_node "a" h1)) = Ok h ->
  dfg_eq show g h = true /\ get_count "a" "b" g = 1%Z /\ get_count "a" "b" h = 0%Z.
Proof. intros show g h G H. injection G as <-. injection H as <-. vm_compute. auto. Qed.
(** a quotation mark with a backslash before it is the same as one without *)
Lemma C122_quote_witness : forall show, let a := String quotation "" in let b := String backslash (String quotation "") in
  dfg_eq show (add_node a empty) (add_node b empty) = true /\ activities (add_node a empty) <> activities (add_node b empty).
Proof. intros show. split; [reflexivity|]. vm_compute. discriminate. Qed.

(*P C123 Drawings of directly-follows graphs *)
Lemma C123_statements : forall show show_counts weighted lo hi g N C, built g -> shows g N C ->
  exists acts es, dfg_plot show show_counts weighted lo hi g = map dfg_node acts ++ es /\ NoDup acts /\ (forall a, In a acts <-> N a) /\ length es = get_nr_of_edges g /\
    (forall a b c, C a b = Some c -> exists w, In (EdgeStatement a b (Some (if show_counts then str c else "")) [("penwidth", w)]) es) /\
    (forall s, In s es -> exists a b c w, s = EdgeStatement a b (Some (if show_counts then str c else "")) [("penwidth", w)] /\ C a b = Some c /\
       w = edge_weight show weighted lo hi c (minimum_count (map snd (edge_list g))) (maximum_count (map snd (edge_list g)))) /\
    (forall a b l w l' w' i j, nth_error es i = Some (EdgeStatement a b l w) -> nth_error es j = Some (EdgeStatement a b l' w') -> i = j).
Proof.
  intros show sc wt lo hi g N C B S. unfold dfg_plot, dfg_edges. eexists _, _. split; [reflexivity|].
  assert (P1 := SortLib.sort_perm String.leb (activities g)). assert (P2 := SortLib.sort_perm edge_leb (edge_list g)).
  split; [eapply Permutation.Permutation_NoDup; [symmetry; exact P1|apply (sh_nodes _ _ _ S)]|]. split; [intros a; rewrite (SortLib.sort_In String.leb); apply (sh_nodes _ _ _ S)|].
  split; [rewrite map_length, (Permutation.Permutation_length P2); symmetry; apply (sh_nr _ _ _ S)|]. split; [|split].
  - intros a b c E. apply (proj2 (sh_edges _ _ _ S)) in E. eexists. apply in_map_iff. exists (a, b, c). split; [reflexivity|]. apply (proj2 (SortLib.sort_In edge_leb _ _)). auto.
  - intros s Hs. apply in_map_iff in Hs. destruct Hs as ([[a b] c] & <- & Hs). apply (proj1 (SortLib.sort_In edge_leb _ _)), (proj2 (sh_edges _ _ _ S)) in Hs. exists a, b, c. eexists. split; [reflexivity|]. auto.
  - intros a b l w l' w' i j Hi Hj. rewrite nth_error_map in Hi, Hj. destruct (nth_error (stable_sort edge_leb (edge_list g)) i) as [[[x y] z]|] eqn:Ei; [|discriminate]. destruct (nth_error (stable_sort edge_leb (edge_list g)) j) as [[[x' y'] z']|] eqn:Ej; [|discriminate].
    cbn in Hi, Hj. injection Hi as -> -> _ _. injection Hj as -> -> _ _.
    assert (ND : NoDup (map fst (stable_sort edge_leb (edge_list g)))) by (eapply Permutation.Permutation_NoDup; [apply Permutation.Permutation_map; symmetry; exact P2|apply (sh_edges _ _ _ S)]).
    rewrite NoDup_nth_error in ND. apply ND.
    + rewrite map_length. apply nth_error_Some. rewrite Ei. discriminate.
    + rewrite !nth_error_map, Ei, Ej. auto.
Qed.
Lemma fold_min l : forall c, let m := fold_left Z.min l c in In m (c :: l) /\ forall x, In x (c :: l) -> (m <= x)%Z.
Proof.
  induction l as [|d l IH]; intros c; cbn [fold_left]; [cbn; split; [auto|intros x [->|[]]; lia]|]. destruct (IH (Z.min c d)) as [I M]. set (m := fold_left Z.min l (Z.min c d)) in *. cbv zeta. split.
  - destruct I as [I|I]; [|right; right; auto]. rewrite <- I. destruct (Z.min_spec c d) as [[_ ->]|[_ ->]]; [left; auto|right; left; auto].
  - assert (A : (m <= Z.min c d)%Z) by (apply M; left; auto). intros x [->|[->|H]]; [lia|lia|apply M; right; auto].
Qed.
Lemma fold_max l : forall c, let m := fold_left Z.max l c in In m (c :: l) /\ forall x, In x (c :: l) -> (x <= m)%Z.
Proof.
  induction l as [|d l IH]; intros c; cbn [fold_left]; [cbn; split; [auto|intros x [->|[]]; lia]|]. destruct (IH (Z.max c d)) as [I M]. set (m := fold_left Z.max l (Z.max c d)) in *. cbv zeta. split.
  - destruct I as [I|I]; [|right; right; auto]. rewrite <- I. destruct (Z.max_spec c d) as [[_ ->]|[_ ->]]; [right; left; auto|left; auto].
  - assert (A : (Z.max c d <= m)%Z) by (apply M; left; auto). intros x [->|[->|H]]; [lia|lia|apply M; right; auto].
Qed.
(** the widths grow linearly with the counts from the least to the greatest *)
Lemma C123_weights : forall show lo hi counts c d, In c counts -> In d counts -> (lo <= hi)%Q ->
  let weight x := edge_weight show true lo hi x (minimum_count counts) (maximum_count counts) in
  (c <> d -> exists w, (forall x, In x counts -> weight x = show (w x)) /\
     (forall x, In x counts -> (lo <= w x <= hi)%Q) /\ (forall x y, In x counts -> In y counts -> (x <= y)%Z -> (w x <= w y)%Q) /\
     (forall x, (forall y, In y counts -> (x <= y)%Z) -> In x counts -> (w x == lo)%Q) /\ (forall x, (forall y, In y counts -> (y <= x)%Z) -> In x counts -> (w x == hi)%Q)) /\
  ((forall x, In x counts -> x = c) -> weight c = "1.0") /\
  (forall x, edge_weight show false lo hi x (minimum_count counts) (maximum_count counts) = "1.0").
Proof.
  intros show lo hi counts c d Hc Hd L weight.
  assert (MM : (In (minimum_count counts) counts /\ forall x, In x counts -> (minimum_count counts <= x)%Z) /\ (In (maximum_count counts) counts /\ forall x, In x counts -> (x <= maximum_count counts)%Z)).
  { destruct counts as [|e r]; [destruct Hc|]. split; [apply fold_min|apply fold_max]. }
  unfold weight, edge_weight. clear weight. destruct MM as [[I1 M1] [I2 M2]]. set (m := minimum_count counts) in *. set (M := maximum_count counts) in *. split; [|split; [|auto]].
  - intros N. assert (m < M)%Z by (pose proof (M1 c Hc); pose proof (M1 d Hd); pose proof (M2 c Hc); pose proof (M2 d Hd); lia).
    destruct (Z.eqb_spec M m); [lia|]. cbn [negb]. exists (fun x => (inject_Z (x - m) / inject_Z (M - m) * (hi - lo) + lo)%Q). split; [auto|].
    assert (P : (0 < inject_Z (M - m))%Q) by (change 0%Q with (inject_Z 0); rewrite <- Zlt_Qlt; lia). assert (P' : (0 < / inject_Z (M - m))%Q) by (apply Qinv_lt_0_compat; auto).
    assert (MO : forall x y, (x <= y)%Z -> (inject_Z (x - m) / inject_Z (M - m) * (hi - lo) + lo <= inject_Z (y - m) / inject_Z (M - m) * (hi - lo) + lo)%Q).
    { intros x y XY. apply Qplus_le_l. apply Qmult_le_compat_r; [|unfold Qminus; rewrite <- (Qplus_opp_r lo); apply Qplus_le_l; auto]. unfold Qdiv. apply Qmult_le_compat_r; [rewrite <- Zle_Qle; lia|apply Qlt_le_weak; auto]. }
    assert (LO : (inject_Z (m - m) / inject_Z (M - m) * (hi - lo) + lo == lo)%Q) by (rewrite Z.sub_diag; change (inject_Z 0) with 0%Q; unfold Qdiv; ring).
    assert (HI : (inject_Z (M - m) / inject_Z (M - m) * (hi - lo) + lo == hi)%Q) by (field; intros Q; rewrite Q in P; apply Qlt_irrefl in P; auto).
    split; [intros x Hx; split; [apply Qle_trans with (2 := MO m x (M1 x Hx)); rewrite LO; apply Qle_refl|apply Qle_trans with (1 := MO x M (M2 x Hx)); rewrite HI; apply Qle_refl]|]. split; [auto|]. split.
    + intros x A Hx. assert (x = m) by (pose proof (A m I1); pose proof (M1 x Hx); lia). subst x. auto.
    + intros x A Hx. assert (x = M) by (pose proof (A M I2); pose proof (M2 x Hx); lia). subst x. auto.
  - intros A. rewrite (A m I1), (A M I2), Z.eqb_refl. auto.
Qed.
(** an edge of an activity with a colon is drawn at another node *)
Lemma C123_colon_witness : forall show lo hi g, add_count "a:b" "c" 1 empty = Ok g ->
  map line (dfg_plot show true false lo hi g) = map (fun s => String tabulator s ++ newline)%string
    [String quotation ("a:b" ++ String quotation " [fillcolor=white fontcolor=black shape=rectangle style=filled]"); "c [fillcolor=white fontcolor=black shape=rectangle style=filled]";
     "a:b -> c [label=1 penwidth=1.0]"]%string.
Proof. intros show lo hi g G. injection G as <-. reflexivity. Qed.
