(** Which colors the activities of a directly-follows graph should have *)
From Coq Require Import String.
From Verif.Model Require Import Base Dot EventLog Dfg Colors.
From Verif.Spec Require Import DfgSpec DfgBuilt.
Open Scope string_scope.
Open Scope list_scope.

(** [changes g g']: a method call other than a renaming changes the graph [g] itself to [g'] *)
Inductive changes : graph -> graph -> Prop :=
| ch_add_node a g : changes g (add_node a g)
| ch_add_count a b c g g' : add_count a b c g = Ok g' -> changes g g'
| ch_remove_edge k g g' r : remove_edge k g = Ok (g', r) -> changes g g'
| ch_remove_node ord a conn g g' : any_order ord -> remove_node ord a conn g = Ok g' -> changes g g'
| ch_join g other g' : built other ->
    (forall a b c d, In (a, b, c) (edge_list g) -> ~ In (a, b, d) (edge_list other)) ->
    join g other = Ok g' -> changes g g'
| ch_start ord allowed g g' : any_order ord -> remove_not_allowed_start_activities ord allowed g = Ok g' -> changes g g'
| ch_end ord allowed g g' : any_order ord -> remove_not_allowed_end_activities ord allowed g = Ok g' -> changes g g'
| ch_shortest a b forbidden g g' p : NoDup forbidden ->
    (forall x y, In (x, y) forbidden -> exists c, In (x, y, c) (edge_list g)) ->
    shortest_path a b forbidden g = Ok (p, g') -> changes g g'
| ch_read {V I} (l : log string V I) g g' : read_counts_from_log l g = Ok g' -> changes g g'.

(** [painted g c F]: a program has made the graph [g] with the colors [c], and
    its activities should have the colors that [F] gives.
    A graph whose nodes nobody has painted is white with black letters, also
    if it was made from a painted graph (by copying, filtering, selecting).
    Later on, an activity keeps its colors as long as it is in the graph, also
    when it is renamed; one that is new is white with black letters, also if it
    was there before and had been removed. *)
Inductive painted : graph -> colors -> (string -> option (string * string)) -> Prop :=
| p_new g : built g -> painted g new_colors (fun a => if mem a (activities g) then Some ("white", "black") else None)
| p_color a x g c F c' : painted g c F -> set_color a x g c = Ok c' ->
    painted g c' (fun b => if eqb b a then option_map (fun p => (x, snd p)) (F b) else F b)
| p_fontcolor a x g c F c' : painted g c F -> set_fontcolor a x g c = Ok c' ->
    painted g c' (fun b => if eqb b a then option_map (fun p => (fst p, x)) (F b) else F b)
| p_rename old new g c F g' : painted g c F -> ~ In new (activities g) -> rename_activity old new g = Ok g' ->
    painted g' c (fun b => if eqb b new then F old else if eqb b old then None else F b)
| p_change g c F g' : painted g c F -> changes g g' ->
    painted g' c (fun b => if mem b (activities g') then match F b with Some p => Some p | None => Some ("white", "black") end else None).

(** a node statement of a drawing with the colors that [F] gives *)
Definition paint (F : string -> option (string * string)) (s : statement) : statement :=
  match s with
  | NodeStatement a label attrs =>
      match F a with
      | Some (fill, font) => NodeStatement a label (map (fun '(k, v) => (k, if eqb k "fillcolor" then fill else if eqb k "fontcolor" then font else v)) attrs)
      | None => s
      end
  | EdgeStatement _ _ _ _ => s
  end.
