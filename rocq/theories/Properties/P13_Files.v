(** Properties C63 - C65: result cache, transaction databases, nested graphs *)
From Coq Require Import String ZArith Permutation Sorted.
From Verif.Model Require Import Base Sort ResultCache Transactions NestedGraph.
From Verif.Spec Require Import Logs CacheSpec TransactionSpec NestedSpec.
From Verif.Proofs Require ResultCache Transactions NestedGraphB.
Open Scope string_scope.
Open Scope list_scope.
Open Scope nat_scope.


(** C63: Result cache *)
(** Once a call has returned a result, every later call that uses the same
    file returns the same result without evaluating the function or changing
    anything, whatever calls were made and whichever were killed in between. *)
Theorem C63_cached : forall (A R B : Type) (p : pickle R B) (c c' : call A R) f w w1 r (later : list (call A R * kill)),
  faithful p -> cache_file c = Ok f -> cache_file c' = Ok f ->
  wrapper p c NotKilled w = (w1, Returned r) ->
  wrapper p c' NotKilled (run p later w1) = (run p later w1, Returned r).
Proof. exact @ResultCache.C63_cached. Qed.
Print Assumptions C63_cached.
(** A call whose file does not exist evaluates its function; if that raises,
    so does the call, and nothing is cached: the next call evaluates again. *)
Theorem C63_exception_not_cached : forall (A R B : Type) (p : pickle R B) (c : call A R) f (w : world B) e,
  cache_file c = Ok f -> dict_get f (files w) = None ->
  function c (evaluations w) (args c) = Err e ->
  wrapper p c NotKilled w = (World (files w) (S (evaluations w)), RaisedExc e) /\
  forall k, evaluates p c k (World (files w) (S (evaluations w))).
Proof. exact @ResultCache.C63_exception_not_cached. Qed.
Print Assumptions C63_exception_not_cached.
(** A call evaluates its function exactly when its file does not exist, and
    then returns what the function returns if that can be pickled. *)
Theorem C63_evaluates : forall (A R B : Type) (p : pickle R B) (c : call A R) f (w : world B) k,
  cache_file c = Ok f ->
  (evaluates p c k w <-> dict_get f (files w) = None) /\
  (forall r bytes, dict_get f (files w) = None -> function c (evaluations w) (args c) = Ok r -> dump p r = (bytes, None) ->
     snd (wrapper p c NotKilled w) = Returned r).
Proof. exact @ResultCache.C63_evaluates. Qed.
Print Assumptions C63_evaluates.
(** A call touches no file but its own. *)
Theorem C63_no_interference : forall (A R B : Type) (p : pickle R B) (c : call A R) f g (w : world B) k,
  cache_file c = Ok f -> g <> f ->
  dict_get g (files (fst (wrapper p c k w))) = dict_get g (files w).
Proof. exact @ResultCache.C63_no_interference. Qed.
Print Assumptions C63_no_interference.
(** But different functions or keys can share a file: it is enough that name
    and key give the same text, or that the decorator has no key function.
    Then the second call returns the result of the first. *)
Theorem C63_collision : forall (A R B : Type) (p : pickle R B) n1 n2 k1 k2 (f1 f2 : nat -> A -> result R) a1 a2 s1 s2 (w : world B) r bytes,
  faithful p -> k1 a1 = Ok s1 -> k2 a2 = Ok s2 -> (n1 ++ s1)%string = (n2 ++ s2)%string ->
  dict_get (n1 ++ s1)%string (files w) = None -> f1 (evaluations w) a1 = Ok r -> dump p r = (bytes, None) ->
  let w1 := fst (wrapper p (Call n1 (Some k1) f1 a1) NotKilled w) in
  wrapper p (Call n2 (Some k2) f2 a2) NotKilled w1 = (w1, Returned r).
Proof. exact @ResultCache.C63_collision. Qed.
Print Assumptions C63_collision.
Theorem C63_no_key : forall (A R B : Type) (p : pickle R B) n (f : nat -> A -> result R) a a' (w w1 : world B) r,
  faithful p -> wrapper p (Call n None f a) NotKilled w = (w1, Returned r) ->
  wrapper p (Call n None f a') NotKilled w1 = (w1, Returned r).
Proof. exact @ResultCache.C63_no_key. Qed.
Print Assumptions C63_no_key.
(** If the process is killed while the result is written, or the result cannot
    be pickled, an incomplete file stays: from then on every call that uses
    it raises an exception without evaluating the function. *)
Theorem C63_incomplete_file : forall (A R B : Type) (p : pickle R B) (c c' : call A R) f (w : world B) k r bytes e (later : list (call A R * kill)),
  faithful p -> cache_file c = Ok f -> cache_file c' = Ok f ->
  dict_get f (files w) = None -> function c (evaluations w) (args c) = Ok r -> dump p r = (bytes, e) ->
  (k = NotKilled /\ e <> None) \/ (exists n, k = KilledAfter n /\ n < length bytes) ->
  let w1 := run p later (fst (wrapper p c k w)) in
  exists e', wrapper p c' NotKilled w1 = (w1, RaisedExc e').
Proof. exact @ResultCache.C63_incomplete_file. Qed.
Print Assumptions C63_incomplete_file.
(** A call that is killed before its file is opened changes no file, and one
    that raises or is killed never touches a file that exists; so afterwards
    the function is evaluated again if there was no file. *)
Theorem C63_killed_before : forall (A R B : Type) (p : pickle R B) (c : call A R) f (w : world B) k,
  cache_file c = Ok f -> k = KilledBefore \/ dict_get f (files w) <> None ->
  files (fst (wrapper p c k w)) = files w /\
  (dict_get f (files w) = None -> forall k', evaluates p c k' (fst (wrapper p c k w))).
Proof. exact @ResultCache.C63_killed_before. Qed.
Print Assumptions C63_killed_before.
(** a toy pickle: a number as so many ones and a stop mark; 13 cannot be pickled *)
Fixpoint ex_load (l : list bool) : result nat :=
  match l with
  | [] => Err EOFError
  | [false] => Ok 0
  | false :: _ => Err ValueError
  | true :: l' => do n <- ex_load l' ; Ok (S n)
  end.
Definition ex_pickle : pickle nat bool :=
  {| dump := fun r => if r =? 13 then ([true], Some TypeError) else (repeat true r ++ [false], None); load := ex_load |}.
Example C63_pickle : faithful ex_pickle.
Proof.
  split.
  - intros r bytes. cbn [dump ex_pickle]. destruct (r =? 13); [discriminate|]. intros E. injection E as <-. cbn [load ex_pickle].
    induction r as [|r IH]; [reflexivity|]. cbn [repeat app ex_load]. rewrite IH. reflexivity.
  - intros r bytes e n. cbn [dump ex_pickle load]. destruct (r =? 13).
    + intros E _. injection E as <- <-. destruct n as [|[|n]]; cbn; eauto.
    + intros E [Hn|Hn]; injection E as <- <-; [congruence|]. rewrite app_length, repeat_length in Hn. cbn in Hn. revert r Hn.
      induction n as [|n IH]; intros r Hn; [cbn; eauto|]. destruct r as [|r]; [lia|]. cbn [repeat app firstn ex_load].
      destruct (IH r) as [e' E']; [lia|]. rewrite E'. cbn. eauto.
Qed.
(** f(x) = x + number of evaluations so far, fails for 99 *)
Definition ex_f (t x : nat) : result nat := if x =? 99 then Err ValueError else Ok (x + t).
Definition ex_key (x : nat) : result string := Ok (match x with 0 => "0" | 1 => "1" | _ => "2" end).
Definition ex_call x := Call "f" (Some ex_key) ex_f x.
Example C63_example :
  let w := World [] 0 in
  let w1 := fst (wrapper ex_pickle (ex_call 0) NotKilled w) in
  let w2 := fst (wrapper ex_pickle (ex_call 1) (KilledAfter 1) w1) in
  let w3 := fst (wrapper ex_pickle (ex_call 99) NotKilled w2) in
  (snd (wrapper ex_pickle (ex_call 0) NotKilled w), snd (wrapper ex_pickle (ex_call 0) NotKilled w3),
   snd (wrapper ex_pickle (ex_call 1) NotKilled w3), snd (wrapper ex_pickle (ex_call 99) NotKilled w3), evaluations w3,
   snd (wrapper ex_pickle (Call "" (Some (fun _ => Ok "f0")) ex_f 5) NotKilled w3)) =
  (Returned 0, Returned 0, RaisedExc EOFError, RaisedExc ValueError, 3, Returned 0).
Proof. reflexivity. Qed.

(** C64: Transaction database export *)
(** The statistics are what their names say. *)
Theorem C64_statistics : forall (I : Type) (HI : Eq I) (db : list (list I)),
  (forall i, In i (get_itemset db) <-> occurs db i) /\ NoDup (get_itemset db) /\
  has_size (occurs db) (get_nr_of_different_items db) /\
  get_nr_of_items_in_transactions db = length (concat db) /\
  distinct_transactions db (get_nr_of_unique_transactions db) /\
  (db = [] -> get_maximum_transaction_length db = Err ValueError) /\
  (db <> [] -> exists m, get_maximum_transaction_length db = Ok m /\ maximum (map (@length I) db) m).
Proof. exact @Transactions.C64_statistics. Qed.
Print Assumptions C64_statistics.
(** The count of an item is the number of transactions that contain it. *)
Theorem C64_counts : forall (I : Type) (HI : Eq I) (db : list (list I)) i n, Forall (@NoDup I) db ->
  dict_get i (count_item_occurence db) = Some n <->
    n <> 0 /\ has_size (fun k => exists t, nth_error db k = Some t /\ In i t) n.
Proof. exact @Transactions.C64_counts. Qed.
Print Assumptions C64_counts.
(** The fic file of a non-empty database: the header has the right numbers,
    items are numbered 0, 1, ..., the returned dictionary is a bijection
    between these numbers and the items of the database, and with it the
    lines of the file decode to the transactions. *)
Theorem C64_fic_file : forall (I : Type) (HI : Eq I) (db : list (list I)), db <> [] ->
  exists m n u mL ac rs,
    save_to_fic_file db =
      ([Version; Info (length db) u (length (concat db)) n mL; Ab (seq 0 n); Ac ac; It (seq 0 n)] ++ rs, Ok m) /\
    distinct_transactions db u /\ maximum (map (@length I) db) mL /\
    keys m = seq 0 n /\ NoDup (values m) /\ (forall i, In i (values m) <-> occurs db i) /\
    Forall2 (fun t row => exists ids, row = Row (length t) ids /\ Forall2 (fun i k => dict_get k m = Some i) t ids) db rs.
Proof. exact @Transactions.C64_fic_file. Qed.
Print Assumptions C64_fic_file.
(** But the counts in the "ac" line are in the reverse order of the item
    numbers in the "ab" line: the count of item [k] is the [k]-th from the end. *)
Theorem C64_fic_counts_reversed : forall (I : Type) (HI : Eq I) (db : list (list I)) lines m ac,
  Forall (@NoDup I) db -> save_to_fic_file db = (lines, Ok m) -> In (Ac ac) lines ->
  length ac = length m /\
  forall k i, dict_get k m = Some i ->
    exists c, nth_error (rev ac) k = Some c /\ has_size (fun j => exists t, nth_error db j = Some t /\ In i t) c.
Proof. exact @Transactions.C64_fic_counts_reversed. Qed.
Print Assumptions C64_fic_counts_reversed.
Theorem C64_fic_counts_witness : exists (db : list (list string)) ac m, Forall (@NoDup string) db /\
  In (Ab [0; 1]) (fst (save_to_fic_file db)) /\ In (Ac ac) (fst (save_to_fic_file db)) /\ snd (save_to_fic_file db) = Ok m /\
  exists i, dict_get 0 m = Some i /\ nth_error ac 0 = Some 1 /\ has_size (fun j => exists t, nth_error db j = Some t /\ In i t) 2.
Proof. exact @Transactions.C64_fic_counts_witness. Qed.
Print Assumptions C64_fic_counts_witness.
(** For an empty database the function raises ValueError, and leaves a file
    behind that ends after the first line. *)
Theorem C64_fic_empty : forall (I : Type) (HI : Eq I), save_to_fic_file (I:=I) [] = ([Version], Err ValueError).
Proof. exact @Transactions.C64_fic_empty. Qed.
Print Assumptions C64_fic_empty.
(** The dat file: items are numbered from the offset upwards in ascending
    order, the returned dictionary is a bijection between these numbers and the
    items, with it the lines decode to the transactions, and it depends only
    on which items occur. *)
Theorem C64_dat_file : forall (I : Type) (HI : Eq I) (leb : I -> I -> bool) (order : list I -> list I) (db : list (list I)) offset,
  total_order leb -> (forall l, Permutation (order l) l) ->
  exists lines m,
    save_to_dat_file leb order db offset = Ok (lines, m) /\
    (forall k, In k (keys m) <-> (offset <= k < offset + Z.of_nat (length m))%Z) /\
    StronglySorted Z.lt (keys m) /\ StronglySorted (fun a b => leb a b = true) (values m) /\ NoDup (values m) /\
    (forall i, In i (values m) <-> occurs db i) /\
    Forall2 (Forall2 (fun i k => dict_get k m = Some i)) db lines.
Proof. exact @Transactions.C64_dat_file. Qed.
Print Assumptions C64_dat_file.
Theorem C64_dat_same_code : forall (I : Type) (HI : Eq I) (leb : I -> I -> bool) (order order' : list I -> list I) (db db' : list (list I)) offset lines m lines' m',
  total_order leb -> (forall l, Permutation (order l) l) -> (forall l, Permutation (order' l) l) ->
  (forall i, occurs db i <-> occurs db' i) ->
  save_to_dat_file leb order db offset = Ok (lines, m) -> save_to_dat_file leb order' db' offset = Ok (lines', m') -> m = m'.
Proof. exact @Transactions.C64_dat_same_code. Qed.
Print Assumptions C64_dat_same_code.
Example C64_example :
  (save_to_fic_file [["milk"; "bread"]; ["milk"]; ["bread"; "milk"]],
   save_to_dat_file String.leb (fun l => rev l) [["milk"; "bread"]; ["milk"]; []] 5%Z) =
  (([Version; Info 3 2 5 2 2; Ab [0; 1]; Ac [2; 3]; It [0; 1]; Row 2 [0; 1]; Row 1 [0]; Row 2 [1; 0]],
    Ok [(0, "milk"); (1, "bread")]),
   Ok ([[6%Z; 5%Z]; [6%Z]; []], [(5%Z, "bread"); (6%Z, "milk")])).
Proof. reflexivity. Qed.
Example C64_order : total_order Nat.leb.
Proof. split; [|split]; intros *; rewrite ?Nat.leb_le; lia. Qed.

(** C65: Nested graph flattening *)
(** Graphs built with the API are proper, in the sense the other theorems use. *)
Theorem C65_proper : forall (V : Type) (HV : Eq V),
  proper (V:=V) empty /\
  (forall (g : graph V) n, proper g -> NoDup (keys (n_attributes n)) -> proper (add_node n g)) /\
  (forall (g : graph V) e, proper g -> NoDup (keys (e_attributes e)) -> proper (add_edge e g)) /\
  (forall (g g' : graph V) e, proper g -> remove_edge e g = Ok g' -> proper g').
Proof. exact @NestedGraphB.C65_proper. Qed.
Print Assumptions C65_proper.
(** The edges after flattening are exactly the edges between nodes without
    children, and for each other edge one edge from every exit of its
    source to every entry of its target. *)
Theorem C65_flatten : forall (V : Type) (HV : Eq V) (arrow : V -> V -> V) rank fuel (g : graph V),
  proper g -> closed g -> nested_by rank g -> (forall e, has_edge g e -> rank (source e) < fuel /\ rank (target e) < fuel) ->
  exists g', replace_high_level_edges arrow fuel g = Ok g' /\ nodes g' = nodes g /\
    forall e, has_edge g' e <->
      (has_edge g e /\ leaf g (source e) /\ leaf g (target e)) \/
      (exists e0 a b, has_edge g e0 /\ ~ (leaf g (source e0) /\ leaf g (target e0)) /\
         exit_of g (source e0) a /\ entry_of g (target e0) b /\ e = Edge (arrow a b) a b []).
Proof. exact @NestedGraphB.C65_flatten. Qed.
Print Assumptions C65_flatten.
(** So only edges between nodes without children are left. *)
Theorem C65_only_leaves : forall (V : Type) (HV : Eq V) (arrow : V -> V -> V) rank fuel (g g' : graph V) e,
  proper g -> closed g -> nested_by rank g -> (forall e, has_edge g e -> rank (source e) < fuel /\ rank (target e) < fuel) ->
  replace_high_level_edges arrow fuel g = Ok g' -> has_edge g' e -> leaf g' (source e) /\ leaf g' (target e).
Proof. exact @NestedGraphB.C65_only_leaves. Qed.
Print Assumptions C65_only_leaves.
(** An edge is lost without replacement if every child of its source has an
    outgoing edge, to wherever; and if every child of its target has an edge
    from one of its siblings. *)
Theorem C65_edges_lost : forall (V : Type) (HV : Eq V) (g : graph V) x,
  ~ leaf g x ->
  ((forall c, child g c x -> exists e, has_edge g e /\ source e = c) -> forall a, ~ exit_of g x a) /\
  ((forall c, child g c x -> exists e, has_edge g e /\ child g (source e) x /\ target e = c) -> forall b, ~ entry_of g x b).
Proof. exact @NestedGraphB.C65_edges_lost. Qed.
Print Assumptions C65_edges_lost.
(** A node that is nested in itself and has no outgoing edge: the search for
    the lowest level nodes never ends (RecursionError in Python). *)
Theorem C65_self_nested : forall (V : Type) (HV : Eq V) (g : graph V) n, proper g ->
  has_node g n -> parent n = Some (id n) -> (forall e, has_edge g e -> source e <> id n) ->
  forall fuel l, get_low_level_sink_nodes fuel (id n) g <> Ok l.
Proof. exact @NestedGraphB.C65_self_nested. Qed.
Print Assumptions C65_self_nested.
(** An edge with an unknown end: KeyError, before anything is changed. *)
Theorem C65_unknown_node : forall (V : Type) (HV : Eq V) (arrow : V -> V -> V) rank fuel (g : graph V),
  proper g -> nested_by rank g -> (forall e, has_edge g e -> rank (source e) < fuel /\ rank (target e) < fuel) ->
  ~ closed g -> replace_high_level_edges arrow fuel g = Err KeyError.
Proof. exact @NestedGraphB.C65_unknown_node. Qed.
Print Assumptions C65_unknown_node.
(** to_dict and from_dict: the same graph comes back, labels included, unless
    one of the names 'id', 'label', 'parent', 'source', 'target' is used for
    an attribute. *)
Theorem C65_dict_round_trip : forall (V : Type) (HV : Eq V) (g : graph V), proper g -> plain g -> from_dict (to_dict g) = Ok g.
Proof. exact @NestedGraphB.C65_dict_round_trip. Qed.
Print Assumptions C65_dict_round_trip.
Theorem C65_reserved_attribute_witness : exists (g g' : graph string), proper g /\ from_dict (to_dict g) = Ok g' /\
  dict_get "n" (nodes g) = Some (Node "n" "a" None [("label", "b")]) /\
  dict_get "n" (nodes g') = Some (Node "n" "b" None []).
Proof. exact @NestedGraphB.C65_reserved_attribute_witness. Qed.
Print Assumptions C65_reserved_attribute_witness.
(** Equality of graphs: the same nodes and edges, where neither the order nor
    the labels of nodes count. *)
Theorem C65_equality : forall (V : Type) (HV : Eq V) (g h : graph V), proper g -> proper h ->
  graph_eqb g h = true <->
    (forall n, has_node g n -> exists m, has_node h m /\ same_node n m) /\
    (forall m, has_node h m -> exists n, has_node g n /\ same_node n m) /\
    (forall e, has_edge g e -> exists f, has_edge h f /\ same_edge e f) /\
    (forall f, has_edge h f -> exists e, has_edge g e /\ same_edge e f).
Proof. exact @NestedGraphB.C65_equality. Qed.
Print Assumptions C65_equality.
(** group x with children b -> c, group y with children d, e; edges a -> x -> y *)
Definition ex_g : graph string :=
  fold_left (fun g e => add_edge e g)
    [Edge "1" "a" "x" [("w", "3")]; Edge "2" "b" "c" []; Edge "3" "x" "y" []]
    (fold_left (fun g n => add_node n g)
      [Node "a" "A" None []; Node "x" "X" None []; Node "b" "B" (Some "x") [("k", "v")]; Node "c" "C" (Some "x") [];
       Node "y" "Y" None []; Node "d" "D" (Some "y") []; Node "e" "E" (Some "y") []] empty).
Definition ex_rank (i : string) : nat := if mem i ["x"; "y"] then 1 else 0.
Example C65_hypotheses : proper ex_g /\ closed ex_g /\ nested_by ex_rank ex_g /\ plain ex_g /\
  forall e, has_edge ex_g e -> ex_rank (source e) < 2 /\ ex_rank (target e) < 2.
Proof.
  split; [|split; [|split; [|split]]].
  - unfold ex_g. cbn [fold_left]. repeat (apply NestedGraphB.C65_proper; [|repeat constructor; cbn; intuition discriminate]). apply NestedGraphB.C65_proper.
  - intros e He. cbn in He. destruct He as [<-|[<-|[<-|[]]]]; cbn [source target]; split;
      match goal with |- exists n, _ /\ id n = ?i => destruct (dict_get i (nodes ex_g)) as [n|] eqn:E; [|discriminate]; exists n; injection E as <-; split; [cbn; auto 9|reflexivity] end.
  - intros c p (n & Hn & <- & Hp). cbn in Hn. repeat (destruct Hn as [<-|Hn]; [cbn in Hp; try discriminate; injection Hp as <-; cbn; lia|]). destruct Hn.
  - split.
    + intros n k Hn Hk Hin. cbn in Hn. repeat (destruct Hn as [<-|Hn]; [cbn in Hk, Hin; intuition (subst; discriminate)|]). destruct Hn.
    + intros e k He Hk Hin. cbn in He. repeat (destruct He as [<-|He]; [cbn in Hk, Hin; intuition (subst; discriminate)|]). destruct He.
  - intros e He. cbn in He. repeat (destruct He as [<-|He]; [cbn; lia|]). destruct He.
Qed.
Example C65_example :
  match replace_high_level_edges (fun a b => a ++ "->" ++ b)%string 2 ex_g with
  | Ok g => map (fun e => (e_id e, source e, target e)) (edges g)
  | Err _ => []
  end = [("2", "b", "c"); ("a->b", "a", "b"); ("c->d", "c", "d"); ("c->e", "c", "e")].
Proof. reflexivity. Qed.
(** with an edge c -> b the group x has neither entries nor exits, and a and y are cut off *)
Example C65_example_lost :
  match replace_high_level_edges (fun a b => a ++ "->" ++ b)%string 2 (add_edge (Edge "4" "c" "b" []) ex_g) with
  | Ok g => map (fun e => (e_id e, source e, target e)) (edges g)
  | Err _ => []
  end = [("2", "b", "c"); ("4", "c", "b")].
Proof. reflexivity. Qed.
