(** The store of a result collector as a function of the calls *)
From Coq Require Import String QArith Permutation.
From Verif.Model Require Import Base Sort TwoWayDict Statistics ResultCollector.
From Verif.Spec Require Import Moments ResultSpec.
From Verif.Lib Require Import ListLib DictLib.
From Verif.Proofs Require TwoWayDict.
Open Scope string_scope.
Open Scope list_scope.
Open Scope nat_scope.

Lemma set_of_app {A} `{Eq A} (l : list A) x : set_of (l ++ [x]) = set_add x (set_of l).
Proof. unfold set_of. rewrite fold_left_app. auto. Qed.
Lemma set_of_In {A} `{Eq A} (l : list A) x : In x (set_of l) <-> In x l.
Proof.
  induction l as [|y l IH] using rev_ind; [tauto|]. rewrite set_of_app, in_app_iff. unfold set_add.
  destruct (mem y (set_of l)) eqn:M; [apply mem_In in M|rewrite in_app_iff]; cbn [In]; rewrite IH; [|tauto].
  split; [tauto|]. intros [Q|[<-|[]]]; [tauto|]. apply IH. auto.
Qed.
Lemma set_of_NoDup {A} `{Eq A} (l : list A) : NoDup (set_of l).
Proof.
  induction l as [|y l IH] using rev_ind; [constructor|]. rewrite set_of_app. unfold set_add.
  destruct (mem y (set_of l)) eqn:M; [auto|]. apply mem_not_In in M.
  eapply Permutation_NoDup; [apply Permutation_cons_append|]. constructor; auto.
Qed.

(** groups *)
Section Group.
  Context {K C D : Type} `{Eq K}.
  Definition group (key : C -> K) (f : list C -> D) (l : list C) : dict K D :=
    map (fun k => (k, f (filter (fun c => eqb (key c) k) l))) (set_of (map key l)).
  Lemma group_keys key f l : keys (group key f l) = set_of (map key l).
  Proof. unfold group, keys. rewrite map_map. cbn. apply map_id. Qed.
  Lemma map_get (f : K -> D) l k : dict_get k (map (fun k => (k, f k)) l) = if mem k l then Some (f k) else None.
  Proof.
    induction l as [|x l IH]; cbn [map dict_get]; [auto|]. change (mem k (x :: l)) with (eqb k x || mem k l)%bool.
    destruct (eqb_ok k x) as [->|D0]; cbn [orb]; auto.
  Qed.
  Lemma group_get key f l k : dict_get k (group key f l) = if mem k (map key l) then Some (f (filter (fun c => eqb (key c) k) l)) else None.
  Proof.
    unfold group. rewrite map_get. replace (mem k (set_of (map key l))) with (mem k (map key l)); [auto|].
    apply Bool.eq_iff_eq_true. rewrite !mem_In, set_of_In. tauto.
  Qed.
  Lemma map_set (g h : K -> D) l k v : NoDup l -> (forall x, In x l -> x <> k -> g x = h x) -> h k = v ->
    map (fun x => (x, h x)) (set_add k l) = dict_set k v (map (fun x => (x, g x)) l).
  Proof.
    intros N E <-. induction l as [|x l IH]; [auto|]. inversion N as [|? ? N1 N2]; subst. cbn [map dict_set].
    unfold set_add in *. change (mem k (x :: l)) with (eqb k x || mem k l)%bool. destruct (eqb_ok k x) as [->|D0]; cbn [orb map].
    - f_equal. apply map_ext_in. intros y Hy. rewrite E; cbn; auto. intros ->. contradiction.
    - assert (Q : map (fun x => (x, h x)) (if mem k l then l else l ++ [k]) = dict_set k (h k) (map (fun x => (x, g x)) l)).
      { apply IH; [auto|]. intros y Hy. apply E. cbn. auto. }
      rewrite <- Q, E by (cbn; auto). destruct (mem k l); auto.
  Qed.
  Lemma group_app key f l c : group key f (l ++ [c]) = dict_set (key c) (f (filter (fun d => eqb (key d) (key c)) l ++ [c])) (group key f l).
  Proof.
    unfold group. rewrite map_app. cbn [map]. rewrite set_of_app. apply map_set; [apply set_of_NoDup| |].
    - intros x _ D0. rewrite filter_app. cbn [filter]. destruct (eqb_ok (key c) x); [congruence|]. rewrite app_nil_r. auto.
    - rewrite filter_app. cbn [filter]. destruct (eqb_ok (key c) (key c)); [auto|congruence].
  Qed.
  Lemma group_ext key key' f l : (forall c, In c l -> key c = key' c) -> group key f l = group key' f l.
  Proof.
    intros E. unfold group. rewrite (map_ext_in _ _ _ E). apply map_ext. intros k. do 2 f_equal. apply filter_ext_in. intros c Hc. rewrite E by auto. auto.
  Qed.
  Lemma group_ext_f key f f' l : (forall l', incl l' l -> f l' = f' l') -> group key f l = group key f' l.
  Proof. intros E. unfold group. apply map_ext. intros k. f_equal. apply E. apply incl_filter. Qed.
End Group.

(** the store *)
Definition collect (m : mode) (l : list Q) : collected := match m with Line => CStats (st_of l) | Scatter => CList l end.
Lemma collect_app m l v : collect m (l ++ [v]) = add_to_value_collector v (collect m l).
Proof. destruct m; cbn; [|auto]. unfold st_of. rewrite fold_left_app. auto. Qed.
Lemma collect_nil m : collect m [] = create_value_collector m.
Proof. destruct m; auto. Qed.
Definition x_table (m : mode) (ks : list call) : list call -> dict Z collected :=
  group (fun k => number ks (c_x k)) (fun l => collect m (map c_value l)).
Definition miner_table (m : mode) (ks : list call) : list call -> dict string (dict Z collected) := group c_miner (x_table m ks).
Definition table (m : mode) (ks l : list call) : store := group c_type (miner_table m ks) l.

(** labels *)
Lemma combine_app {A B} (a a' : list A) (b b' : list B) : length a = length b -> combine (a ++ a') (b ++ b') = combine a b ++ combine a' b'.
Proof. revert b. induction a as [|x a IH]; intros [|y b] L; try discriminate; cbn; [auto|]. f_equal. apply IH. injection L as L. auto. Qed.
Lemma filter_none {X} (g : X -> bool) l : (forall x, In x l -> g x = false) -> filter g l = [].
Proof. induction l as [|x l IH]; intros Q; [auto|]. cbn [filter]. rewrite Q by (left; auto). apply IH. intros y Hy. apply Q. right. auto. Qed.
Definition numbered (l : list string) : list (Z * string) := combine (map Z.of_nat (seq 0 (length l))) l.
Lemma numbered_app l s : numbered (l ++ [s]) = numbered l ++ [(Z.of_nat (length l), s)].
Proof.
  unfold numbered. rewrite app_length. cbn [length]. rewrite Nat.add_1_r, seq_S, map_app. cbn [map].
  rewrite combine_app; [auto|]. rewrite map_length, seq_length. auto.
Qed.
Lemma numbered_length l : length (numbered l) = length l.
Proof. unfold numbered. rewrite combine_length, map_length, seq_length. lia. Qed.
Lemma numbered_In l z s : In (z, s) (numbered l) -> exists k, z = Z.of_nat k /\ nth_error l k = Some s.
Proof.
  induction l as [|x l IH] using rev_ind; [intros []|]. rewrite numbered_app, in_app_iff. intros [Q|[Q|[]]].
  - destruct (IH Q) as (k & -> & E). exists k. split; [auto|]. rewrite nth_error_app1; [auto|]. apply nth_error_Some. congruence.
  - injection Q as <- <-. exists (length l). split; [auto|]. rewrite nth_error_app2, Nat.sub_diag by lia. auto.
Qed.
Lemma position_nth s l : In s l -> nth_error l (position s l) = Some s.
Proof.
  induction l as [|x l IH]; [intros []|]. intros Hs. cbn [position]. destruct (eqb_ok s x) as [->|D0]; [auto|]. cbn. apply IH. destruct Hs; [congruence|auto].
Qed.
Lemma position_app s l l' : In s l -> position s (l ++ l') = position s l.
Proof.
  induction l as [|x l IH]; [intros []|]. intros Hs. cbn [position app]. destruct (eqb_ok s x) as [->|D0]; [auto|]. f_equal. apply IH. destruct Hs; [congruence|auto].
Qed.
Lemma position_end s l : ~ In s l -> position s (l ++ [s]) = length l.
Proof.
  induction l as [|x l IH]; intros Hs; cbn [position app length].
  - destruct (eqb_ok s s); [auto|congruence].
  - destruct (eqb_ok s x) as [->|D0]; [exfalso; apply Hs; left; auto|]. f_equal. apply IH. intros Q. apply Hs. right. auto.
Qed.
Lemma NoDup_nth_inj {A} (l : list A) i j x : NoDup l -> nth_error l i = Some x -> nth_error l j = Some x -> i = j.
Proof. intros N A1 A2. eapply (proj1 (NoDup_nth_error l) N); [|congruence]. apply nth_error_Some. congruence. Qed.
Definition lab (ks : list call) : two_way_dict (K := Z) (V := string) := twd_run (numbered (labels_used ks)).
Lemma twd_run_app {K V} `{Eq K} `{Eq V} (h : list (K * V)) kv : twd_run (h ++ [kv]) = twd_setitem (twd_run h) (fst kv) (snd kv).
Proof. unfold twd_run. rewrite fold_left_app. auto. Qed.
Lemma set_new {K V} `{Eq K} (d : dict K V) k v : ~ In k (keys d) -> dict_set k v d = d ++ [(k, v)].
Proof.
  induction d as [|[k0 v0] d IH]; intros Hk; [auto|]. cbn [dict_set]. destruct (eqb_ok k k0) as [->|D0]; [exfalso; apply Hk; left; auto|].
  cbn [app]. f_equal. apply IH. intros Q. apply Hk. right. auto.
Qed.
Lemma lab_dict l : twd_dict (twd_run (numbered l)) = numbered l.
Proof.
  induction l as [|s l IH] using rev_ind; [auto|]. rewrite numbered_app, twd_run_app. unfold twd_setitem. cbn [twd_dict fst snd]. rewrite IH. apply set_new.
  intros Q. unfold keys in Q. apply in_map_iff in Q. destruct Q as ([z s'] & Ez & Q). cbn in Ez. apply numbered_In in Q. destruct Q as (k & -> & Q).
  assert (k < length l) by (apply nth_error_Some; congruence). lia.
Qed.
Lemma labels_app ks k : labels_used (ks ++ [k]) = match c_x k with XStr s => set_add s (labels_used ks) | XNum _ => labels_used ks end.
Proof.
  unfold labels_used. rewrite flat_map_app. cbn [flat_map]. rewrite app_nil_r. destruct (c_x k); [rewrite app_nil_r; auto|]. apply set_of_app.
Qed.
Lemma labels_In ks k s : In k ks -> c_x k = XStr s -> In s (labels_used ks).
Proof. intros Hk E. unfold labels_used. apply set_of_In. apply in_flat_map. exists k. rewrite E. cbn. auto. Qed.
Lemma number_app ks k c : In c ks -> number (ks ++ [k]) (c_x c) = number ks (c_x c).
Proof.
  intros Hc. unfold number. destruct (c_x c) eqn:E; [auto|]. f_equal. rewrite labels_app. pose proof (labels_In _ _ _ Hc E) as L.
  destruct (c_x k) as [z|s']; [auto|]. unfold set_add. destruct (mem s' (labels_used ks)); [auto|]. apply position_app. auto.
Qed.
Lemma x_number_ok ord ks k : (forall l, Permutation (ord l) l) ->
  x_number ord (c_x k) (lab ks) = Ok (lab (ks ++ [k]), number (ks ++ [k]) (c_x k)).
Proof.
  intros HO. unfold x_number, lab. rewrite labels_app. unfold number. destruct (c_x k) as [z|s] eqn:Ex; [auto|].
  rewrite labels_app, Ex. assert (N : NoDup (labels_used ks)) by apply set_of_NoDup.
  destruct (Proofs.TwoWayDict.inverse_ok (numbered (labels_used ks)) s) as [(zs & E & N1 & N2 & In1)|[E No]]; rewrite E.
  - destruct zs as [|z zs]; [congruence|]. assert (Hz : In (z, s) (numbered (labels_used ks))) by (apply In1; left; auto).
    apply numbered_In in Hz. destruct Hz as (i & -> & Hi). assert (Hs : In s (labels_used ks)) by (eapply nth_error_In; eauto).
    assert (Z0 : zs = []).
    { destruct zs as [|z' zs]; [auto|]. exfalso. assert (Hz : In (z', s) (numbered (labels_used ks))) by (apply In1; right; left; auto).
      apply numbered_In in Hz. destruct Hz as (j & -> & Hj). inversion N1 as [|? ? Q _]; subst. apply Q. left. f_equal. apply (NoDup_nth_inj (labels_used ks) j i s N); assumption. }
    subst zs. assert (O1 : ord [Z.of_nat i] = [Z.of_nat i]) by (apply Permutation_length_1_inv, Permutation_sym, HO). rewrite O1. cbn [hd_error of_option bind].
    unfold set_add. rewrite (proj2 (mem_In _ _) Hs). do 2 f_equal. f_equal. eapply NoDup_nth_inj; [exact N|exact Hi|]. apply position_nth. auto.
  - assert (Hs : ~ In s (labels_used ks)).
    { intros Hs. apply In_nth_error in Hs. destruct Hs as [i Hi]. apply (No (Z.of_nat i)). revert Hi. generalize (labels_used ks). clear. intros l.
      induction l as [|x l IH] using rev_ind; [destruct i; discriminate|]. intros Hi. rewrite numbered_app, in_app_iff.
      destruct (Nat.lt_ge_cases i (length l)) as [L|L]; [rewrite nth_error_app1 in Hi by auto; left; apply IH; exact Hi|].
      rewrite nth_error_app2 in Hi by auto. destruct (i - length l) eqn:Ei; [|destruct n; discriminate]. injection Hi as ->. assert (i = length l) by lia. subst i. right. left. reflexivity. }
    unfold set_add. rewrite (proj2 (mem_not_In _ _) Hs). rewrite lab_dict, numbered_length, numbered_app, twd_run_app. cbn [fst snd]. do 2 f_equal.
    rewrite position_end by auto.
    assert (Q : twd_dict (twd_setitem (twd_run (numbered (labels_used ks))) (Z.of_nat (length (labels_used ks))) s) = numbered (labels_used ks ++ [s])).
    { rewrite <- (lab_dict (labels_used ks ++ [s])), numbered_app, twd_run_app. auto. }
    rewrite Q, numbered_length, app_length. cbn [length]. lia.
Qed.

Definition the_collector (m : mode) (ops : list op) (colors markers : dict string string) : collector :=
  Collector (table m (calls ops) (calls ops)) colors markers (lab (calls ops)).
Lemma table_app m ks k : table m (ks ++ [k]) (ks ++ [k]) =
  dict_set (c_type k) (dict_set (c_miner k) (dict_set (number (ks ++ [k]) (c_x k))
     (collect m (map c_value (filter (fun c => eqb (number (ks ++ [k]) (c_x c)) (number (ks ++ [k]) (c_x k))) (of_miner (c_type k) (c_miner k) ks)) ++ [c_value k]))
     (x_table m ks (of_miner (c_type k) (c_miner k) ks)))
     (miner_table m ks (of_type (c_type k) ks))) (table m ks ks).
Proof.
  assert (X : forall l, incl l ks -> x_table m (ks ++ [k]) l = x_table m ks l).
  { intros l I. apply group_ext. intros c Hc. apply number_app. auto. }
  assert (M : forall l, incl l ks -> miner_table m (ks ++ [k]) l = miner_table m ks l).
  { intros l I. apply group_ext_f. intros l' I'. apply X. eapply incl_tran; eauto. }
  unfold table at 1. rewrite group_app. f_equal.
  - unfold miner_table at 1. rewrite group_app. fold (of_type (c_type k) ks). fold (of_miner (c_type k) (c_miner k) ks). f_equal.
    + unfold x_table at 1. rewrite group_app. rewrite map_app. cbn [map]. f_equal. apply X.
      unfold of_miner, of_type. eapply incl_tran; apply incl_filter.
    + apply M. apply incl_filter.
  - apply group_ext_f. intros l I. apply M. auto.
Qed.
Lemma run_app {ord m} l o : run_ops ord m (l ++ [o]) = do c <- run_ops ord m l ; step ord m c o.
Proof.
  unfold run_ops. generalize new_collector. induction l as [|x l IH]; intros c; cbn [foldM app bind].
  - destruct (step ord m c o); auto.
  - destruct (step ord m c x); cbn [bind]; auto.
Qed.
Lemma group_get_default {K C D E} `{Eq K} (key : C -> K) (f : list C -> dict D E) l k : f [] = [] ->
  match dict_get k (group key f l) with Some d => d | None => [] end = f (filter (fun c => eqb (key c) k) l).
Proof.
  intros E0. rewrite group_get. destruct (mem k (map key l)) eqn:M; [auto|]. apply mem_not_In in M.
  replace (filter (fun c => eqb (key c) k) l) with (@nil C); [auto|]. symmetry. apply filter_none. intros c Hc. destruct (eqb_ok (key c) k) as [<-|]; [|auto].
  exfalso. apply M. apply in_map. auto.
Qed.
Lemma run_ok ord m ops : (forall l, Permutation (ord l) l) -> exists c, run_ops ord m ops = Ok c /\
  rc_results c = table m (calls ops) (calls ops) /\ rc_labels c = lab (calls ops) /\
  (forall n, color_of c n = color_set ops n) /\ (forall n, marker_of c n = marker_set ops n).
Proof.
  intros HO. induction ops as [|o ops IH] using rev_ind.
  - exists new_collector. repeat split.
  - destruct IH as (c & E & R & L & Co & Ma). rewrite run_app, E. cbn [bind]. unfold calls in *. rewrite flat_map_app. cbn [flat_map]. rewrite app_nil_r.
    fold (calls ops) in *. unfold color_set, marker_set. setoid_rewrite fold_left_app. cbn [fold_left]. destruct o as [k|n s|n s]; cbn [step].
    + eexists. split; [|split; [|split]].
      * unfold add_result. rewrite L, x_number_ok by auto. cbn [bind]. reflexivity.
      * cbn [rc_results]. rewrite R, table_app. f_equal. unfold table. rewrite group_get_default by auto. fold (of_type (c_type k) (calls ops)). f_equal.
        unfold miner_table. rewrite group_get_default by auto. fold (of_miner (c_type k) (c_miner k) (calls ops)). f_equal. rewrite collect_app. f_equal.
        unfold x_table. rewrite group_get. destruct (mem _ _) eqn:M.
        -- do 2 f_equal. apply filter_ext_in. intros d Hd. rewrite (number_app _ k d); [auto|]. unfold of_miner, of_type in Hd. rewrite !filter_In in Hd. tauto.
        -- rewrite <- collect_nil. f_equal. apply mem_not_In in M. rewrite filter_none; [auto|]. intros d Hd.
           destruct (eqb_ok (number (calls ops ++ [k]) (c_x d)) (number (calls ops ++ [k]) (c_x k))) as [Q|]; [|auto]. exfalso. apply M.
           apply in_map_iff. exists d. split; [|auto]. rewrite (number_app _ k d) in Q; [auto|]. unfold of_miner, of_type in Hd. rewrite !filter_In in Hd. tauto.
      * auto.
      * auto.
    + eexists. split; [reflexivity|]. rewrite app_nil_r. split; [auto|]. split; [auto|]. split; [|auto].
      intros n'. unfold color_of, set_color. cbn [rc_colors]. rewrite dict_get_set. fold (color_set ops n'). rewrite <- (Co n'). unfold color_of.
      destruct (eqb_ok n' n) as [->|D0]; [destruct (eqb_ok n n); [auto|congruence]|]. destruct (eqb_ok n n'); [congruence|auto].
    + eexists. split; [reflexivity|]. rewrite app_nil_r. split; [auto|]. split; [auto|]. split; [auto|].
      intros n'. unfold marker_of, set_marker. cbn [rc_markers]. rewrite dict_get_set. fold (marker_set ops n'). rewrite <- (Ma n'). unfold marker_of.
      destruct (eqb_ok n' n) as [->|D0]; [destruct (eqb_ok n n); [auto|congruence]|]. destruct (eqb_ok n n'); [congruence|auto].
Qed.
