(** Kosaraju's algorithm *)
From Coq Require Import Relations.
From Verif.Model Require Import Base IntGraph.
From Verif.Lib Require Import ListLib DictLib.
From Verif.Spec Require Import Lists Logs Graphs IntGraphSpec.
From Verif.Proofs Require Import Selection EventLogA DfgA DfgH.

Notation star := (clos_refl_trans nat).
Lemma adj_of_ok g v : v < length g -> exists l, adj_of g v = Ok l /\ (forall w, In w l <-> arc g v w) /\ nth_error g v = Some l.
Proof.
  intros Hv. destruct (nth_error_lt g v Hv) as [l El]. exists l. unfold adj_of. rewrite El. split; [auto|]. split; [|auto].
  intros w. unfold arc. rewrite El. split; [eauto|]. intros (l' & E & Hl). congruence.
Qed.
Lemma arc_range g v w : in_range g -> arc g v w -> v < length g /\ w < length g.
Proof.
  intros Hr (l & E & Hl). split; [eapply nth_error_Some_lt; eauto|].
  unfold in_range in Hr. rewrite Forall_forall in Hr. apply nth_error_In in E. specialize (Hr l E).
  rewrite Forall_forall in Hr. auto.
Qed.
Lemma pigeon n vis v : NoDup vis -> (forall x, In x vis -> x < n) -> v < n -> ~ In v vis -> length vis < n.
Proof.
  intros Hd Hb Hv Hn. assert (Hi : incl (v :: vis) (seq 0 n)).
  { intros x [<-|Hx]; apply in_seq; [lia|]. specialize (Hb x Hx). lia. }
  apply NoDup_incl_length in Hi; [|now constructor]. rewrite seq_length in Hi. cbn in Hi. lia.
Qed.

(** *** first pass *)
Definition before (st : list nat) (z w : nat) : Prop := exists l m, st = l ++ z :: m /\ In w (z :: m).
Lemma before_top v st w : In w (v :: st) -> before (v :: st) v w.
Proof. intros Hw. exists [], st. auto. Qed.
Lemma before_cons x st z w : before st z w -> before (x :: st) z w.
Proof. intros (l & m & -> & Hw). exists (x :: l), m. auto. Qed.
Lemma before_In st z w : before st z w -> In w st.
Proof. intros (l & m & -> & Hw). apply in_or_app. auto. Qed.

Section First.
  Variable g : adjs.
  Hypothesis Hr : in_range g.
  Notation n := (length g).
  Notation E := (arc g).
  Definition both u v : Prop := star E u v /\ star E v u.
  Lemma both_refl u : both u u.
  Proof. split; apply rt_refl. Qed.
  Lemma both_sym u v : both u v -> both v u.
  Proof. unfold both. tauto. Qed.
  Lemma both_trans u v w : both u v -> both v w -> both u w.
  Proof. intros [A B] [C D]. split; eapply rt_trans; eauto. Qed.

  Record ok (G : nat -> Prop) (vis st : list nat) : Prop := {
    o_vis : forall x, In x vis <-> G x \/ In x st;
    o_bound : forall x, In x vis -> x < n;
    o_nv : NoDup vis;
    o_ns : NoDup st;
    o_dis : forall x, G x -> ~ In x st;
    o_clo : forall u w, In u st -> E u w -> G w \/ In w st;
    o_inv : forall u w, In u st -> star E u w ->
       (exists z, G z /\ both u z) \/ exists z, both z u /\ before st z w
  }.
  Definition grows (vis st vis' st' : list nat) : Prop :=
    (forall x, In x vis -> In x vis') /\ length vis <= length vis'.

  Section Loop.
    Variable fill : nat -> list nat * list nat -> result (list nat * list nat).
    Variables (G : nat -> Prop) (fuel : nat).
    Hypothesis Hfill : forall v vis st, ok G vis st -> v < n -> ~ In v vis -> (forall z, G z -> star E z v) ->
      n <= length vis + fuel ->
      exists vis' st', fill v (vis, st) = Ok (vis', st') /\ ok G vis' st' /\ In v vis' /\ grows vis st vis' st'.
    Lemma loop_ok l : forall vis st, ok G vis st -> (forall w, In w l -> w < n /\ forall z, G z -> star E z w) ->
      n <= length vis + fuel ->
      exists vis' st', foldM (fun s i => if mem i (fst s) then Ok s else fill i s) l (vis, st) = Ok (vis', st') /\
        ok G vis' st' /\ (forall w, In w l -> In w vis') /\ grows vis st vis' st'.
    Proof.
      induction l as [|w l IH]; intros vis st Ho Hl Hf; cbn [foldM].
      - exists vis, st. split; [auto|]. split; [auto|]. split; [intros w []|]. split; auto.
      - cbn [fst]. destruct (Hl w (or_introl eq_refl)) as [Hw HG]. destruct (mem w vis) eqn:Em.
        + apply mem_In in Em. cbn [bind]. destruct (IH vis st Ho) as (vis' & st' & E1 & O1 & I1 & G1); auto.
          { intros x Hx. apply Hl. now right. }
          exists vis', st'. split; [auto|]. split; [auto|]. split; [|auto]. intros x [<-|Hx]; [|auto]. now apply G1.
        + apply mem_not_In in Em. destruct (Hfill w vis st Ho Hw Em HG Hf) as (vis1 & st1 & E1 & O1 & I1 & [G1 L1]).
          rewrite E1. cbn [bind]. destruct (IH vis1 st1 O1) as (vis' & st' & E2 & O2 & I2 & [G2 L2]); auto.
          { intros x Hx. apply Hl. now right. } { lia. }
          exists vis', st'. split; [auto|]. split; [auto|]. split; [intros x [<-|Hx]; auto|].
          split; [auto|lia].
    Qed.
  End Loop.

  Lemma closed_star (P : nat -> Prop) u w : (forall x y, P x -> E x y -> P y) -> P u -> star E u w -> P w.
  Proof. intros HP Hu Hs. apply clos_rt_rtn1 in Hs. induction Hs; eauto. Qed.

  Lemma fill_ok fuel : forall G v vis st, ok G vis st -> v < n -> ~ In v vis -> (forall z, G z -> star E z v) ->
    n <= length vis + fuel ->
    exists vis' st', fill_order fuel g v (vis, st) = Ok (vis', st') /\ ok G vis' st' /\ In v vis' /\ grows vis st vis' st'.
  Proof.
    induction fuel as [|fuel IH]; intros G v vis st Ho Hv Hn HG Hf.
    - exfalso. pose proof (pigeon n vis v (o_nv _ _ _ Ho) (o_bound _ _ _ Ho) Hv Hn). lia.
    - cbn [fill_order]. destruct (adj_of_ok g v Hv) as (l & El & Hl & _). rewrite El. cbn [bind].
      assert (Ev : set_add v vis = vis ++ [v]) by (unfold set_add; now rewrite (proj2 (mem_not_In v vis))).
      rewrite Ev. destruct Ho as [o1 o2 o3 o4 o5 o6 o7].
      destruct (loop_ok (fill_order fuel g) (fun x => G x \/ x = v) fuel) with (l := l) (vis := vis ++ [v]) (st := st)
        as (vis1 & st1 & E1 & O1 & I1 & [G1 L1]).
      + intros w vis' st' H1 H2 H3 H4 H5. apply IH; auto.
      + constructor; auto.
        * intros x. rewrite in_app_iff, o1. cbn. intuition.
        * intros x Hx. apply in_app_or in Hx as [Hx|[<-|[]]]; auto.
        * now apply NoDup_snoc.
        * intros x [Hx| ->]; [auto|]. intros Hs. apply Hn, o1. auto.
        * intros u w Hu Huw. destruct (o6 u w Hu Huw); auto.
        * intros u w Hu Huw. destruct (o7 u w Hu Huw) as [(z & Hz & Hb)|Hi]; [left; eauto|auto].
      + intros w Hw. apply Hl in Hw. split; [now apply arc_range in Hw|]. intros z [Hz| ->].
        * eapply rt_trans; [apply HG; auto|now apply rt_step].
        * now apply rt_step.
      + rewrite app_length. cbn. lia.
      + rewrite E1. cbn [bind]. exists vis1, (v :: st1). split; [auto|].
        assert (Hv1 : In v vis1) by (apply G1, in_or_app; right; now left).
        assert (Hvs : ~ In v st1) by (apply (o_dis _ _ _ O1); auto).
        split; [|split; [auto|]].
        2:{ split; [intros x Hx; apply G1, in_or_app; auto|]. rewrite app_length in L1. cbn in L1. lia. }
        assert (Hcl : forall u w, In u (v :: st1) -> E u w -> G w \/ In w (v :: st1)).
        { intros u w [<-|Hu] Huw.
          - assert (Hw : In w vis1) by (apply I1, Hl; auto). apply (o_vis _ _ _ O1) in Hw as [[Hw| ->]|Hw]; cbn; auto.
          - destruct (o_clo _ _ _ O1 u w Hu Huw) as [[Hw| ->]|Hw]; cbn; auto. }
        constructor.
        * intros x. rewrite (o_vis _ _ _ O1). cbn. intuition.
        * apply (o_bound _ _ _ O1).
        * apply (o_nv _ _ _ O1).
        * constructor; [auto|apply (o_ns _ _ _ O1)].
        * intros x Hx [<-|Hs]; [apply Hn, o1; auto|]. apply (o_dis _ _ _ O1 x); auto.
        * exact Hcl.
        * assert (Hnew : forall u w, both u v -> star E u w -> (exists z, G z /\ both u z) \/
                      exists z, both z u /\ before (v :: st1) z w).
          { intros u w Huv Huw.
            assert (Hvw : star E v w) by (eapply rt_trans; [apply Huv|auto]).
            assert (Hc : (exists z, G z /\ star E v z) \/ In w (v :: st1)).
            { clear Huw. apply clos_rt_rtn1 in Hvw. induction Hvw as [|y z Hyz Hvy IHp]; [right; now left|].
              destruct IHp as [|Hy]; [auto|]. destruct (Hcl y z Hy Hyz) as [Hz|Hz]; [|auto].
              left. exists z. split; [auto|]. apply clos_rtn1_rt in Hvy. eapply rt_trans; [exact Hvy|now apply rt_step]. }
            destruct Hc as [(z & Hz & Hvz)|Hc].
            - left. exists z. split; [auto|]. eapply both_trans; [exact Huv|]. split; auto.
            - right. exists v. split; [now apply both_sym|]. now apply before_top. }
          intros u w [<-|Hu] Huw; [apply Hnew; [apply both_refl|auto]|].
          destruct (o_inv _ _ _ O1 u w Hu Huw) as [(z & [Hz| ->] & Hb)|(z & Hz & Hzw)].
          -- left. eauto. -- now apply Hnew.
          -- right. exists z. split; [auto|now apply before_cons].
  Qed.

  Lemma first_pass : exists vis st,
    foldM (fun s i => if mem i (fst s) then Ok s else fill_order n g i s) (seq 0 n) ([], []) = Ok (vis, st) /\
    NoDup st /\ (forall x, In x st <-> x < n) /\
    forall u w, u < n -> star E u w -> exists z, both z u /\ before st z w.
  Proof.
    destruct (loop_ok (fill_order n g) (fun _ => False) n) with (l := seq 0 n) (vis := @nil nat) (st := @nil nat)
      as (vis & st & E1 & O1 & I1 & _).
    - intros v vis st H1 H2 H3 H4 H5. now apply fill_ok.
    - constructor; try (intros; cbn in *; tauto); constructor.
    - intros w Hw. apply in_seq in Hw. split; [lia|]. intros z [].
    - cbn. lia.
    - exists vis, st. split; [auto|]. split; [apply (o_ns _ _ _ O1)|].
      assert (Hst : forall x, In x st <-> x < n).
      { intros x. split.
        - intros Hx. apply (o_bound _ _ _ O1). apply (o_vis _ _ _ O1). auto.
        - intros Hx. destruct (proj1 (o_vis _ _ _ O1 x)) as [[]|]; [apply I1, in_seq; lia|auto]. }
      split; [auto|]. intros u w Hu Huw. destruct (o_inv _ _ _ O1 u w) as [(z & [] & _)|]; auto. now apply Hst.
  Qed.
End First.

(** *** transpose *)
Section Transpose.
  Lemma append_all v l : forall h, (forall w, In w l -> w < length h) ->
    exists h', foldM (fun h i => do m <- adj_of h i ; set_adj h i (m ++ [v])) l h = Ok h' /\ length h' = length h /\
      forall a b, arc h' a b <-> arc h a b \/ (b = v /\ In a l).
  Proof.
    induction l as [|w l IH]; intros h Hh; cbn [foldM].
    - exists h. split; [auto|]. split; [auto|]. cbn. tauto.
    - destruct (adj_of_ok h w (Hh w (or_introl eq_refl))) as (m & Em & Hm & En). rewrite Em. cbn [bind].
      unfold set_adj at 1. destruct (list_set_spec h w (m ++ [v])) as (h1 & E1 & L1 & N1); [apply Hh; now left|].
      rewrite E1. cbn [of_option bind].
      destruct (IH h1) as (h' & E' & L' & A'); [intros x Hx; rewrite L1; apply Hh; now right|].
      exists h'. split; [exact E'|]. split; [lia|]. intros a b. rewrite A'.
      assert (Ha : arc h1 a b <-> arc h a b \/ (b = v /\ a = w)).
      { unfold arc. rewrite N1. destruct (Nat.eqb_spec a w) as [->|Hne].
        - split.
          + intros (l0 & [= <-] & Hl0). apply in_app_or in Hl0 as [Hl0|[<-|[]]]; [left; eauto|auto].
          + intros [(l0 & E0 & Hl0)|[-> _]]; exists (m ++ [v]); (split; [auto|]); apply in_or_app; [left; congruence|right; now left].
        - split; [auto|]. intros [|[_ ?]]; [auto|congruence]. }
      rewrite Ha. cbn. intuition.
  Qed.
  Lemma transpose_ok g : in_range g -> exists gr, transpose g = Ok gr /\ length gr = length g /\
    forall a b, arc gr a b <-> arc g b a.
  Proof.
    intros Hr. unfold transpose.
    assert (G : forall vs h, length h = length g -> (forall v, In v vs -> v < length g) ->
      exists h', foldM (fun h v => do l <- adj_of g v ;
        foldM (fun h i => do m <- adj_of h i ; set_adj h i (m ++ [v])) l h) vs h = Ok h' /\ length h' = length g /\
        forall a b, arc h' a b <-> arc h a b \/ (In b vs /\ arc g b a)).
    { induction vs as [|v vs IH]; intros h Hh Hv; cbn [foldM].
      - exists h. split; [auto|]. split; [auto|]. cbn. tauto.
      - destruct (adj_of_ok g v (Hv v (or_introl eq_refl))) as (l & El & Hl & _). rewrite El. cbn [bind].
        destruct (append_all v l h) as (h1 & E1 & L1 & A1).
        { intros w Hw. rewrite Hh. apply Hl in Hw. now apply (arc_range g v w Hr). }
        rewrite E1. cbn [bind]. destruct (IH h1) as (h' & E' & L' & A'); [lia|intros x Hx; apply Hv; now right|].
        exists h'. split; [auto|]. split; [auto|]. intros a b. rewrite A', A1, Hl. cbn. intuition (subst; auto). }
    destruct (G (seq 0 (length g)) (new_graph (length g))) as (gr & E & L & A).
    - apply repeat_length. - intros v Hv. apply in_seq in Hv. lia.
    - exists gr. split; [auto|]. split; [auto|]. intros a b. rewrite A. split.
      + intros [(l & El & Hl)|[_ Hab]]; [|auto]. apply nth_error_In, repeat_spec in El. subst l. contradiction.
      + intros Hab. right. split; [|auto]. apply in_seq. apply arc_range in Hab; [lia|auto].
  Qed.
End Transpose.

(** *** second pass *)
Section Second.
  Variable gr : adjs.
  Hypothesis Hr : forall v w, arc gr v w -> v < length gr /\ w < length gr.
  Notation n := (length gr).
  Notation R := (arc gr).
  (** what a search from [v] adds *)
  Definition found (from : nat -> Prop) (vis vis' new : list nat) : Prop :=
    (forall x, In x vis' <-> In x vis \/ In x new) /\ NoDup vis' /\ NoDup new /\
    (forall x, In x new -> ~ In x vis) /\ (forall x, In x new -> x < n /\ exists v, from v /\ star R v x) /\
    (forall x y, In x new -> R x y -> In y vis').
  Lemma found_length from vis vis' new : NoDup vis -> found from vis vis' new -> length vis <= length vis'.
  Proof. intros Hd (H1 & H2 & _). apply NoDup_incl_length; [auto|]. intros x Hx. apply H1. auto. Qed.

  Section Loop.
    Variables (search : nat -> list nat * list nat -> result (list nat * list nat)) (fuel : nat).
    Hypothesis Hsearch : forall v vis comp, NoDup vis -> (forall x, In x vis -> x < n) -> v < n -> ~ In v vis ->
      n <= length vis + fuel ->
      exists vis' new, search v (vis, comp) = Ok (vis', comp ++ new) /\ found (eq v) vis vis' new /\ In v new.
    Lemma loop2_ok l : forall vis comp, NoDup vis -> (forall x, In x vis -> x < n) -> (forall w, In w l -> w < n) ->
      n <= length vis + fuel ->
      exists vis' new, foldM (fun s i => if mem i (fst s) then Ok s else search i s) l (vis, comp) = Ok (vis', comp ++ new) /\
        found (fun v => In v l) vis vis' new /\ forall w, In w l -> In w vis'.
    Proof.
      induction l as [|w l IH]; intros vis comp Hd Hb Hl Hf; cbn [foldM].
      - exists vis, []. rewrite app_nil_r. split; [auto|]. split; [|intros w []].
        unfold found. cbn. split; [tauto|]. split; [auto|]. split; [constructor|]. split; [tauto|]. split; tauto.
      - cbn [fst]. destruct (mem w vis) eqn:Em.
        + apply mem_In in Em. cbn [bind].
          destruct (IH vis comp Hd Hb) as (vis' & new & E1 & (F1 & F2 & F3 & F4 & F5 & F6) & I1); auto.
          { intros x Hx. apply Hl. now right. }
          exists vis', new. split; [auto|]. split.
          * split; [auto|]. do 3 (split; [auto|]). split; [|auto]. intros x Hx. destruct (F5 x Hx) as (Hlt & v & Hv & Hs).
            split; [auto|]. exists v. split; [now right|auto].
          * intros x [<-|Hx]; [|auto]. apply F1. auto.
        + apply mem_not_In in Em.
          destruct (Hsearch w vis comp Hd Hb (Hl w (or_introl eq_refl)) Em Hf) as (vis1 & new1 & E1 & F & I1).
          pose proof (found_length _ _ _ _ Hd F) as HL. destruct F as (F1 & F2 & F3 & F4 & F5 & F6).
          rewrite E1. cbn [bind]. destruct (IH vis1 (comp ++ new1) F2) as (vis' & new & E2 & (K1 & K2 & K3 & K4 & K5 & K6) & I2).
          { intros x Hx. apply F1 in Hx as [Hx|Hx]; [auto|]. now apply F5. }
          { intros x Hx. apply Hl. now right. } { lia. }
          exists vis', (new1 ++ new). rewrite app_assoc. split; [auto|]. split.
          * split; [intros x; rewrite K1, F1, in_app_iff; tauto|]. split; [auto|]. split; [|split; [|split]].
            -- apply NoDup_app_disjoint; auto. intros x H1 H2. apply (K4 x H2). apply F1. auto.
            -- intros x Hx Hv. apply in_app_or in Hx as [Hx|Hx]; [now apply (F4 x Hx)|]. apply (K4 x Hx), F1. auto.
            -- intros x Hx. apply in_app_or in Hx as [Hx|Hx].
               ++ destruct (F5 x Hx) as (Hlt & v & <- & Hs). split; [auto|]. exists w. split; [now left|auto].
               ++ destruct (K5 x Hx) as (Hlt & v & Hv & Hs). split; [auto|]. exists v. split; [now right|auto].
            -- intros x y Hx Hxy. apply in_app_or in Hx as [Hx|Hx]; [apply K1; left; eauto|eauto].
          * intros x [<-|Hx]; [|auto]. apply K1. left. apply F1. auto.
    Qed.
  End Loop.

  Lemma dfs_ok fuel : forall v vis comp, NoDup vis -> (forall x, In x vis -> x < n) -> v < n -> ~ In v vis ->
    n <= length vis + fuel ->
    exists vis' new, dfs fuel gr v (vis, comp) = Ok (vis', comp ++ new) /\ found (eq v) vis vis' new /\ In v new.
  Proof.
    induction fuel as [|fuel IH]; intros v vis comp Hd Hb Hv Hn Hf.
    - exfalso. pose proof (pigeon n vis v Hd Hb Hv Hn). lia.
    - cbn [dfs]. destruct (adj_of_ok gr v Hv) as (l & El & Hl & _). rewrite El. cbn [bind].
      assert (Ev : set_add v vis = vis ++ [v]) by (unfold set_add; now rewrite (proj2 (mem_not_In v vis))).
      rewrite Ev.
      destruct (loop2_ok (dfs fuel gr) fuel IH l (vis ++ [v]) (comp ++ [v])) as (vis' & new & E1 & (F1 & F2 & F3 & F4 & F5 & F6) & I1).
      + now apply NoDup_snoc.
      + intros x Hx. apply in_app_or in Hx as [Hx|[<-|[]]]; auto.
      + intros w Hw. apply Hl in Hw. now apply Hr in Hw.
      + rewrite app_length. cbn. lia.
      + exists vis', (v :: new). split; [rewrite E1; now rewrite <- app_assoc|]. split; [|now left].
        split; [intros x; rewrite F1, in_app_iff; cbn; tauto|]. split; [auto|]. split; [|split; [|split]].
        * constructor; [|auto]. intros Hx. apply (F4 v Hx), in_or_app. right. now left.
        * intros x [<-|Hx]; [auto|]. intros Hx'. apply (F4 x Hx), in_or_app. auto.
        * intros x [<-|Hx]; [split; [auto|]; exists v; split; [auto|apply rt_refl]|].
          destruct (F5 x Hx) as (Hlt & w & Hw & Hs). split; [auto|]. exists v. split; [auto|].
          eapply rt_trans; [apply rt_step, Hl; eauto|auto].
        * intros x y [<-|Hx] Hxy; [|eauto]. apply I1. now apply Hl.
  Qed.
End Second.

Lemma star_flip (R R' : nat -> nat -> Prop) a b : (forall x y, R x y -> R' y x) -> star R a b -> star R' b a.
Proof. intros HR. induction 1; [apply rt_step; auto|apply rt_refl|eapply rt_trans; eauto]. Qed.

Lemma scc_ok g : in_range g -> exists cs, strongly_connected_components g = Ok cs /\
  NoDup (concat cs) /\ (forall x, In x (concat cs) <-> x < length g) /\
  (forall c, In c cs -> c <> [] /\ forall x y, In x c -> In y c <-> mutually g x y) /\
  ForallOrdPairs (fun c d => forall x y, In x c -> In y d -> ~ connected0 (arc g) y x) cs.
Proof.
  intros Hr. unfold strongly_connected_components. set (n := length g).
  destruct (first_pass g Hr) as (vis & st & E1 & Hd & Hst & Hinv). fold n in E1. rewrite E1. cbn [bind].
  destruct (transpose_ok g Hr) as (gr & E2 & L2 & A2). rewrite E2. cbn [bind].
  assert (Hrr : forall v w, arc gr v w -> v < length gr /\ w < length gr).
  { intros v w Hvw. apply A2 in Hvw. apply arc_range in Hvw; [lia|auto]. }
  assert (Hfl : forall a b, star (arc gr) a b <-> star (arc g) b a).
  { intros a b. split; apply star_flip; intros x y; apply A2. }
  set (body := fun '(visited, components) v => if mem v visited then Ok (visited, components) else
        do (visited', component) <- dfs n gr v (visited, []) ; Ok (visited', components ++ [component])).
  assert (G : forall rest done U cs, st = done ++ rest -> (forall x, In x done -> In x U) -> NoDup U ->
      (forall x, In x U -> x < n) -> (forall x y, In x U -> arc gr x y -> In y U) ->
      NoDup (concat cs) -> (forall x, In x (concat cs) <-> In x U) ->
      (forall c, In c cs -> c <> [] /\ forall x y, In x c -> In y c <-> both g x y) ->
      ForallOrdPairs (fun c d => forall x y, In x c -> In y d -> ~ star (arc g) y x) cs ->
      exists U' cs', foldM body rest (U, cs) = Ok (U', cs') /\ NoDup (concat cs') /\
        (forall x, In x (concat cs') <-> x < n) /\
        (forall c, In c cs' -> c <> [] /\ forall x y, In x c -> In y c <-> both g x y) /\
        ForallOrdPairs (fun c d => forall x y, In x c -> In y d -> ~ star (arc g) y x) cs').
  { induction rest as [|v rest IH]; intros done U cs Est Hdone HU Hb Hcl Nc Ic Cc Oc; cbn [foldM].
    - exists U, cs. split; [auto|]. split; [auto|]. split; [|auto]. intros x. rewrite Ic. split; [auto|].
      intros Hx. apply Hdone. rewrite app_nil_r in Est. rewrite <- Est. now apply Hst.
    - unfold body at 1. destruct (mem v U) eqn:Em.
      + apply mem_In in Em. cbn [bind]. apply (IH (done ++ [v])); auto.
        * rewrite <- app_assoc. auto.
        * intros x Hx. apply in_app_or in Hx as [Hx|[<-|[]]]; auto.
      + apply mem_not_In in Em.
        assert (Hv : v < n) by (apply Hst; rewrite Est; apply in_or_app; right; now left).
        assert (HclS : forall x y, In x U -> star (arc gr) x y -> In y U).
        { intros x y Hx Hs. apply clos_rt_rtn1 in Hs. induction Hs; eauto. }
        destruct (dfs_ok gr Hrr n v U []) as (U' & new & E3 & (F1 & F2 & F3 & F4 & F5 & F6) & Iv); rewrite ?L2; auto; [lia|].
        rewrite E3. cbn [bind app].
        assert (HclS' : forall x y, In x U' -> arc gr x y -> In y U').
        { intros x y Hx Hxy. apply F1 in Hx as [Hx|Hx]; [apply F1; left; eauto|eauto]. }
        assert (HclS2 : forall x y, In x U' -> star (arc gr) x y -> In y U').
        { intros x y Hx Hs. apply clos_rt_rtn1 in Hs. induction Hs; eauto. }
        assert (Hbv : forall x, In x new -> both g x v).
        { intros x Hx. destruct (F5 x Hx) as (Hlt & v' & <- & Hs). rewrite L2 in Hlt. apply Hfl in Hs.
          destruct (Hinv x v Hlt Hs) as (z & Hz & l & m & El & Hin).
          assert (Hzv : z = v).
          { destruct (in_dec Nat.eq_dec z done) as [Hzd|Hzd].
            - exfalso. apply (F4 x Hx). apply (HclS z x); [auto|]. apply Hfl. apply Hz.
            - rewrite Est in El. clear -El Hin Hzd Hd Est. rewrite Est in Hd. clear Est st.
              revert l El. induction done as [|d done IHd]; intros l El; cbn in *.
              + destruct l as [|l0 l]; cbn in El; [congruence|]. injection El as -> El. exfalso.
                inversion Hd as [|? ? X _]; subst. apply X. apply in_or_app. right. cbn. destruct Hin; auto.
              + destruct l as [|l0 l]; cbn in El; [injection El as <- _; exfalso; apply Hzd; now left|].
                injection El as _ El. inversion Hd; subst. eapply IHd; eauto. }
          subst z. apply both_sym. exact Hz. }
        apply (IH (done ++ [v])).
        * rewrite <- app_assoc. auto.
        * intros x Hx. apply F1. apply in_app_or in Hx as [Hx|[<-|[]]]; auto.
        * auto.
        * intros x Hx. apply F1 in Hx as [Hx|Hx]; [auto|]. unfold n; rewrite <- L2. now apply F5.
        * exact HclS'.
        * rewrite concat_app. cbn. rewrite app_nil_r. apply NoDup_app_disjoint; auto.
          intros x H1 H2. apply (F4 x H2). now apply Ic.
        * intros x. rewrite concat_app. cbn. rewrite app_nil_r, in_app_iff, Ic, F1. tauto.
        * intros c Hc. apply in_app_or in Hc as [Hc|[<-|[]]]; [now apply Cc|]. split; [intros ->; contradiction|].
          intros x y Hx. split.
          -- intros Hy. eapply both_trans; [apply Hbv; auto|]. apply both_sym. auto.
          -- intros [Hxy Hyx]. assert (Hy : In y U') by (apply (HclS2 x y); [apply F1; auto|now apply Hfl]).
             apply F1 in Hy as [Hy|Hy]; [|auto]. exfalso. apply (F4 x Hx), (HclS y x); [auto|now apply Hfl].
        * assert (Hnew : forall c, In c cs -> forall x y, In x c -> In y new -> ~ star (arc g) y x).
          { intros c Hc x y Hx Hy Hs. apply (F4 y Hy), (HclS x y); [apply Ic, in_concat; eauto|now apply Hfl]. }
          clear -Oc Hnew. induction Oc as [|c cs Hc Oc IHo]; cbn.
          -- repeat constructor.
          -- constructor.
             ++ apply Forall_app. split; [auto|]. constructor; [|auto]. apply Hnew. now left.
             ++ apply IHo. intros d Hdd. apply Hnew. now right. }
  destruct (G st [] [] []) as (U & cs & E3 & N3 & I3 & C3 & O3); auto; try (intros; cbn in *; tauto); try constructor.
  fold body. rewrite E3. cbn [bind]. exists cs. split; [auto|]. split; [auto|]. split; [auto|]. split.
  - intros c Hc. destruct (C3 c Hc) as [H1 H2]. split; [auto|]. intros x y Hx. rewrite (H2 x y Hx).
    unfold both, mutually. now rewrite !connected0_trans.
  - clear -O3. induction O3 as [|c cs Hc Oc IHo]; constructor; [|auto].
    eapply Forall_impl; [|exact Hc]. intros d Hcd x y Hx Hy. rewrite connected0_trans. auto.
Qed.
