(** Lemmas about the vocabulary of Spec/Logs.v *)
From Coq Require Import Permutation.
From Verif.Model Require Import Base.
From Verif.Spec Require Import Lists Logs.
From Verif.Lib Require Import ListLib.

Lemma selection_nil {X} (P : nat -> X -> Prop) : selection [] [] P.
Proof.
  exists []. split; [constructor|]. split; [reflexivity|].
  intros j; split; [intros []|]. intros (x & E & _). destruct j; discriminate.
Qed.

Lemma selection_snoc {X} (l r : list X) (P : nat -> X -> Prop) x :
  selection l r P ->
  (P (length l) x -> selection (l ++ [x]) (r ++ [x]) P) /\
  (~ P (length l) x -> selection (l ++ [x]) r P).
Proof.
  intros (js & Ha & Hm & Hj).
  assert (Hlt : forall j, In j js -> j < length l).
  { intros j Hin. apply Hj in Hin. destruct Hin as (y & E & _). eapply nth_error_Some_lt; eauto. }
  assert (Hsame : map (nth_error l) js = map (nth_error (l ++ [x])) js).
  { apply map_ext_in. intros j Hin. rewrite nth_error_app1; auto. }
  assert (Hold : forall j y, j < length l -> nth_error (l ++ [x]) j = Some y <-> nth_error l j = Some y).
  { intros j y Hl. rewrite nth_error_app1 by auto. tauto. }
  split; intros HP.
  - exists (js ++ [length l]). split; [|split].
    + apply ascending_app. split; [auto|]. split; [constructor|].
      intros a b Ha' [<-|[]]; auto.
    + rewrite !map_app, Hm, Hsame; cbn [map]. rewrite nth_error_app2, Nat.sub_diag by lia. reflexivity.
    + intros j. rewrite in_app_iff. split.
      * intros [Hin|[<-|[]]].
        -- destruct (proj1 (Hj j) Hin) as (y & E & Hp). exists y. split; auto. apply Hold; auto.
        -- exists x. rewrite nth_error_app2, Nat.sub_diag by lia. auto.
      * intros (y & E & Hp). pose proof (nth_error_Some_lt _ _ _ E) as Hl. rewrite app_length in Hl; cbn in Hl.
        destruct (Nat.eq_dec j (length l)) as [->|Hne]; [right; left; auto|].
        left. apply Hj. exists y. split; auto. apply Hold; auto; lia.
  - exists js. split; [auto|]. split; [congruence|]. intros j. split.
    + intros Hin. destruct (proj1 (Hj j) Hin) as (y & E & Hp). exists y. split; auto. apply Hold; auto.
    + intros (y & E & Hp). pose proof (nth_error_Some_lt _ _ _ E) as Hl. rewrite app_length in Hl; cbn in Hl.
      destruct (Nat.eq_dec j (length l)) as [->|Hne].
      * rewrite nth_error_app2, Nat.sub_diag in E by lia. injection E as <-. contradiction.
      * apply Hj. exists y. split; auto. apply Hold; auto; lia.
Qed.

Lemma selection_filter {X} (f : X -> bool) (l : list X) :
  selection l (filter f l) (fun _ x => f x = true).
Proof.
  induction l as [|x l IH] using rev_ind; [apply selection_nil|].
  rewrite filter_app; cbn [filter]. destruct (selection_snoc l _ _ x IH) as [H1 H2].
  destruct (f x) eqn:E; auto. rewrite app_nil_r. apply H2. congruence.
Qed.

Lemma selection_iff {X} (l r : list X) (P Q : nat -> X -> Prop) :
  (forall j x, nth_error l j = Some x -> P j x <-> Q j x) -> selection l r P -> selection l r Q.
Proof.
  intros HPQ (js & Ha & Hm & Hj). exists js. split; [auto|]. split; [auto|].
  intros j. rewrite Hj. split; intros (x & E & Hp); exists x; split; auto; apply (HPQ j x E); auto.
Qed.

(** a selection is determined by the positions *)
Lemma selection_unique {X} (l r r' : list X) P :
  selection l r P -> selection l r' P -> r = r'.
Proof.
  intros (js & Ha & Hm & Hj) (js' & Ha' & Hm' & Hj').
  assert (js = js') as <-.
  { apply ascending_ext; auto. intros j. rewrite Hj, Hj'. tauto. }
  rewrite <- Hm' in Hm. clear - Hm. revert r' Hm; induction r as [|x r IH]; intros [|y r'] E; try discriminate; auto.
  cbn in E. injection E as -> E. f_equal. auto.
Qed.

Lemma selection_all {X} (l : list X) (P : nat -> X -> Prop) :
  (forall j x, nth_error l j = Some x -> P j x) -> selection l l P.
Proof.
  induction l as [|x l IH] using rev_ind; intros HP; [apply selection_nil|].
  refine (proj1 (selection_snoc l l P x _) _).
  - apply IH. intros j y E. apply HP. rewrite nth_error_app1; auto. eapply nth_error_Some_lt; eauto.
  - apply HP. rewrite nth_error_app2, Nat.sub_diag by lia. auto.
Qed.

Lemma has_size_ext {X} (P Q : X -> Prop) n : (forall x, P x <-> Q x) -> has_size P n -> has_size Q n.
Proof.
  intros HPQ (l & Hn & Hin & Hl). exists l. split; [auto|]. split; [|auto]. intros x. rewrite Hin. auto.
Qed.
Lemma has_size_unique {X} (P : X -> Prop) n m : has_size P n -> has_size P m -> n = m.
Proof.
  intros (l & Hn & Hin & <-) (l' & Hn' & Hin' & <-).
  apply Permutation_length, NoDup_Permutation; auto. intros x. rewrite Hin, Hin'. tauto.
Qed.
Lemma has_size_empty {X} (P : X -> Prop) : (forall x, ~ P x) -> has_size P 0.
Proof. intros Hp. exists []. split; [constructor|]. split; [|auto]. intros x; split; [intros []|]. intros Hx. exfalso; eapply Hp; eauto. Qed.
Lemma NoDup_app_disjoint {X} (l m : list X) :
  NoDup l -> NoDup m -> (forall x, In x l -> In x m -> False) -> NoDup (l ++ m).
Proof.
  induction l as [|x l IH]; cbn; intros Hl Hm Hd; auto.
  inversion Hl; subst. constructor.
  - rewrite in_app_iff. intros [|]; [auto|]. eapply Hd; eauto.
  - apply IH; auto. intros y ? ?. eapply Hd; eauto.
Qed.
Lemma has_size_or {X} (P Q : X -> Prop) n m :
  has_size P n -> has_size Q m -> (forall x, P x -> Q x -> False) ->
  has_size (fun x => P x \/ Q x) (n + m).
Proof.
  intros (l & Hn & Hin & Hl) (l' & Hn' & Hin' & Hl') Hd. exists (l ++ l').
  split; [|split].
  - apply NoDup_app_disjoint; auto. intros x ? ?. apply (Hd x); [apply Hin|apply Hin']; auto.
  - intros x. rewrite in_app_iff, Hin, Hin'. tauto.
  - rewrite app_length. lia.
Qed.
Lemma has_size_image {X Y} (P : X -> Prop) (Q : Y -> Prop) (f : X -> Y) n :
  has_size P n -> (forall x x', P x -> P x' -> f x = f x' -> x = x') ->
  (forall y, Q y <-> exists x, P x /\ f x = y) -> has_size Q n.
Proof.
  intros (l & Hn & Hin & Hl) Hinj HQ. exists (map f l). split; [|split].
  - clear Hl HQ. assert (Hsub : forall x, In x l -> P x) by (intros; apply Hin; auto). clear Hin.
    induction l as [|x l IH]; cbn; constructor.
    + intros Hx. apply in_map_iff in Hx. destruct Hx as (x' & E & Hx').
      inversion Hn; subst. assert (x' = x) by (apply Hinj; auto; apply Hsub; cbn; auto). congruence.
    + inversion Hn; subst. apply IH; auto. intros; apply Hsub; cbn; auto.
  - intros y. rewrite in_map_iff, HQ. split; intros (x & E & Hx); exists x; split; auto; apply Hin; auto.
  - rewrite map_length. auto.
Qed.
Lemma has_size_nested {T Y} (l : list T) (P : T -> Y -> Prop) (sz : T -> nat) :
  (forall t, In t l -> has_size (P t) (sz t)) ->
  has_size (fun '(k, i) => exists t, nth_error l k = Some t /\ P t i) (list_sum (map sz l)).
Proof.
  induction l as [|t l IH]; intros Hl.
  - apply has_size_empty. intros [[|k] i] (t & E & _); discriminate.
  - change (list_sum (map sz (t :: l))) with (sz t + list_sum (map sz l)).
    apply has_size_ext with (P := fun x => (exists i, P t i /\ (0, i) = x) \/
        (exists '(k, i), (exists u, nth_error l k = Some u /\ P u i) /\ (S k, i) = x)).
    + intros [k i]. split.
      * intros [(j & Hj & E)|([k' j] & (u & E & Hu) & E')].
        -- injection E as <- <-. exists t. auto.
        -- injection E' as <- <-. exists u. auto.
      * intros (u & E & Hu). destruct k as [|k]; cbn in E.
        -- injection E as ->. left. eauto.
        -- right. exists (k, i). eauto.
    + apply has_size_or.
      * eapply has_size_image with (f := fun i => (0, i)); [apply Hl; now left| |].
        -- intros x x' _ _ E. now injection E.
        -- intros y. split; intros (i & Hi & E); eauto.
      * eapply has_size_image with (f := fun '(k, i) => (S k, i)); [apply IH; intros; apply Hl; now right| |].
        -- intros [k i] [k' i'] _ _ E. now injection E as -> ->.
        -- intros y. split; intros ([k i] & Hi & E); exists (k, i); auto.
      * intros x (i & _ & <-) ([k j] & _ & E). discriminate.
Qed.
