(** Facts about the specifications of SpecTrade.v. *)
From Verif Require Import QcTac Num ModelBase ModelCurves ModelHuang ListFacts Spec SpecTrade.

Lemma on_side_in s d t r : labels_unique d -> In r d -> lbl r = t_bid t -> on_side s d t = Bool.eqb (buying r) s.
Proof.
  intros Hu Hr E. unfold on_side. destruct (Bool.eqb (buying r) s) eqn:Eb.
  - apply existsb_exists. exists r. split; [exact Hr|]. rewrite E, Nat.eqb_refl, Eb. reflexivity.
  - destruct (existsb _ d) eqn:Ex; [|reflexivity]. apply existsb_exists in Ex.
    destruct Ex as (r' & Hr' & H). apply andb_true_iff in H. destruct H as [H1 H2]. apply Nat.eqb_eq in H1.
    assert (r' = r) by (apply (NoDup_map_in lbl d); auto; congruence). subst. congruence.
Qed.

Lemma bought_app d l1 l2 : bought d (l1 ++ l2) = bought d l1 + bought d l2.
Proof. unfold bought. rewrite filter_app. apply qsumf_app. Qed.
Lemma sold_app d l1 l2 : sold d (l1 ++ l2) = sold d l1 + sold d l2.
Proof. unfold sold. rewrite filter_app. apply qsumf_app. Qed.
Lemma traded_by_app i l1 l2 : traded_by i (l1 ++ l2) = traded_by i l1 + traded_by i l2.
Proof. unfold traded_by. rewrite filter_app. apply qsumf_app. Qed.
Lemma traded_by_cons i t l : traded_by i (t :: l) = (if Nat.eqb (t_bid t) i then t_qty t else 0) + traded_by i l.
Proof. unfold traded_by. simpl. destruct (Nat.eqb (t_bid t) i); [rewrite qsumf_cons; reflexivity | ring]. Qed.

(** all transactions of the list are for bids of side [s] *)
Definition all_side (s : bool) (d : df) (tl : list trans) : Prop :=
  forall t, In t tl -> exists r, In r d /\ lbl r = t_bid t /\ buying r = s.

Lemma side_sums s d tl : labels_unique d -> all_side s d tl ->
  bought d tl = (if s then qsumf t_qty tl else 0) /\ sold d tl = (if s then 0 else qsumf t_qty tl).
Proof.
  intros Hu H. unfold bought, sold.
  assert (A : forall s', filter (on_side s' d) tl = if Bool.eqb s s' then tl else []).
  { intro s'. destruct (Bool.eqb s s') eqn:E.
    - apply filter_all. intros t Ht. destruct (H t Ht) as (r & Hr & El & Eb).
      rewrite (on_side_in s' d t r Hu Hr El), Eb. exact E.
    - apply filter_none. intros t Ht. destruct (H t Ht) as (r & Hr & El & Eb).
      rewrite (on_side_in s' d t r Hu Hr El), Eb. exact E. }
  rewrite !A. destruct s; simpl; split; reflexivity.
Qed.

Lemma traded_by_absent i tl : ~ In i (map t_bid tl) -> traded_by i tl = 0.
Proof.
  intro H. unfold traded_by. rewrite filter_none; [reflexivity|]. intros t Ht.
  apply Nat.eqb_neq. intro E. apply H. rewrite <- E. apply in_map, Ht.
Qed.
Lemma traded_by_once tl t : once tl -> In t tl -> traded_by (t_bid t) tl = t_qty t.
Proof.
  unfold once. induction tl as [|a tl IH]; [contradiction|]. simpl. intros H. inversion_clear H as [|? ? H1 H2].
  rewrite traded_by_cons. intros [->|Ht].
  - rewrite Nat.eqb_refl, traded_by_absent by exact H1. ring.
  - destruct (Nat.eqb (t_bid a) (t_bid t)) eqn:E.
    + apply Nat.eqb_eq in E. exfalso. apply H1. rewrite E. apply in_map, Ht.
    + rewrite IH by assumption. ring.
Qed.
Lemma feasible_once d tl : labels_unique d -> qty_nonneg d -> once tl ->
  (forall t r, In t tl -> In r d -> lbl r = t_bid t -> 0 <= t_qty t /\ t_qty t <= qty r) ->
  refer d tl -> feasible d tl.
Proof.
  intros Hu Hq Ho Hb Hr. split.
  - intros t Ht. destruct (Hr t Ht) as (r & H1 & H2). apply (Hb t r Ht H1 H2).
  - intros r Hd. destruct (in_dec Nat.eq_dec (lbl r) (map t_bid tl)) as [I|I].
    + apply in_map_iff in I. destruct I as (t & E & Ht). rewrite <- E, traded_by_once by assumption.
      apply (Hb t r Ht Hd). auto.
    + rewrite traded_by_absent by exact I. apply Hq, Hd.
Qed.

(** ** [emit] *)
Lemma emit_bids X qs p : length qs = length X -> map t_bid (emit X qs p) = map lbl X.
Proof.
  unfold emit. rewrite map_map. simpl. revert qs; induction X as [|r X IH]; intros [|q qs] H; simpl in *; try discriminate; [reflexivity|].
  f_equal. apply IH. lia.
Qed.
Lemma emit_sum X qs p : length qs = length X -> qsumf t_qty (emit X qs p) = qsum qs.
Proof.
  unfold emit. rewrite qsumf_map. simpl. revert qs; induction X as [|r X IH]; intros [|q qs] H; simpl in *; try discriminate; [reflexivity|].
  rewrite qsumf_cons. simpl. rewrite IH by lia. reflexivity.
Qed.
Lemma emit_in X qs p t : In t (emit X qs p) ->
  exists r q, In (r, q) (combine X qs) /\ In r X /\ t = mkTrans (lbl r) q p (-1) false.
Proof.
  unfold emit. intro H. apply in_map_iff in H. destruct H as ([r q] & <- & H). simpl.
  exists r, q. split; [exact H|]. split; [eapply in_combine_l; eauto | reflexivity].
Qed.
