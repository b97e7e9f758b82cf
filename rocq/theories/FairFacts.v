(** What is common to the outcomes of all mechanisms, and its consequences for the statistics. *)
From Verif Require Import QcTac Num ModelBase ModelHuang ModelMuda ModelP2P ModelMerge ModelMarket ModelStats ListFacts Spec SpecTrade SpecMuda SpecAlloc SpecStats
  TradeFacts AllocFacts CoverFacts LPFacts P2PTrades StatsFacts.

Lemma eq_le (a b : Qc) : a = b -> a <= b.
Proof. intros ->. apply Qcle_refl. Qed.
Definition weighted (f : Qc -> Qc) (s : bool) (d : df) (tl : list trans) : Qc :=
  qsumf (fun t => f (t_price t) * t_qty t) (filter (on_side s d) tl).
Definition nondecreasing (f : Qc -> Qc) : Prop := forall a b, a <= b -> f a <= f b.
Record Fair (d : df) (tl : list trans) : Prop := mkFair {
  fair_refer : refer d tl;
  fair_feasible : feasible d tl;
  fair_rational : forall t r, In t tl -> 0 < t_qty t -> In r d -> lbl r = t_bid t ->
                    if buying r then t_price t <= price r else price r <= t_price t;
  fair_dom : forall f, nondecreasing f -> weighted f false d tl <= weighted f true d tl }.

Lemma weighted_rows f s d tl : labels_unique d -> weighted f s d tl =
  qsumf (fun r => qsumf (fun t => f (t_price t) * t_qty t) (filter (fun t => Nat.eqb (t_bid t) (lbl r)) tl)) (filter (fun r => Bool.eqb (buying r) s) d).
Proof.
  intro Hu. unfold weighted. rewrite <- (join_side s (fun t => f (t_price t) * t_qty t) tl d Hu).
  apply (join_sum (fun r => Bool.eqb (buying r) s) (fun tr => f (t_price (fst tr)) * t_qty (fst tr))).
Qed.
Lemma weighted_opp f s d tl : weighted (fun x => - f x) s d tl = - weighted f s d tl.
Proof. unfold weighted. rewrite <- qsumf_opp. apply qsumf_ext. intros; ring. Qed.
Lemma weighted_one d tl : weighted (fun _ => 1) true d tl = bought d tl /\ weighted (fun _ => 1) false d tl = sold d tl.
Proof. split; apply qsumf_ext; intros; ring. Qed.

Section Fair.
  Variables (d : df) (tl : list trans).
  Hypothesis Hu : labels_unique d.
  Hypothesis F : Fair d tl.

  Lemma fair_balanced : bought d tl = sold d tl.
  Proof.
    destruct (weighted_one d tl) as [<- <-]. pose proof (fair_dom d tl F (fun _ => 1) (fun _ _ _ => Qcle_refl _)) as H1.
    pose proof (fair_dom d tl F (fun _ => - (1)) (fun _ _ _ => Qcle_refl _)) as H2.
    rewrite !(weighted_opp (fun _ => 1)) in H2. qlra.
  Qed.
  Lemma fair_money : money false d tl <= money true d tl.
  Proof. exact (fair_dom d tl F (fun x => x) (fun a b H => H)). Qed.

  Lemma gain_term r t : In r d -> In t tl -> t_bid t = lbl r -> 0 <= gain_at price (t_price t) r * t_qty t.
  Proof.
    intros Hr Ht E. destruct (fair_feasible d tl F) as [Q _]. specialize (Q t Ht).
    destruct (Qclt_le_dec 0 (t_qty t)) as [L|L].
    - pose proof (fair_rational d tl F t r Ht L Hr (eq_sym E)) as R. apply qmult_nonneg; [|exact Q].
      unfold gain_at. destruct (buying r); qlra.
    - assert (t_qty t = 0) as -> by qlra. rewrite Qcmult_0_r. apply Qcle_refl.
  Qed.
  Lemma fair_gain u : 0 <= user_gain price d u tl.
  Proof.
    unfold user_gain. apply qsumf_nonneg. intros r Hr. apply filter_In in Hr. apply qsumf_nonneg. intros t Ht. apply filter_In in Ht.
    destruct Ht as [Ht E]. apply Nat.eqb_eq in E. apply gain_term; tauto.
  Qed.

  Lemma row_part r (f : Qc -> Qc) : In r d -> (forall x, 0 <= f x /\ f x <= 1) ->
    qsumf (fun t => f (t_price t) * t_qty t) (filter (fun t => Nat.eqb (t_bid t) (lbl r)) tl) <= qty r.
  Proof.
    intros Hr Hf. destruct (fair_feasible d tl F) as [Q C]. eapply Qcle_trans; [|apply (C r Hr)]. unfold traded_by.
    apply qsumf_le. intros t Ht. apply filter_In in Ht. specialize (Q t (proj1 Ht)). destruct (Hf (t_price t)). qnra.
  Qed.
  Lemma row_none r (f : Qc -> Qc) : In r d ->
    (forall t, In t tl -> t_bid t = lbl r -> 0 < t_qty t -> f (t_price t) = 0) ->
    qsumf (fun t => f (t_price t) * t_qty t) (filter (fun t => Nat.eqb (t_bid t) (lbl r)) tl) = 0.
  Proof.
    intros Hr H. destruct (fair_feasible d tl F) as [Q _]. apply qsumf_zero. intros t Ht. apply filter_In in Ht. destruct Ht as [Ht E].
    apply Nat.eqb_eq in E. specialize (Q t Ht). destruct (Qclt_le_dec 0 (t_qty t)) as [L|L].
    - rewrite H by assumption. ring.
    - assert (t_qty t = 0) as -> by qlra. ring.
  Qed.

  Lemma fair_volume p : qty_nonneg d -> bought d tl <= wanted_above d price p + offered_at d price p.
  Proof.
    intro Hq.
    set (hi := fun x => if qltb p x then 1 else 0). set (lo := fun x => if qleb x p then 1 else 0).
    assert (E : bought d tl = weighted hi true d tl + weighted lo true d tl).
    { unfold bought, weighted. rewrite <- qsumf_plus. apply qsumf_ext. intros t _. unfold hi, lo.
      destruct (qlt_spec p (t_price t)), (qle_spec (t_price t) p); try ring; exfalso; qlra. }
    assert (D : weighted lo true d tl <= weighted lo false d tl).
    { assert (N : nondecreasing (fun x => - lo x)).
      { intros a b Hab. unfold lo. destruct (qle_spec a p), (qle_spec b p); qlra. }
      pose proof (fair_dom d tl F _ N) as D. rewrite !weighted_opp in D. qlra. }
    assert (A : weighted hi true d tl <= wanted_above d price p).
    { rewrite weighted_rows by exact Hu. unfold wanted_above, all_b.
      replace (filter (fun r => Bool.eqb (buying r) true) d) with (filter buying d) by (apply filter_ext; intro r; destruct (buying r); reflexivity).
      rewrite qsumf_filter with (p := fun r => qltb p (price r)). apply qsumf_le. intros r Hr. apply filter_In in Hr. destruct Hr as [Hr B].
      destruct (qlt_spec p (price r)) as [L|L].
      - apply row_part; [exact Hr|]. intro x. unfold hi. destruct (qltb p x); split; qlra.
      - rewrite row_none; [qlra | exact Hr|]. intros t Ht Et Q. pose proof (fair_rational d tl F t r Ht Q Hr (eq_sym Et)) as R. rewrite B in R.
        unfold hi. destruct (qlt_spec p (t_price t)); [exfalso; qlra | reflexivity]. }
    assert (C : weighted lo false d tl <= offered_at d price p).
    { rewrite weighted_rows by exact Hu. unfold offered_at, all_s.
      replace (filter (fun r => Bool.eqb (buying r) false) d) with (filter (fun r => negb (buying r)) d) by (apply filter_ext; intro r; destruct (buying r); reflexivity).
      rewrite qsumf_filter with (p := fun r => qleb (price r) p). apply qsumf_le. intros r Hr. apply filter_In in Hr. destruct Hr as [Hr B]. apply negb_true_iff in B.
      destruct (qle_spec (price r) p) as [L|L].
      - apply row_part; [exact Hr|]. intro x. unfold lo. destruct (qleb x p); split; qlra.
      - rewrite row_none; [qlra | exact Hr|]. intros t Ht Et Q. pose proof (fair_rational d tl F t r Ht Q Hr (eq_sym Et)) as R. rewrite B in R.
        unfold lo. destruct (qle_spec (t_price t) p); [exfalso; qlra | reflexivity]. }
    rewrite E. qlra.
  Qed.

  (** the surplus of what is traded is at most the optimum *)
  Lemma fair_surplus v p : traded_surplus v d tl <= surplus d v p.
  Proof.
    destruct (fair_feasible d tl F) as [Q C].
    assert (T0 : forall r, In r d -> 0 <= traded_by (lbl r) tl).
    { intros r Hr. apply qsumf_nonneg. intros t Ht. apply filter_In in Ht. apply Q. tauto. }
    assert (Bal : qsumf (fun b => traded_by (lbl b) tl) (all_b d) = qsumf (fun s => traded_by (lbl s) tl) (all_s d)).
    { rewrite <- bought_by, <- sold_by by (try exact Hu; apply (fair_refer d tl F)). apply fair_balanced. }
    pose proof (welfare_le_surplus d v _ p (shared_ok d (fun i => traded_by i tl) T0 Bal C)) as W.
    pose proof (shared_welfare d (fun i => traded_by i tl) T0 Bal v) as W'. cbv beta zeta in W, W'. rewrite W' in W. eapply Qcle_trans; [|exact W].
    unfold traded_surplus, all_b, all_s. rewrite !qsumf_filter, <- qsumf_minus. apply qsumf_le. intros r _. destruct (buying r); cbn [negb]; apply eq_le; ring.
  Qed.
End Fair.
