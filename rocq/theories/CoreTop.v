(** Envy and blocking groups in the Huang auction and in MUDA. *)
From Verif Require Import QcTac Num NumFacts ModelBase ModelCurves ModelHuang ModelMuda ListFacts Spec SpecTrade SpecMuda SpecHuang SpecAlloc
  SpecStats SpecCore TradeFacts StoreFacts P2PTrades AllocFacts HuangFacts HuangTop HuangTruth HuangLoss MudaTop CoreFacts MudaFacts.

Lemma own_gain_absent tl r : ~ In (lbl r) (map t_bid tl) -> own_gain tl r = 0.
Proof.
  intro H. unfold own_gain. rewrite filter_none; [reflexivity|]. intros t Ht. apply Nat.eqb_neq. intro E. apply H. rewrite <- E. apply in_map, Ht.
Qed.
Lemma no_gain_no_envy g x q : g <= 0 -> 0 <= x -> 0 <= q -> g * qmin q x <= 0.
Proof.
  intros G X Q. pose proof (qmult_nonneg (- g) (qmin q x) ltac:(qlra) ltac:(apply qmin_glb; assumption)).
  replace (g * qmin q x) with (- (- g * qmin q x)) by ring. qlra.
Qed.

Section Huang.
  Variables (S : sorter) (d : df).
  Hypothesis Hq : qty_nonneg d.
  Hypothesis Hp : price_nonneg d.
  Hypothesis Hu : labels_unique d.
  Hypothesis Hd : prices_distinct d.
  Variables (tm : transmgr) (ps pb q : Qc).
  Hypothesis E : huang_auction S d = Ok (tm, XHuang ps pb q).

  Lemma huang_gain_at r : In r d -> own_gain (tm_trans tm) r = gain (if buying r then pb else ps) r * traded_by (lbl r) (tm_trans tm).
  Proof.
    intro Hr. apply own_gain_at. intros t Ht El. destruct (huang_rational S d tm _ Hq Hp Hu E) as (_ & _ & R).
    destruct (R ps pb q eq_refl) as [_ P]. apply (P t r Ht Hr). symmetry. exact El.
  Qed.
  Lemma huang_no_envy r r' t : In r d -> In r' d -> buying r' = buying r -> qty r' <= qty r -> In t (tm_trans tm) -> t_bid t = lbl r' ->
    ~ envies (tm_trans tm) r t.
  Proof.
    intros Hr Hr' Eb Lq Ht El V. unfold envies in V. rewrite (huang_gain_at r Hr) in V.
    destruct (huang_rational S d tm _ Hq Hp Hu E) as (_ & _ & R). destruct (R ps pb q eq_refl) as [_ P].
    rewrite (P t r' Ht Hr') in V by (symmetry; exact El). rewrite Eb in V.
    destruct (huang_summary S d Hq Hp Hu tm _ E) as (_ & Oc & _ & Fe & _). pose proof (proj1 Fe t Ht) as T0.
    pose proof (Hq r Hr) as Q0. apply (Qclt_not_le _ _ V).
    destruct (huang_traders S d Hq Hp Hu tm ps pb q Hd E) as (_ & _ & N & Y). cbv zeta in N, Y.
    assert (W : In (lbl r) (map t_bid (tm_trans tm)) <-> wins ps pb r = true).
    { set (bb := filter (fun r0 => buying r0 && qltb pb (price r0)) d) in *. set (bs := filter (fun r0 => negb (buying r0) && qltb (price r0) ps) d) in *.
      assert (NE : tm_trans tm <> []) by (intro X; rewrite X in Ht; destruct Ht).
      destruct (Y (fun X => NE (N (or_introl X))) (fun X => NE (N (or_intror X)))) as [Y1 _]. rewrite (Y1 r Hr). unfold bb, bs, wins. rewrite !filter_In.
      destruct (buying r); cbn [andb negb]; intuition discriminate. }
    destruct (wins ps pb r) eqn:Wr.
    - apply proj2 in W. specialize (W eq_refl). apply in_map_iff in W. destruct W as (t1 & E1 & H1).
      destruct (huang_rationing S d Hq Hp tm _ Hu E) as (tb & ts & _ & _ & _ & X).
      rewrite <- E1, (traded_by_once (tm_trans tm) t1 Oc H1). apply qmult_le_l.
      + unfold wins in Wr. rewrite gain_sides. destruct (buying r); apply qltb_lt in Wr; qlra.
      + apply (Qcle_trans _ (t_qty t)); [apply qmin_r|]. rewrite (X t r' Ht Hr'), (X t1 r H1 Hr), Eb by congruence.
        destruct (qmax_case 0 (qty r' - (if buying r then tb else ts))) as [[M ?]|[M ?]]; rewrite M; [apply qmax_l|].
        apply (Qcle_trans _ (qty r - (if buying r then tb else ts))); [qlra | apply qmax_r].
    - assert (A : ~ In (lbl r) (map t_bid (tm_trans tm))) by (intro I; apply W in I; discriminate I). rewrite (traded_by_absent _ _ A), Qcmult_0_r.
      apply no_gain_no_envy; [|exact T0 | exact Q0]. unfold wins in Wr. rewrite gain_sides. destruct (buying r); apply qltb_ge in Wr; qlra.
  Qed.
  (** the two bids that set the prices would gain by trading with each other *)
  Lemma huang_blocked : (forall r, In r d -> 0 < qty r) -> exists b s y, In b d /\ In s d /\ buying b = true /\ buying s = false /\ price b = pb /\ price s = ps /\
    own_gain (tm_trans tm) b = 0 /\ own_gain (tm_trans tm) s = 0 /\ blocks (tm_trans tm) [b; s] y.
  Proof.
    intro Q. destruct (huang_traders S d Hq Hp Hu tm ps pb q Hd E) as ((b & Hb & Bb & Pb & Nb) & (s & Hs & Bs & Ps & Ns) & _).
    destruct (huang_rational S d tm _ Hq Hp Hu E) as (_ & _ & R). destruct (R ps pb q eq_refl) as [L _].
    exists b, s, (fun _ => qmin (qty b) (qty s)). rewrite (own_gain_absent _ _ Nb), (own_gain_absent _ _ Ns).
    repeat (split; [solve [assumption | reflexivity]|]). pose proof (Q b Hb). pose proof (Q s Hs).
    assert (M : 0 < qmin (qty b) (qty s)) by (destruct (qmin_case (qty b) (qty s)) as [[X _]|[X _]]; rewrite X; assumption).
    split; [|split].
    - intros r [<-|[<-|[]]]; (split; [apply Qclt_le_weak, M|]); [apply qmin_l | apply qmin_r].
    - cbn [filter]. rewrite Bb, Bs. cbn [negb]. rewrite !qsumf_cons, !qsumf_nil. reflexivity.
    - rewrite !qsumf_cons, !qsumf_nil, (own_gain_absent _ _ Nb), (own_gain_absent _ _ Ns). unfold adds. rewrite Bb, Bs, Pb, Ps.
      pose proof (qmult_pos (pb - ps) _ ltac:(qlra) M) as Z. revert Z. generalize (qmin (qty b) (qty s)). intros m Z.
      replace (pb * m + (- (ps * m) + 0)) with ((pb - ps) * m) by ring. qlra.
  Qed.
End Huang.

Section Muda.
  Variables (S : sorter) (d : df) (fl : list bool) (tm : transmgr) (ex : extra).
  Hypothesis Hq : qty_nonneg d.
  Hypothesis Hu : labels_unique d.
  Hypothesis E : muda S d fl = Ok (tm, ex).
  Variables (h : df) (q : Qc).
  Hypothesis H : half_of ex d h (Fin q).

  Lemma half_in r : In r h -> In r d.
  Proof. destruct ex; cbn [half_of] in H; try contradiction. intro Hr. destruct H as [[-> _]|[-> _]]; apply rows_in_In in Hr; tauto. Qed.
  Lemma half_price t r : In t (tm_trans tm) -> In r h -> t_bid t = lbl r -> t_price t = q.
  Proof.
    intros Ht Hr El. destruct (top_safe S d fl tm ex Hq Hu E) as (_ & _ & _ & _ & _ & P). destruct (P h (Fin q) H) as [_ P'].
    specialize (P' t r Ht Hr (eq_sym El)). congruence.
  Qed.
  Lemma half_gain r : In r h -> own_gain (tm_trans tm) r = gain q r * traded_by (lbl r) (tm_trans tm).
  Proof. intro Hr. apply own_gain_at. intros t Ht El. exact (half_price t r Ht Hr El). Qed.
  Lemma half_range r : In r h -> 0 <= traded_by (lbl r) (tm_trans tm) /\ traded_by (lbl r) (tm_trans tm) <= qty r.
  Proof.
    intro Hr. destruct (top_safe S d fl tm ex Hq Hu E) as (_ & _ & Fe & _). apply (traded_range d); [exact Fe | apply half_in, Hr].
  Qed.
  Lemma half_loser r : In r h -> gain q r < 0 -> traded_by (lbl r) (tm_trans tm) = 0.
  Proof.
    intros Hr G. destruct (top_safe S d fl tm ex Hq Hu E) as (_ & _ & _ & Ra & _). apply traded_by_absent. intro I.
    apply in_map_iff in I. destruct I as (t & El & Ht). pose proof (half_price t r Ht Hr El) as Pq.
    pose proof (Ra t r Ht (half_in r Hr) (eq_sym El)) as X. rewrite gain_sides in G. destruct (buying r); rewrite Pq in X; qlra.
  Qed.
  Lemma muda_no_envy r r' t : In r h -> In r' h -> In t (tm_trans tm) -> t_bid t = lbl r' ->
    (buying r' = buying r /\ gain q r' < gain q r) \/ buying r = negb (long_side h q) -> ~ envies (tm_trans tm) r t.
  Proof.
    intros Hr Hr' Ht El C V. unfold envies in V. rewrite (half_gain r Hr), (half_price t r' Ht Hr' El) in V. apply (Qclt_not_le _ _ V). clear V.
    destruct (top_safe S d fl tm ex Hq Hu E) as (_ & Oc & Fe & _). pose proof (proj1 Fe t Ht) as T0. pose proof (Hq r (half_in r Hr)) as Q0.
    destruct (half_range r Hr) as [R0 R1].
    destruct (qlt_spec (gain q r) 0) as [G|G].
    { rewrite (half_loser r Hr G), Qcmult_0_r. apply no_gain_no_envy; [apply Qclt_le_weak, G | exact T0 | exact Q0]. }
    destruct (top_priority S d fl tm ex Hq Hu E h q H) as (P1 & P2 & _). destruct C as [[Eb Lg]|Sh].
    - destruct (qlt_spec (traded_by (lbl r) (tm_trans tm)) (qty r)) as [L|L].
      + pose proof (P1 r r' Hr Hr' (eq_sym Eb) Lg L) as Z. rewrite <- El, (traded_by_once (tm_trans tm) t Oc Ht) in Z. rewrite Z.
        apply qmult_le_l; [exact G|]. apply (Qcle_trans _ 0); [apply qmin_r | exact R0].
      + apply qmult_le_l; [exact G|]. apply (Qcle_trans _ (qty r)); [apply qmin_l | exact L].
    - rewrite (P2 r Hr Sh G). apply qmult_le_l; [exact G | apply qmin_l].
  Qed.
End Muda.
