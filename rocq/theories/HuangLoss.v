(** How much welfare the Huang auction loses. *)
From Verif Require Import QcTac Num ModelBase ModelCurves ModelHuang Spec SpecTrade SpecMuda SpecStats SpecAlloc SpecHuang
  ListFacts CurveFacts TradeFacts P2PTrades AllocFacts HuangFacts HuangTop HuangTruth UniformTop.

Lemma clearing_between d p ps pb c : qty_nonneg d -> Marginal d ps pb c -> clearing d price p -> ps <= p /\ p <= pb.
Proof.
  intros Hq M K. destruct (clearing_quantity d p ps pb c Hq M K) as (D1 & D2 & D3 & D4).
  destruct M as (C0 & L & E1 & E2 & E3 & E4 & _).
  split; apply Qcnot_lt_le; intro G.
  - pose proof (supply_mono d p ps Hq G). qlra.
  - pose proof (demand_mono d pb p Hq G). qlra.
Qed.

(** one side: [t] is traded, [h] gained per unit at a common price *)
Section Side.
  Variables (l : df) (t h : row -> Qc).
  Hypothesis Ht : forall r, In r l -> 0 <= t r /\ t r <= qty r.
  Let above := qsumf (fun r => if qltb 0 (h r) then qty r else 0) l.

  Lemma side_loss hi : (forall r, In r l -> h r <= hi) -> (forall r, In r l -> h r <= 0 -> t r = 0) ->
    qsumf (fun r => qty r * qmax 0 (h r)) l <= qsumf (fun r => h r * t r) l + (above - qsumf t l) * hi.
  Proof.
    intros Hh H0. unfold above. rewrite <- qsumf_minus, <- qsumf_scale_r, <- qsumf_plus. apply qsumf_le. intros r Hr.
    destruct (Ht r Hr) as [T1 T2]. specialize (Hh r Hr). specialize (H0 r Hr).
    destruct (qlt_spec 0 (h r)) as [G|G].
    - destruct (qmax_case 0 (h r)) as [[E ?]|[E ?]]; [exfalso; qlra|]. rewrite E.
      assert (0 <= (qty r - t r) * (hi - h r)) by (apply qmult_nonneg; qlra). qnra.
    - destruct (qmax_case 0 (h r)) as [[E ?]|[E ?]]; rewrite E, H0 by qlra; [|assert (h r = 0) as -> by qlra]; qnra.
  Qed.

  Lemma side_ratio (win : row -> bool) g c : 0 <= g -> (forall r, In r l -> t r = if win r then qty r else 0) ->
    (forall r, In r l -> 0 <= qty r) -> (forall r, In r l -> if win r then g <= h r else h r <= g) -> above <= c -> qsumf t l <= c ->
    qsumf t l * qsumf (fun r => qty r * qmax 0 (h r)) l <= c * qsumf (fun r => h r * t r) l.
  Proof.
    intros Hg Hw Hq Hh Ha Hc. set (T := qsumf t l) in *. set (W := qsumf (fun r => h r * t r) l) in *.
    assert (T0 : 0 <= T) by (apply qsumf_nonneg; intros r Hr; apply Ht, Hr).
    assert (A : qsumf (fun r => qty r * qmax 0 (h r)) l <= W + (above - T) * g).
    { unfold above, W, T. rewrite <- qsumf_minus, <- qsumf_scale_r, <- qsumf_plus. apply qsumf_le. intros r Hr.
      specialize (Hw r Hr). specialize (Hq r Hr). specialize (Hh r Hr). rewrite Hw.
      destruct (win r); destruct (qlt_spec 0 (h r)) as [G|G]; destruct (qmax_case 0 (h r)) as [[E ?]|[E ?]]; rewrite E; try (exfalso; qlra).
      - qnra.
      - assert (g = 0) as -> by qlra. qnra.
      - assert (g = 0) as -> by qlra. qnra.
      - assert (0 <= qty r * (g - h r)) by (apply qmult_nonneg; qlra). qnra.
      - assert (0 <= qty r * g) by (apply qmult_nonneg; qlra). qnra.
      - assert (h r = 0) as -> by qlra. qnra. }
    assert (B : T * g <= W).
    { unfold T, W. rewrite <- qsumf_scale_r. apply qsumf_le. intros r Hr. specialize (Hw r Hr). specialize (Hq r Hr). specialize (Hh r Hr). rewrite Hw.
      destruct (win r); [assert (0 <= qty r * (h r - g)) by (apply qmult_nonneg; qlra); qnra | qnra]. }
    assert (C1 : 0 <= T * (W + (above - T) * g - qsumf (fun r => qty r * qmax 0 (h r)) l)) by (apply qmult_nonneg; qlra).
    assert (C2 : 0 <= (c - above) * (T * g)) by (apply qmult_nonneg; [qlra | apply qmult_nonneg; assumption]).
    assert (C3 : 0 <= (c - T) * (W - T * g)) by (apply qmult_nonneg; qlra).
    qnra.
  Qed.
End Side.

Lemma balanced_surplus d tl p : labels_unique d -> refer d tl -> bought d tl = sold d tl ->
  traded_surplus price d tl = qsumf (fun r => (price r - p) * traded_by (lbl r) tl) (all_b d) + qsumf (fun r => (p - price r) * traded_by (lbl r) tl) (all_s d).
Proof.
  intros Hu Rf Bal. rewrite bought_by, sold_by in Bal by assumption.
  unfold traded_surplus. rewrite (qsumf_filter_split _ buying d). fold (all_b d) (all_s d).
  rewrite (qsumf_ext _ (fun r => (price r - p) * traded_by (lbl r) tl + p * traded_by (lbl r) tl) (all_b d)).
  2:{ intros r Hr. apply filter_In in Hr. destruct Hr as [_ ->]. ring. }
  rewrite (qsumf_ext _ (fun r => (p - price r) * traded_by (lbl r) tl - p * traded_by (lbl r) tl) (all_s d)).
  2:{ intros r Hr. apply filter_In in Hr. destruct Hr as [_ Br]. apply negb_true_iff in Br. rewrite Br. ring. }
  rewrite qsumf_plus, qsumf_minus, !qsumf_scale, Bal. ring.
Qed.

Section Loss.
  Variables (S : sorter) (d : df).
  Hypothesis Q : qty_pos d.
  Hypothesis Hp : price_nonneg d.
  Hypothesis Hu : labels_unique d.
  Hypothesis Hd : prices_distinct d.
  Let Hq : qty_nonneg d := fun r H => Qclt_le_weak _ _ (Q r H).
  Variables (tm : transmgr) (ps pb q : Qc).
  Hypothesis E : huang_auction S d = Ok (tm, XHuang ps pb q).
  Let tl := tm_trans tm.

  Lemma only_winners r : In r d -> wins ps pb r = false -> traded_by (lbl r) tl = 0.
  Proof.
    intros Hr W. destruct (huang_alloc S d Hq Hp Hu Hd tm ps pb q E) as [T|(_ & tb & ts & A & _)].
    - unfold tl. rewrite T. reflexivity.
    - unfold tl. rewrite A, W by exact Hr. reflexivity.
  Qed.

  Lemma traded_is : bought d tl = qmin (demand_above d pb) (supply_below d ps).
  Proof.
    destruct (huang_summary S d Hq Hp Hu tm _ E) as (Bal & Onc & Ref & _).
    destruct (huang_traders S d Hq Hp Hu tm ps pb q Hd E) as (_ & _ & T1 & T2). fold tl in T1, T2.
    set (Fb := filter (fun r => buying r && qltb pb (price r)) d) in *. set (Fs := filter (fun r => negb (buying r) && qltb (price r) ps) d) in *.
    assert (D0 : 0 <= demand_above d pb) by (apply qsumf_nonneg; intros r Hr; apply filter_In in Hr; apply Hq; tauto).
    assert (S0 : 0 <= supply_below d ps) by (apply qsumf_nonneg; intros r Hr; apply filter_In in Hr; apply Hq; tauto).
    destruct Fb as [|b Fb'] eqn:Eb.
    { rewrite T1 by auto. replace (demand_above d pb) with 0 by (unfold demand_above; fold Fb; rewrite Eb; reflexivity).
      destruct (qmin_case 0 (supply_below d ps)) as [[-> ?]|[-> ?]]; [reflexivity|]. change (0 = supply_below d ps). qlra. }
    destruct Fs as [|s Fs'] eqn:Es.
    { rewrite T1 by auto. replace (supply_below d ps) with 0 by (unfold supply_below; fold Fs; rewrite Es; reflexivity).
      destruct (qmin_case (demand_above d pb) 0) as [[-> ?]|[-> ?]]; [|reflexivity]. change (0 = demand_above d pb). qlra. }
    apply T2; discriminate.
  Qed.

  Lemma setter_qty : exists rb rs, In rb d /\ In rs d /\ buying rb = true /\ buying rs = false /\ price rb = pb /\ price rs = ps /\
    demand_at d pb = demand_above d pb + qty rb /\ supply_at d ps = supply_below d ps + qty rs.
  Proof.
    destruct (huang_traders S d Hq Hp Hu tm ps pb q Hd E) as ((rb & Ib & Bb & Pb & _) & (rs & Is & Bs & Ps & _) & _).
    exists rb, rs. repeat (split; [assumption|]). destruct Hd as [N1 N2].
    assert (X : forall (f : row -> bool) (l : df) r, NoDup (map price (filter f l)) -> In r l -> f r = true ->
      qsumf qty (filter (fun x => f x && qeqb (price x) (price r)) l) = qty r).
    { clear. intros f l r N I F. induction l as [|a l IH]; [destruct I|]. cbn [filter] in *. destruct I as [->|I].
      - rewrite F in *. inversion N as [|? ? N1 N2]; subst. assert (qeqb (price r) (price r) = true) as -> by (apply qeqb_eq; reflexivity).
        cbn [andb]. rewrite qsumf_cons. rewrite (filter_none _ l); [rewrite qsumf_nil; ring|].
        intros x Hx. destruct (f x) eqn:Fx; [|reflexivity]. cbn [andb]. apply qeqb_neq. intro Ex. apply N1. rewrite <- Ex. apply in_map, filter_In. auto.
      - destruct (f a) eqn:Fa; cbn [andb].
        + inversion N as [|? ? N1 N2]; subst. assert (qeqb (price a) (price r) = false) as ->.
          { apply qeqb_neq. intro Ex. apply N1. rewrite Ex. apply in_map, filter_In. auto. }
          apply IH; assumption.
        + apply IH; assumption. }
    split.
    - rewrite <- (X buying d rb N1 Ib Bb). unfold demand_at, demand_above. rewrite !qsumf_filter, <- qsumf_plus. apply qsumf_ext.
      intros r _. rewrite Pb. destruct (buying r); cbn [andb]; [|ring].
      destruct (qle_spec pb (price r)), (qlt_spec pb (price r)), (qeq_spec (price r) pb); try ring; exfalso; first [qlra | match goal with H : _ <> _ |- _ => apply H; qlra end].
    - rewrite <- (X (fun x => negb (buying x)) d rs N2 Is) by (rewrite Bs; reflexivity). unfold supply_at, supply_below. rewrite !qsumf_filter, <- qsumf_plus. apply qsumf_ext.
      intros r _. rewrite Ps. destruct (buying r); cbn [andb negb]; [ring|].
      destruct (qle_spec (price r) ps), (qlt_spec (price r) ps), (qeq_spec (price r) ps); try ring; exfalso; first [qlra | match goal with H : _ <> _ |- _ => apply H; qlra end].
  Qed.

  Lemma traded_bounds r : In r d -> 0 <= traded_by (lbl r) tl /\ traded_by (lbl r) tl <= qty r.
  Proof.
    intro Hr. destruct (huang_summary S d Hq Hp Hu tm _ E) as (_ & _ & _ & [F1 F2] & _). split; [|apply F2, Hr].
    apply qsumf_nonneg. intros t Ht. apply filter_In in Ht. apply F1, Ht.
  Qed.

  (** any clearing price *)
  Variables (c p : Qc).
  Hypothesis M : Marginal d ps pb c.
  Hypothesis K : clearing d price p.

  Lemma above_b : qsumf (fun r => if qltb 0 (price r - p) then qty r else 0) (all_b d) <= c.
  Proof.
    destruct (clearing_quantity d p ps pb c Hq M K) as (D1 & _). refine (Qcle_trans _ _ _ _ D1).
    unfold demand_above, all_b. rewrite !qsumf_filter. apply qsumf_le. intros r Hr. destruct (buying r); cbn [andb]; [|apply Qcle_refl].
    destruct (qlt_spec 0 (price r - p)), (qlt_spec p (price r)); try apply Qcle_refl; exfalso; qlra.
  Qed.
  Lemma above_s : qsumf (fun r => if qltb 0 (p - price r) then qty r else 0) (all_s d) <= c.
  Proof.
    destruct (clearing_quantity d p ps pb c Hq M K) as (_ & _ & D1 & _). refine (Qcle_trans _ _ _ _ D1).
    unfold supply_below, all_s. rewrite !qsumf_filter. apply qsumf_le. intros r Hr. destruct (buying r); cbn [andb negb]; [apply Qcle_refl|].
    destruct (qlt_spec 0 (p - price r)), (qlt_spec (price r) p); try apply Qcle_refl; exfalso; qlra.
  Qed.
  Lemma in_b r : In r (all_b d) -> In r d /\ buying r = true. Proof. intro H. apply filter_In in H. exact H. Qed.
  Lemma in_s r : In r (all_s d) -> In r d /\ buying r = false.
  Proof. intro H. apply filter_In in H. destruct H as [H1 H2]. apply negb_true_iff in H2. auto. Qed.

  Lemma huang_loss_at hi lo : (forall r, In r d -> if buying r then price r <= hi else lo <= price r) ->
    surplus d price p <= traded_surplus price d tl + (c - bought d tl) * (hi - lo).
  Proof.
    intro Hh. destruct (huang_summary S d Hq Hp Hu tm _ E) as (Bal & Onc & Ref & _). fold tl in Bal, Onc, Ref.
    destruct (clearing_between d p ps pb c Hq M K) as [P1 P2].
    destruct (setter_qty) as (rb & rs & Ib & Is & Bb & Bs & Pb & Ps & _ & _).
    rewrite (balanced_surplus d tl p Hu Ref Bal). unfold surplus.
    pose proof (side_loss (all_b d) (fun r => traded_by (lbl r) tl) (fun r => price r - p)) as L1.
    specialize (L1 (fun r Hr => traded_bounds r (proj1 (in_b r Hr))) (hi - p)).
    pose proof (side_loss (all_s d) (fun r => traded_by (lbl r) tl) (fun r => p - price r)) as L2.
    specialize (L2 (fun r Hr => traded_bounds r (proj1 (in_s r Hr))) (p - lo)). cbv beta in L1, L2.
    rewrite <- bought_by in L1 by assumption. rewrite <- sold_by, <- Bal in L2 by assumption.
    pose proof above_b as A1. pose proof above_s as A2. cbv beta in A1, A2.
    pose proof (Hh rb Ib) as H1. rewrite Bb in H1. pose proof (Hh rs Is) as H2. rewrite Bs in H2.
    set (Nb := qsumf (fun r => if qltb 0 (price r - p) then qty r else 0) (all_b d)) in *.
    set (Ns := qsumf (fun r => if qltb 0 (p - price r) then qty r else 0) (all_s d)) in *.
    assert (C1 : 0 <= (c - Nb) * (hi - p)) by (apply qmult_nonneg; qlra).
    assert (C2 : 0 <= (c - Ns) * (p - lo)) by (apply qmult_nonneg; qlra).
    assert (L1' : qsumf (fun r => qty r * qmax 0 (price r - p)) (all_b d) <= qsumf (fun r => (price r - p) * traded_by (lbl r) tl) (all_b d) + (Nb - bought d tl) * (hi - p)).
    { apply L1.
      - intros r Hr. destruct (in_b r Hr) as [Ir Br]. specialize (Hh r Ir). rewrite Br in Hh. qlra.
      - intros r Hr G. destruct (in_b r Hr) as [Ir Br]. apply only_winners; [exact Ir|]. unfold wins. rewrite Br. apply qltb_ge. qlra. }
    assert (L2' : qsumf (fun r => qty r * qmax 0 (p - price r)) (all_s d) <= qsumf (fun r => (p - price r) * traded_by (lbl r) tl) (all_s d) + (Ns - bought d tl) * (p - lo)).
    { apply L2.
      - intros r Hr. destruct (in_s r Hr) as [Ir Br]. specialize (Hh r Ir). rewrite Br in Hh. qlra.
      - intros r Hr G. destruct (in_s r Hr) as [Ir Br]. apply only_winners; [exact Ir|]. unfold wins. rewrite Br. apply qltb_ge. qlra. }
    clear L1 L2. qnra.
  Qed.

  Lemma huang_ratio_at : demand_above d pb = supply_below d ps ->
    surplus d price p * bought d tl <= traded_surplus price d tl * c.
  Proof.
    intro Eq. destruct (huang_summary S d Hq Hp Hu tm _ E) as (Bal & Onc & Ref & _). fold tl in Bal, Onc, Ref.
    destruct (clearing_between d p ps pb c Hq M K) as [P1 P2].
    pose proof traded_is as T. rewrite <- Eq in T. assert (T' : bought d tl = demand_above d pb) by (rewrite T; destruct (qmin_case (demand_above d pb) (demand_above d pb)) as [[-> _]|[-> _]]; reflexivity).
    assert (Fb : forall r, In r (all_b d) -> traded_by (lbl r) tl = if qltb pb (price r) then qty r else 0).
    { apply qsumf_le_eq.
      - intros r Hr. destruct (in_b r Hr) as [Ir Br]. destruct (qlt_spec pb (price r)) as [G|G]; [apply traded_bounds, Ir|].
        rewrite only_winners; [apply Qcle_refl | exact Ir|]. unfold wins. rewrite Br. apply qltb_ge. exact G.
      - rewrite <- bought_by by assumption. rewrite T'. unfold demand_above, all_b. rewrite !qsumf_filter. apply qsumf_ext.
        intros r _. destruct (buying r); reflexivity. }
    assert (Fs : forall r, In r (all_s d) -> traded_by (lbl r) tl = if qltb (price r) ps then qty r else 0).
    { apply qsumf_le_eq.
      - intros r Hr. destruct (in_s r Hr) as [Ir Br]. destruct (qlt_spec (price r) ps) as [G|G]; [apply traded_bounds, Ir|].
        rewrite only_winners; [apply Qcle_refl | exact Ir|]. unfold wins. rewrite Br. apply qltb_ge. exact G.
      - rewrite <- sold_by by assumption. rewrite <- Bal, T', Eq. unfold supply_below, all_s. rewrite !qsumf_filter. apply qsumf_ext.
        intros r _. destruct (buying r); reflexivity. }
    destruct M as (C0 & Lp & E1 & E2 & E3 & E4 & _).
    rewrite (balanced_surplus d tl p Hu Ref Bal). unfold surplus.
    pose proof (side_ratio (all_b d) (fun r => traded_by (lbl r) tl) (fun r => price r - p) (fun r Hr => traded_bounds r (proj1 (in_b r Hr)))
      (fun r => qltb pb (price r)) (pb - p) c ltac:(qlra) Fb (fun r Hr => Hq r (proj1 (in_b r Hr)))) as L1.
    pose proof (side_ratio (all_s d) (fun r => traded_by (lbl r) tl) (fun r => p - price r) (fun r Hr => traded_bounds r (proj1 (in_s r Hr)))
      (fun r => qltb (price r) ps) (p - ps) c ltac:(qlra) Fs (fun r Hr => Hq r (proj1 (in_s r Hr)))) as L2.
    cbv beta in L1, L2. rewrite <- bought_by in L1 by assumption. rewrite <- sold_by, <- Bal in L2 by assumption.
    specialize (L1 ltac:(intros r Hr; destruct (qlt_spec pb (price r)); qlra) above_b ltac:(qlra)).
    specialize (L2 ltac:(intros r Hr; destruct (qlt_spec (price r) ps); qlra) above_s ltac:(qlra)).
    qnra.
  Qed.
End Loss.

Lemma huang_quantity S d tm ps pb q : qty_pos d -> price_nonneg d -> labels_unique d -> prices_distinct d ->
  huang_auction S d = Ok (tm, XHuang ps pb q) ->
  bought d (tm_trans tm) = qmin (demand_above d pb) (supply_below d ps) /\
  exists c rb rs, Marginal d ps pb c /\ In rb d /\ In rs d /\ buying rb = true /\ buying rs = false /\ price rb = pb /\ price rs = ps /\
    bought d (tm_trans tm) < c /\ c <= bought d (tm_trans tm) + qmax (qty rb) (qty rs).
Proof.
  intros Q Hp Hu Hd E. pose proof (traded_is S d Q Hp Hu Hd tm ps pb q E) as T. split; [exact T|].
  destruct (huang_marginal S d (fun r H => Qclt_le_weak _ _ (Q r H)) Hp tm ps pb q Q E) as (c & M & _).
  destruct (setter_qty S d Q Hp Hu Hd tm ps pb q E) as (rb & rs & Ib & Is & Bb & Bs & Pb & Ps & D & S').
  exists c, rb, rs. repeat (split; [assumption|]). destruct M as (C0 & Lp & E1 & E2 & E3 & E4 & _). rewrite T.
  destruct (qmin_case (demand_above d pb) (supply_below d ps)) as [[-> ?]|[-> ?]], (qmax_case (qty rb) (qty rs)) as [[-> ?]|[-> ?]]; split; qlra.
Qed.

Lemma huang_loss S d tm ps pb q c x hi lo : qty_pos d -> price_nonneg d -> labels_unique d -> prices_distinct d ->
  huang_auction S d = Ok (tm, XHuang ps pb q) -> Marginal d ps pb c -> alloc_ok d x ->
  (forall r, In r d -> if buying r then price r <= hi else lo <= price r) ->
  welfare d price x <= traded_surplus price d (tm_trans tm) + (c - bought d (tm_trans tm)) * (hi - lo).
Proof.
  intros Q Hp Hu Hd E M X H. destruct (clearing_exists d price (fun r I => Qclt_le_weak _ _ (Q r I))) as [p K].
  refine (Qcle_trans _ _ _ (welfare_le_surplus d price x p X) _). exact (huang_loss_at S d Q Hp Hu Hd tm ps pb q E c p M K hi lo H).
Qed.

Lemma huang_ratio S d tm ps pb q c x : qty_pos d -> price_nonneg d -> labels_unique d -> prices_distinct d ->
  huang_auction S d = Ok (tm, XHuang ps pb q) -> Marginal d ps pb c -> demand_above d pb = supply_below d ps -> alloc_ok d x ->
  welfare d price x * bought d (tm_trans tm) <= traded_surplus price d (tm_trans tm) * c.
Proof.
  intros Q Hp Hu Hd E M Eq X. set (Hq := fun r I => Qclt_le_weak _ _ (Q r I)). destruct (clearing_exists d price Hq) as [p K].
  refine (Qcle_trans _ _ _ _ (huang_ratio_at S d Q Hp Hu Hd tm ps pb q E c p M K Eq)).
  pose proof (welfare_le_surplus d price x p X) as W.
  assert (B : 0 <= bought d (tm_trans tm)).
  { destruct (huang_summary S d Hq Hp Hu tm _ E) as (_ & _ & _ & [F _] & _). apply qsumf_nonneg. intros t Ht. apply filter_In in Ht. apply F, Ht. }
  apply Qcmult_le_compat_r; assumption.
Qed.

(** all quantities equal: the best pair but one *)
Lemma sums_apart u : 0 < u -> forall l1 l2 : df, (forall r, In r l1 -> qty r = u) -> (forall r, In r l2 -> qty r = u) ->
  qsumf qty l1 < qsumf qty l2 -> qsumf qty l1 + u <= qsumf qty l2.
Proof.
  intros Hu l1. induction l1 as [|a l1 IH]; intros [|b l2] H1 H2 L; rewrite ?qsumf_nil, ?qsumf_cons in *.
  - exfalso. qlra.
  - rewrite (H2 b) in * by (left; reflexivity). assert (0 <= qsumf qty l2); [|qlra].
    apply qsumf_nonneg. intros r Hr. rewrite (H2 r) by (right; exact Hr). qlra.
  - exfalso. rewrite (H1 a) in L by (left; reflexivity). assert (0 <= qsumf qty l1); [|qlra].
    apply qsumf_nonneg. intros r Hr. rewrite (H1 r) by (right; exact Hr). qlra.
  - rewrite (H1 a), (H2 b) in * by (left; reflexivity). specialize (IH l2). 
    assert (qsumf qty l1 + u <= qsumf qty l2); [|qlra]. apply IH; [intros r Hr; apply H1; right; exact Hr | intros r Hr; apply H2; right; exact Hr | qlra].
Qed.

Lemma huang_unit S d tm ps pb q u : qty_pos d -> price_nonneg d -> labels_unique d -> prices_distinct d ->
  (forall r, In r d -> qty r = u) -> huang_auction S d = Ok (tm, XHuang ps pb q) ->
  exists c, Marginal d ps pb c /\ bought d (tm_trans tm) = c - u /\
    forall x, alloc_ok d x -> welfare d price x * (c - u) <= traded_surplus price d (tm_trans tm) * c.
Proof.
  intros Q Hp Hu Hd Hc E. pose proof (traded_is S d Q Hp Hu Hd tm ps pb q E) as T.
  set (Hq := fun r I => Qclt_le_weak _ _ (Q r I)).
  destruct (huang_marginal S d Hq Hp tm ps pb q Q E) as (c & M & At).
  destruct (setter_qty S d Q Hp Hu Hd tm ps pb q E) as (rb & rs & Ib & Is & Bb & Bs & Pb & Ps & D & S').
  pose proof M as (C0 & Lp & E1 & E2 & E3 & E4 & _).
  rewrite (Hc rb Ib) in D. rewrite (Hc rs Is) in S'.
  assert (U : 0 < u) by (rewrite <- (Hc rb Ib); apply Q, Ib).
  assert (A1 : demand_above d pb < supply_below d ps -> demand_above d pb + u <= supply_below d ps).
  { apply sums_apart; [exact U | |]; intros r Hr; apply filter_In in Hr; apply Hc; tauto. }
  assert (A2 : supply_below d ps < demand_above d pb -> supply_below d ps + u <= demand_above d pb).
  { apply sums_apart; [exact U | |]; intros r Hr; apply filter_In in Hr; apply Hc; tauto. }
  assert (B : demand_above d pb = supply_below d ps).
  { destruct (qlt_spec (demand_above d pb) (supply_below d ps)) as [G|G]; [specialize (A1 G); exfalso; qlra|].
    destruct (qlt_spec (supply_below d ps) (demand_above d pb)) as [G'|G']; [specialize (A2 G'); exfalso; qlra|]. qlra. }
  assert (C : c = demand_above d pb + u).
  { specialize (At pb ltac:(qlra) ltac:(qlra)).
    assert (supply_at d ps <= supply_at d pb) by (pose proof (supply_mono d ps pb Hq Lp); assert (supply_below d pb <= supply_at d pb) by (unfold supply_below, supply_at; rewrite !qsumf_filter; apply qsumf_le; intros r Hr; pose proof (Q r Hr); destruct (buying r); cbn [andb negb]; [qlra|]; destruct (qle_spec (price r) pb), (qlt_spec (price r) pb); qlra); qlra).
    destruct (qmin_case (demand_at d pb) (supply_at d pb)) as [[X ?]|[X ?]]; rewrite X in At; qlra. }
  assert (T' : bought d (tm_trans tm) = c - u).
  { rewrite T, <- B. destruct (qmin_case (demand_above d pb) (demand_above d pb)) as [[-> _]|[-> _]]; qlra. }
  exists c. split; [exact M|]. split; [exact T'|]. intros x X. rewrite <- T'. eapply huang_ratio; eassumption.
Qed.
