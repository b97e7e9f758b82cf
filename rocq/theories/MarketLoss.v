(** What [Market.run("huang")] gives up. *)
From Verif Require Import QcTac Num ModelBase ModelCurves ModelHuang ModelMerge ModelMarket Spec SpecTrade SpecMerge SpecMuda SpecStats SpecAlloc SpecHuang SpecMarketLoss
  ListFacts StoreFacts CurveFacts TradeFacts P2PTrades AllocFacts HuangFacts HuangTop HuangTruth UniformTop MergeFacts HuangMarketFacts HuangMarketTop HuangLoss FairFacts.

(** ** Any transactions of the winners only, up to the smaller of their total quantities *)
Section Outcome.
  Variables (d : df) (tl : list trans) (ps pb c : Qc).
  Hypothesis Hq : qty_nonneg d.
  Hypothesis Hu : labels_unique d.
  Hypothesis Rf : refer d tl.
  Hypothesis Bal : bought d tl = sold d tl.
  Hypothesis Bd : forall r, In r d -> 0 <= traded_by (lbl r) tl /\ traded_by (lbl r) tl <= qty r.
  Hypothesis Win : forall r, In r d -> wins ps pb r = false -> traded_by (lbl r) tl = 0.
  Hypothesis M : Marginal d ps pb c.

  Lemma some_setters : (exists b, In b d /\ buying b = true /\ pb <= price b) /\ exists s, In s d /\ buying s = false /\ price s <= ps.
  Proof.
    destruct M as (C0 & _ & _ & D & _ & E & _). split.
    - unfold demand_at in D. destruct (filter (fun r => buying r && qleb pb (price r)) d) as [|b l] eqn:F; [rewrite qsumf_nil in D; exfalso; qlra|].
      assert (I : In b (filter (fun r => buying r && qleb pb (price r)) d)) by (rewrite F; left; reflexivity).
      apply filter_In in I. destruct I as [I1 I2]. apply andb_true_iff in I2. destruct I2 as [I2 I3]. apply qleb_le in I3. eauto.
    - unfold supply_at in E. destruct (filter (fun r => negb (buying r) && qleb (price r) ps) d) as [|s l] eqn:F; [rewrite qsumf_nil in E; exfalso; qlra|].
      assert (I : In s (filter (fun r => negb (buying r) && qleb (price r) ps) d)) by (rewrite F; left; reflexivity).
      apply filter_In in I. destruct I as [I1 I2]. apply andb_true_iff in I2. destruct I2 as [I2 I3]. apply qleb_le in I3. apply negb_true_iff in I2. eauto.
  Qed.

  Section At.
    Variable p : Qc.
    Hypothesis K : clearing d price p.
    Lemma above_demand : qsumf (fun r => if qltb 0 (price r - p) then qty r else 0) (all_b d) <= c.
    Proof.
      destruct (clearing_quantity d p ps pb c Hq M K) as (D1 & _). refine (Qcle_trans _ _ _ _ D1).
      unfold demand_above, all_b. rewrite !qsumf_filter. apply qsumf_le. intros r Hr. destruct (buying r); cbn [andb]; [|apply Qcle_refl].
      destruct (qlt_spec 0 (price r - p)), (qlt_spec p (price r)); try apply Qcle_refl; exfalso; qlra.
    Qed.
    Lemma above_supply : qsumf (fun r => if qltb 0 (p - price r) then qty r else 0) (all_s d) <= c.
    Proof.
      destruct (clearing_quantity d p ps pb c Hq M K) as (_ & _ & D1 & _). refine (Qcle_trans _ _ _ _ D1).
      unfold supply_below, all_s. rewrite !qsumf_filter. apply qsumf_le. intros r Hr. destruct (buying r); cbn [andb negb]; [apply Qcle_refl|].
      destruct (qlt_spec 0 (p - price r)), (qlt_spec (price r) p); try apply Qcle_refl; exfalso; qlra.
    Qed.
    Lemma loss_at hi lo : (forall r, In r d -> if buying r then price r <= hi else lo <= price r) ->
      surplus d price p <= traded_surplus price d tl + (c - bought d tl) * (hi - lo).
    Proof.
      intro Hh. destruct (clearing_between d p ps pb c Hq M K) as [P1 P2]. destruct some_setters as [(rb & Ib & Bb & Pb) (rs & Is & Bs & Ps)].
      rewrite (balanced_surplus d tl p Hu Rf Bal). unfold surplus.
      pose proof (side_loss (all_b d) (fun r => traded_by (lbl r) tl) (fun r => price r - p)) as L1.
      specialize (L1 (fun r Hr => Bd r (proj1 (in_b d r Hr))) (hi - p)).
      pose proof (side_loss (all_s d) (fun r => traded_by (lbl r) tl) (fun r => p - price r)) as L2.
      specialize (L2 (fun r Hr => Bd r (proj1 (in_s d r Hr))) (p - lo)). cbv beta in L1, L2.
      rewrite <- bought_by in L1 by assumption. rewrite <- sold_by, <- Bal in L2 by assumption.
      pose proof above_demand as A1. pose proof above_supply as A2.
      pose proof (Hh rb Ib) as H1. rewrite Bb in H1. pose proof (Hh rs Is) as H2. rewrite Bs in H2.
      set (Nb := qsumf (fun r => if qltb 0 (price r - p) then qty r else 0) (all_b d)) in *.
      set (Ns := qsumf (fun r => if qltb 0 (p - price r) then qty r else 0) (all_s d)) in *.
      assert (C1 : 0 <= (c - Nb) * (hi - p)) by (apply qmult_nonneg; qlra).
      assert (C2 : 0 <= (c - Ns) * (p - lo)) by (apply qmult_nonneg; qlra).
      assert (L1' : qsumf (fun r => qty r * qmax 0 (price r - p)) (all_b d) <= qsumf (fun r => (price r - p) * traded_by (lbl r) tl) (all_b d) + (Nb - bought d tl) * (hi - p)).
      { apply L1.
        - intros r Hr. destruct (in_b d r Hr) as [Ir Br]. specialize (Hh r Ir). rewrite Br in Hh. qlra.
        - intros r Hr G. destruct (in_b d r Hr) as [Ir Br]. apply Win; [exact Ir|]. unfold wins. rewrite Br. apply qltb_ge. qlra. }
      assert (L2' : qsumf (fun r => qty r * qmax 0 (p - price r)) (all_s d) <= qsumf (fun r => (p - price r) * traded_by (lbl r) tl) (all_s d) + (Ns - bought d tl) * (p - lo)).
      { apply L2.
        - intros r Hr. destruct (in_s d r Hr) as [Ir Br]. specialize (Hh r Ir). rewrite Br in Hh. qlra.
        - intros r Hr G. destruct (in_s d r Hr) as [Ir Br]. apply Win; [exact Ir|]. unfold wins. rewrite Br. apply qltb_ge. qlra. }
      clear L1 L2. qnra.
    Qed.
    Lemma ratio_at : bought d tl = demand_above d pb -> demand_above d pb = supply_below d ps ->
      surplus d price p * bought d tl <= traded_surplus price d tl * c.
    Proof.
      intros T' Eq. destruct (clearing_between d p ps pb c Hq M K) as [P1 P2].
      assert (Fb : forall r, In r (all_b d) -> traded_by (lbl r) tl = if qltb pb (price r) then qty r else 0).
      { apply qsumf_le_eq.
        - intros r Hr. destruct (in_b d r Hr) as [Ir Br]. destruct (qlt_spec pb (price r)) as [G|G]; [apply Bd, Ir|].
          rewrite Win; [apply Qcle_refl | exact Ir|]. unfold wins. rewrite Br. apply qltb_ge. exact G.
        - rewrite <- bought_by by assumption. rewrite T'. unfold demand_above, all_b. rewrite !qsumf_filter. apply qsumf_ext.
          intros r _. destruct (buying r); reflexivity. }
      assert (Fs : forall r, In r (all_s d) -> traded_by (lbl r) tl = if qltb (price r) ps then qty r else 0).
      { apply qsumf_le_eq.
        - intros r Hr. destruct (in_s d r Hr) as [Ir Br]. destruct (qlt_spec (price r) ps) as [G|G]; [apply Bd, Ir|].
          rewrite Win; [apply Qcle_refl | exact Ir|]. unfold wins. rewrite Br. apply qltb_ge. exact G.
        - rewrite <- sold_by by assumption. rewrite <- Bal, T', Eq. unfold supply_below, all_s. rewrite !qsumf_filter. apply qsumf_ext.
          intros r _. destruct (buying r); reflexivity. }
      pose proof M as (C0 & Lp & E1 & E2 & E3 & E4 & _).
      rewrite (balanced_surplus d tl p Hu Rf Bal). unfold surplus.
      pose proof (side_ratio (all_b d) (fun r => traded_by (lbl r) tl) (fun r => price r - p) (fun r Hr => Bd r (proj1 (in_b d r Hr)))
        (fun r => qltb pb (price r)) (pb - p) c ltac:(qlra) Fb (fun r Hr => Hq r (proj1 (in_b d r Hr)))) as L1.
      pose proof (side_ratio (all_s d) (fun r => traded_by (lbl r) tl) (fun r => p - price r) (fun r Hr => Bd r (proj1 (in_s d r Hr)))
        (fun r => qltb (price r) ps) (p - ps) c ltac:(qlra) Fs (fun r Hr => Hq r (proj1 (in_s d r Hr)))) as L2.
      cbv beta in L1, L2. rewrite <- bought_by in L1 by assumption. rewrite <- sold_by, <- Bal in L2 by assumption.
      specialize (L1 ltac:(intros r Hr; destruct (qlt_spec pb (price r)); qlra) above_demand ltac:(qlra)).
      specialize (L2 ltac:(intros r Hr; destruct (qlt_spec (price r) ps); qlra) above_supply ltac:(qlra)).
      qnra.
    Qed.
  End At.
  Lemma outcome_ratio x : alloc_ok d x -> bought d tl = demand_above d pb -> demand_above d pb = supply_below d ps ->
    welfare d price x * bought d tl <= traded_surplus price d tl * c.
  Proof.
    intros X T Eq. destruct (clearing_exists d price Hq) as [p K]. refine (Qcle_trans _ _ _ _ (ratio_at p K T Eq)).
    apply Qcmult_le_compat_r; [exact (welfare_le_surplus d price x p X)|]. rewrite bought_by by assumption.
    apply qsumf_nonneg. intros r Hr. apply Bd. exact (proj1 (in_b d r Hr)).
  Qed.
  Lemma outcome_loss x hi lo : alloc_ok d x -> (forall r, In r d -> if buying r then price r <= hi else lo <= price r) ->
    welfare d price x <= traded_surplus price d tl + (c - bought d tl) * (hi - lo).
  Proof.
    intros X H. destruct (clearing_exists d price Hq) as [p K].
    exact (Qcle_trans _ _ _ (welfare_le_surplus d price x p X) (loss_at p K hi lo H)).
  Qed.
End Outcome.

(** ** The table with rounded prices *)
Lemma rounded_all_b d : all_b (map (rounded 5) d) = map (rounded 5) (all_b d).
Proof. unfold all_b. induction d as [|r d IH]; [reflexivity|]. cbn [map filter]. cbn [rounded buying]. rewrite IH. destruct (buying r); reflexivity. Qed.
Lemma rounded_all_s d : all_s (map (rounded 5) d) = map (rounded 5) (all_s d).
Proof. unfold all_s. induction d as [|r d IH]; [reflexivity|]. cbn [map filter]. cbn [rounded buying]. rewrite IH. destruct (buying r); reflexivity. Qed.
Lemma rounded_side s d t : on_side s (map (rounded 5) d) t = on_side s d t.
Proof. unfold on_side. induction d as [|r d IH]; [reflexivity|]. cbn [map existsb]. rewrite IH. reflexivity. Qed.
Lemma rounded_bought d tl : bought (map (rounded 5) d) tl = bought d tl.
Proof. unfold bought. f_equal. apply filter_ext. intro t. apply rounded_side. Qed.
Lemma rounded_sold d tl : sold (map (rounded 5) d) tl = sold d tl.
Proof. unfold sold. f_equal. apply filter_ext. intro t. apply rounded_side. Qed.
Lemma rounded_refer d tl : refer d tl -> refer (map (rounded 5) d) tl.
Proof. intros H t Ht. destruct (H t Ht) as (r & Hr & E). exists (rounded 5 r). split; [apply in_map, Hr | exact E]. Qed.
Lemma rounded_alloc d x : alloc_ok d x -> alloc_ok (map (rounded 5) d) x.
Proof.
  intros (H0 & H1 & H2). unfold alloc_ok. rewrite rounded_all_b, rounded_all_s. split; [|split].
  - intros b s Hb Hs. apply in_map_iff in Hb, Hs. destruct Hb as (b' & <- & Hb), Hs as (s' & <- & Hs). exact (H0 b' s' Hb Hs).
  - intros b Hb. apply in_map_iff in Hb. destruct Hb as (b' & <- & Hb). rewrite qsumf_map. exact (H1 b' Hb).
  - intros s Hs. apply in_map_iff in Hs. destruct Hs as (s' & <- & Hs). rewrite qsumf_map. exact (H2 s' Hs).
Qed.
Lemma rounded_lbl d : map lbl (map (rounded 5) d) = map lbl d.
Proof. rewrite map_map. reflexivity. Qed.

Lemma round_near x : np_round 5 x - x <= half_step /\ x - np_round 5 x <= half_step.
Proof.
  destruct (np_round_near 5 x) as [A B]. pose proof (pow10_pos 5) as P.
  assert (E : half_step * pow10 5 = qf 1 2) by (apply Qc_is_canon; vm_compute; reflexivity).
  rewrite <- E in A, B. clear E. generalize dependent (np_round 5 x). generalize dependent (pow10 5). generalize half_step. intros h k P y A B.
  assert (D : forall u, u * k <= h * k -> u <= h).
  { intros u L. destruct (qlt_spec h u) as [G|G]; [|exact G]. exfalso. assert (0 < (u - h) * k) by (apply qmult_pos; qlra). qnra. }
  split; apply D; [exact B|]. replace ((x - y) * k) with (- ((y - x) * k)) by ring. qlra.
Qed.
Lemma rounded_welfare d x : alloc_ok d x -> welfare d price x <= welfare (map (rounded 5) d) price x + (half_step + half_step) * volume d x.
Proof.
  intros (H0 & _). unfold welfare, volume. rewrite rounded_all_b, rounded_all_s, qsumf_map, <- qsumf_scale, <- qsumf_plus. apply qsumf_le. intros b Hb.
  rewrite qsumf_map, <- qsumf_scale, <- qsumf_plus. apply qsumf_le. intros s Hs. specialize (H0 b s Hb Hs). cbn [rounded price lbl].
  destruct (round_near (price b)) as [_ Rb]. destruct (round_near (price s)) as [Rs _].
  generalize dependent (np_round 5 (price b)). generalize dependent (np_round 5 (price s)). generalize dependent (x (lbl b) (lbl s)). generalize half_step.
  intros h v V y Hy z Hz.
  assert (0 <= ((z - y) + (h + h) - (price b - price s)) * v) by (apply qmult_nonneg; [qlra | exact V]). qnra.
Qed.
Lemma rounded_surplus d tl : labels_unique d -> refer d tl -> bought d tl = sold d tl -> (forall r, In r d -> 0 <= traded_by (lbl r) tl) ->
  traded_surplus price (map (rounded 5) d) tl <= traded_surplus price d tl + (half_step + half_step) * bought d tl.
Proof.
  intros Hu Rf Bal N. unfold traded_surplus. rewrite qsumf_map.
  assert (E : (half_step + half_step) * bought d tl = qsumf (fun r => half_step * traded_by (lbl r) tl) d).
  { rewrite (qsumf_filter_split (fun r => half_step * traded_by (lbl r) tl) buying d). fold (all_b d) (all_s d). rewrite !qsumf_scale, <- bought_by, <- sold_by, <- Bal by assumption.
    generalize half_step. intro. ring. }
  rewrite E, <- qsumf_plus. apply qsumf_le. intros r Hr. specialize (N r Hr). cbn [rounded price buying lbl].
  destruct (round_near (price r)) as [R1 R2]. generalize dependent (np_round 5 (price r)). generalize dependent (traded_by (lbl r) tl). generalize half_step.
  intros h v V y R1 R2. destruct (buying r).
  - assert (0 <= (price r + h - y) * v) by (apply qmult_nonneg; [qlra | exact V]). qnra.
  - assert (0 <= (y + h - price r) * v) by (apply qmult_nonneg; [qlra | exact V]). qnra.
Qed.

(** ** The bids at one rounded price *)
Lemma group_demand d b : In b d -> buying b = true -> let rd := map (rounded 5) d in let p := np_round 5 (price b) in
  demand_at rd p = demand_above rd p + qsumf qty (group_of 5 d (rounded 5 b)).
Proof.
  intros Ib Bb. cbv zeta. unfold demand_at, demand_above, group_of. rewrite !qsumf_filter, !qsumf_map, <- qsumf_plus. apply qsumf_ext. intros r _.
  cbn [rounded buying price qty]. rewrite Bb. destruct (buying r); cbn [andb Bool.eqb]; [|ring].
  generalize (np_round 5 (price r)), (np_round 5 (price b)). intros y z.
  destruct (qle_spec z y), (qlt_spec z y), (qeq_spec y z); try ring; exfalso; first [qlra | match goal with H : _ <> _ |- _ => apply H; qlra end].
Qed.
Lemma group_supply d s : In s d -> buying s = false -> let rd := map (rounded 5) d in let p := np_round 5 (price s) in
  supply_at rd p = supply_below rd p + qsumf qty (group_of 5 d (rounded 5 s)).
Proof.
  intros Is Bs. cbv zeta. unfold supply_at, supply_below, group_of. rewrite !qsumf_filter, !qsumf_map, <- qsumf_plus. apply qsumf_ext. intros r _.
  cbn [rounded buying price qty]. rewrite Bs. destruct (buying r); cbn [andb negb Bool.eqb]; [ring|].
  generalize (np_round 5 (price r)), (np_round 5 (price s)). intros y z.
  destruct (qle_spec y z), (qlt_spec y z), (qeq_spec y z); try ring; exfalso; first [qlra | match goal with H : _ <> _ |- _ => apply H; qlra end].
Qed.
(** a price at which the demand drops is the price of a bid *)
Lemma drop_bid d p : demand_above d p < demand_at d p -> exists b, In b d /\ buying b = true /\ price b = p.
Proof.
  intro L. destruct (filter (fun r => buying r && qeqb (price r) p) d) as [|b l] eqn:F.
  - exfalso. revert L. apply Qcle_not_lt. unfold demand_at, demand_above. rewrite !qsumf_filter. apply qsumf_le. intros r Hr.
    destruct (buying r) eqn:B; cbn [andb]; [|apply Qcle_refl]. destruct (qle_spec p (price r)), (qlt_spec p (price r)); try apply Qcle_refl; [|exfalso; qlra].
    assert (I : In r (filter (fun r => buying r && qeqb (price r) p) d)) by (apply filter_In; split; [exact Hr|]; rewrite B; apply qeqb_eq; qlra). rewrite F in I. destruct I.
  - assert (I : In b (filter (fun r => buying r && qeqb (price r) p) d)) by (rewrite F; left; reflexivity). apply filter_In in I. destruct I as [I J].
    apply andb_true_iff in J. destruct J as [J1 J2]. apply qeqb_eq in J2. eauto.
Qed.
Lemma drop_ask d p : supply_below d p < supply_at d p -> exists s, In s d /\ buying s = false /\ price s = p.
Proof.
  intro L. destruct (filter (fun r => negb (buying r) && qeqb (price r) p) d) as [|b l] eqn:F.
  - exfalso. revert L. apply Qcle_not_lt. unfold supply_at, supply_below. rewrite !qsumf_filter. apply qsumf_le. intros r Hr.
    destruct (buying r) eqn:B; cbn [andb negb]; [apply Qcle_refl|]. destruct (qle_spec (price r) p), (qlt_spec (price r) p); try apply Qcle_refl; [|exfalso; qlra].
    assert (I : In r (filter (fun r => negb (buying r) && qeqb (price r) p) d)) by (apply filter_In; split; [exact Hr|]; rewrite B; apply qeqb_eq; qlra). rewrite F in I. destruct I.
  - assert (I : In b (filter (fun r => negb (buying r) && qeqb (price r) p) d)) by (rewrite F; left; reflexivity). apply filter_In in I. destruct I as [I J].
    apply andb_true_iff in J. destruct J as [J1 J2]. apply qeqb_eq in J2. apply negb_true_iff in J1. eauto.
Qed.

Section Run.
  Variables (S : sorter) (smp : nat -> nat) (cnt : Z) (d : df).
  Hypothesis Hl : map lbl d = seq 0 (length d).
  Hypothesis Hq : qty_pos d.
  Hypothesis Hp : price_nonneg d.
  Variables (tm : transmgr) (ps pb q : Qc).
  Hypothesis E : mechanism (Some (smp, cnt)) (huang_auction S) d = Ok (tm, XHuang ps pb q).
  Let rd := map (rounded 5) d.
  Let tl := tm_trans tm.

  Lemma run_facts : bought d tl = sold d tl /\ refer d tl /\ (forall r, In r d -> 0 <= traded_by (lbl r) tl /\ traded_by (lbl r) tl <= qty r) /\
    bought d tl = qmin (demand_above rd pb) (supply_below rd ps) /\ (forall r, In r rd -> wins ps pb r = false -> traded_by (lbl r) tl = 0).
  Proof.
    destruct (huang_market S smp cnt d Hl Hq Hp (ok_not_lone _ _ _ _ _ Hl E)) as (tm' & ex' & E' & B & _ & R & [F1 F2] & _). rewrite E in E'. injection E' as <- <-.
    fold tl in B, R, F1, F2. split; [exact B|]. split; [exact R|]. split.
    { intros r Hr. split; [|apply F2, Hr]. apply qsumf_nonneg. intros t Ht. apply filter_In in Ht. apply F1, Ht. }
    assert (N : forall f, 0 <= qsumf qty (filter f rd)).
    { intro f. apply qsumf_nonneg. intros r Hr. apply filter_In in Hr. destruct Hr as [Hr _]. apply in_map_iff in Hr. destruct Hr as (x & <- & Hx).
      apply Qclt_le_weak. exact (Hq x Hx). }
    destruct (huang_market_top S smp cnt d tm _ Hl Hq Hp E) as [(X & _)|(ps' & pb' & q' & X & _ & D)]; [discriminate X|]. injection X as <- <- <-. fold rd tl in D.
    destruct D as [(T0 & D)|(tb & ts & _ & _ & _ & _ & Q1 & Q2 & D)].
    - split; [|intros r _ _; rewrite T0; reflexivity]. rewrite T0. change (bought d []) with 0. destruct D as [D|D].
      + assert (Z : demand_above rd pb = 0).
        { unfold demand_above. rewrite filter_none; [reflexivity|]. intros r Hr. destruct (buying r) eqn:B1; [|reflexivity]. specialize (D r Hr B1). unfold wins in D. rewrite B1 in D. exact D. }
        rewrite Z. pose proof (N (fun r => negb (buying r) && qltb (price r) ps)) as N'. change (0 <= supply_below rd ps) in N'.
        destruct (qmin_case 0 (supply_below rd ps)) as [[-> ?]|[-> ?]]; [reflexivity | qlra].
      + assert (Z : supply_below rd ps = 0).
        { unfold supply_below. rewrite filter_none; [reflexivity|]. intros r Hr. destruct (buying r) eqn:B1; [reflexivity|]. specialize (D r Hr B1). unfold wins in D. rewrite B1 in D. exact D. }
        rewrite Z. pose proof (N (fun r => buying r && qltb pb (price r))) as N'. change (0 <= demand_above rd pb) in N'.
        destruct (qmin_case (demand_above rd pb) 0) as [[-> ?]|[-> ?]]; [qlra | reflexivity].
    - split; [rewrite Q2; exact Q1|]. intros r Hr W. apply in_map_iff in Hr. destruct Hr as (x & <- & Hx). change (lbl (rounded 5 x)) with (lbl x). rewrite (D x Hx), W. reflexivity.
  Qed.
  Theorem run_quantity : exists c b s, Marginal rd ps pb c /\ In b d /\ In s d /\ buying b = true /\ buying s = false /\ np_round 5 (price b) = pb /\ np_round 5 (price s) = ps /\
    bought d tl = qmin (demand_above rd pb) (supply_below rd ps) /\ bought d tl < c /\
    c <= bought d tl + qmax (qsumf qty (group_of 5 d (rounded 5 b))) (qsumf qty (group_of 5 d (rounded 5 s))).
  Proof.
    destruct (huang_market_top S smp cnt d tm _ Hl Hq Hp E) as [(X & _)|(ps' & pb' & q' & X & (c & M) & _)]; [discriminate X|]. injection X as <- <- <-. fold rd in M.
    destruct run_facts as (_ & _ & _ & T & _). pose proof M as (_ & _ & D1 & D2 & D3 & D4 & _).
    destruct (drop_bid rd pb ltac:(qlra)) as (b' & Ib & Bb & Pb). destruct (drop_ask rd ps ltac:(qlra)) as (s' & Is & Bs & Ps).
    apply in_map_iff in Ib, Is. destruct Ib as (b & <- & Ib), Is as (s & <- & Is). cbn [rounded buying price] in *. exists c, b, s.
    split; [exact M|]. repeat (split; [assumption|]).
    pose proof (group_demand d b Ib Bb) as G1. pose proof (group_supply d s Is Bs) as G2. cbv zeta in G1, G2. fold rd in G1, G2. rewrite Pb in G1. rewrite Ps in G2.
    set (gb := qsumf qty (group_of 5 d (rounded 5 b))) in *. set (gs := qsumf qty (group_of 5 d (rounded 5 s))) in *. rewrite T.
    destruct (qmin_case (demand_above rd pb) (supply_below rd ps)) as [[-> ?]|[-> ?]], (qmax_case gb gs) as [[-> ?]|[-> ?]]; split; qlra.
  Qed.
  Theorem run_loss c x hi lo : Marginal rd ps pb c -> alloc_ok d x -> (forall r, In r rd -> if buying r then price r <= hi else lo <= price r) ->
    welfare d price x <= traded_surplus price d tl + (c - bought d tl) * (hi - lo) + (half_step + half_step) * (volume d x + bought d tl).
  Proof.
    intros M X H. destruct run_facts as (B & R & Bd & _ & W).
    assert (Hu : labels_unique d) by (unfold labels_unique; rewrite Hl; apply seq_NoDup).
    assert (Hn : qty_nonneg rd) by (intros r Hr; apply in_map_iff in Hr; destruct Hr as (y & <- & Hy); apply Qclt_le_weak; exact (Hq y Hy)).
    assert (Hu' : labels_unique rd) by (unfold labels_unique, rd; rewrite rounded_lbl; exact Hu).
    pose proof (outcome_loss rd tl ps pb c Hn Hu' (rounded_refer d tl R)) as L. unfold rd in L at 1 2. rewrite rounded_bought, rounded_sold in L.
    specialize (L B). assert (Bd' : forall r, In r rd -> 0 <= traded_by (lbl r) tl /\ traded_by (lbl r) tl <= qty r).
    { intros r Hr. apply in_map_iff in Hr. destruct Hr as (y & <- & Hy). exact (Bd y Hy). }
    specialize (L Bd' W M x hi lo (rounded_alloc d x X) H). unfold rd in L at 3. rewrite rounded_bought in L.
    pose proof (rounded_welfare d x X) as R1. pose proof (rounded_surplus d tl Hu R B (fun r Hr => proj1 (Bd r Hr))) as R2. fold rd in R1, R2.
    generalize dependent half_step. intros h R1 R2.
    replace ((h + h) * (volume d x + bought d tl)) with ((h + h) * volume d x + (h + h) * bought d tl) by ring.
    set (A1 := (h + h) * volume d x) in *. set (A2 := (h + h) * bought d tl) in *. set (A3 := (c - bought d tl) * (hi - lo)) in *. qlra.
  Qed.
  Theorem run_ratio c x : Marginal rd ps pb c -> alloc_ok d x -> demand_above rd pb = supply_below rd ps ->
    welfare rd price x * bought d tl <= traded_surplus price rd tl * c.
  Proof.
    intros M X Eq. destruct run_facts as (B & R & Bd & T & W).
    assert (Hu : labels_unique d) by (unfold labels_unique; rewrite Hl; apply seq_NoDup).
    assert (Hn : qty_nonneg rd) by (intros r Hr; apply in_map_iff in Hr; destruct Hr as (y & <- & Hy); apply Qclt_le_weak; exact (Hq y Hy)).
    assert (Hu' : labels_unique rd) by (unfold labels_unique, rd; rewrite rounded_lbl; exact Hu).
    assert (Bd' : forall r, In r rd -> 0 <= traded_by (lbl r) tl /\ traded_by (lbl r) tl <= qty r).
    { intros r Hr. apply in_map_iff in Hr. destruct Hr as (y & <- & Hy). exact (Bd y Hy). }
    assert (Br : bought rd tl = bought d tl) by apply rounded_bought. assert (Sr : sold rd tl = sold d tl) by apply rounded_sold.
    rewrite <- Br. apply (outcome_ratio rd tl ps pb c Hn Hu' (rounded_refer d tl R)); try assumption.
    - rewrite Br, Sr. exact B.
    - exact (rounded_alloc d x X).
    - rewrite Br, T, Eq. destruct (qmin_case (supply_below rd ps) (supply_below rd ps)) as [[-> _]|[-> _]]; reflexivity.
  Qed.
End Run.
