(** Markets in which every bid is below every ask, or every bid is above every ask. *)
From Verif Require Import QcTac Num ModelBase ModelCurves ModelHuang ModelMuda ModelP2P ModelMerge ModelDatasets ModelMarket ModelStats ListFacts Spec SpecTrade SpecMerge SpecMuda
  SpecAlloc SpecStats SpecHuang SpecSign SpecShort SpecErrors SpecTables SpecCompare SpecGen
  StoreFacts TradeFacts AllocFacts CoverFacts LPFacts P2PFacts P2PTrades MergeFacts HuangFacts HuangMarketFacts HuangMarketTop SignFacts StatsFacts StatsTop FairFacts FairRuns
  MudaFacts MudaErrors TableFacts TableMuda MarketFacts MarketTables MarketZero MarketTop MoreFacts BookTop LoneTop MarketOrder DatasetFacts ModelRound RoundFacts RoundMerge HuangLoss CompareTop GenFacts.

Lemma round_mono x y : x <= y -> np_round 5 x <= np_round 5 y.
Proof. exact (np_round_r_mono exact 5 x y). Qed.

Section Below.
  Variable d : df.
  Hypothesis Hl : map lbl d = seq 0 (length d).
  Hypothesis Hq : qty_nonneg d.
  Hypothesis Hb : all_below d.

  Lemma below_compat x : alloc_compat d x -> volume d x = 0.
  Proof.
    intro C. unfold volume. apply qsumf_zero. intros b Ib. apply qsumf_zero. intros s Is. apply C; auto.
    apply filter_In in Ib, Is. destruct Ib as [Ib Bb], Is as [Is Bs]. apply negb_true_iff in Bs. auto.
  Qed.
  Lemma below_traded sv tl : solver_ok sv -> percentage_traded sv d tl = Ok None.
  Proof.
    intro Hsv. destruct (traded_any sv d tl Hl Hq Hsv) as (x & v & _ & C & <- & _ & ->). rewrite (below_compat x C). reflexivity.
  Qed.
  Lemma below_welfare sv tl rp : solver_ok sv -> percentage_welfare sv d tl rp = Ok None.
  Proof.
    intro Hsv. destruct (welfare_spec sv d tl rp Hl Hq Hsv) as (x & w & A & <- & _ & ->).
    assert (L : welfare d price x <= 0).
    { unfold welfare. rewrite <- (qsumf_zero (fun _ : row => 0) (all_b d)) by reflexivity. apply qsumf_le. intros b Ib.
      rewrite <- (qsumf_zero (fun _ : row => 0) (all_s d)) by reflexivity. apply qsumf_le. intros s Is.
      pose proof (proj1 A b s Ib Is) as X. apply filter_In in Ib, Is. destruct Ib as [Ib Bb], Is as [Is Bs]. apply negb_true_iff in Bs.
      pose proof (Hb b s Ib Is Bb Bs) as P. rewrite <- (Qcmult_0_l (x (lbl b) (lbl s))). apply qmult_le_r; [exact X | qlra]. }
    destruct (qlt_spec 0 (welfare d price x)) as [K|K]; [exfalso; qlra | reflexivity].
  Qed.
  Lemma fair_idle tl : Fair d tl -> idle tl.
  Proof.
    intro F. assert (Hu : labels_unique d) by apply labels_ok, Hl.
    destruct (volume_optimum d Hu Hq) as (x & t & _ & C & V). pose proof (fair_volume d tl Hu F t Hq) as L. rewrite <- V, (below_compat x C) in L.
    pose proof (fair_balanced d tl F) as B. destruct (fair_feasible d tl F) as [N _].
    pose proof (total_qty d tl Hu (fair_refer d tl F)) as T. rewrite <- B in T.
    intros u Iu. apply in_split in Iu. destruct Iu as (l1 & l2 & ->). rewrite qsumf_app, qsumf_cons in T.
    assert (0 <= qsumf t_qty l1) by (apply qsumf_nonneg; intros z Hz; apply N, in_or_app; left; exact Hz).
    assert (0 <= qsumf t_qty l2) by (apply qsumf_nonneg; intros z Hz; apply N, in_or_app; right; right; exact Hz).
    assert (0 <= t_qty u) by (apply N, in_or_app; right; left; reflexivity). apply Qcle_antisym; [qlra | assumption].
  Qed.
  Lemma p2p_idle c r tm ex : p2p_random d c r = Ok (tm, ex) -> idle (tm_trans tm).
  Proof.
    intro E. destruct (run_shape d c r Hl Hq tm ex E) as (gtl & _ & -> & R & _). intros t Ht.
    apply trades_in in Ht. destruct Ht as (L1 & b & s & L2 & EL & Ht).
    assert (I : In (b, s) (all_pairs d)) by (apply R; rewrite EL; apply in_or_app; right; left; reflexivity).
    apply pair_iff in I. destruct I as (x & y & H1 & H2 & H3 & H4 & <- & <-).
    assert (Z : meet_q (map price d) (after (map price d) (map qty d) L1) (lbl x) (lbl y) = 0).
    { unfold meet_q. rewrite (get_price d Hl x H1), (get_price d Hl y H2). destruct (qle_spec (price y) (price x)) as [K|K]; [|reflexivity].
      pose proof (Hb x y H1 H2 H3 H4). exfalso. qlra. }
    destruct Ht as [->| ->]; exact Z.
  Qed.
  (** the run, as a market makes it *)
  Lemma below_p2p c r tm ex S : run_algo S (AP2P c r) d = Ok (tm, ex) -> idle (tm_trans tm).
  Proof. intro E. apply mech0_inv in E. destruct E as [[-> _]|E]; [intros ? [] | eapply p2p_idle; eauto]. Qed.
  Lemma below_muda S fl tm ex : run_algo S (AMuda fl) d = Ok (tm, ex) -> idle (tm_trans tm).
  Proof.
    intro E. apply mech0_inv in E. destruct E as [[-> _]|E]; [intros ? []|].
    apply fair_idle. eapply muda_fair; eauto. apply labels_ok, Hl.
  Qed.
  Lemma below_huang S smp cnt : price_nonneg d -> ~ lone_price (np_round 5) d ->
    exists tm, run_algo S (AHuang smp cnt) d = Ok (tm, XEmpty) /\ tm_trans tm = [].
  Proof.
    intros Hp Lo. cbn [run_algo]. destruct (huang_run_any S smp cnt d Hl) as (A1 & _ & A3). cbv zeta in A1, A3.
    pose proof (huang_run_sound S smp cnt d Hl Hq) as Sd. cbv zeta in Sd.
    assert (K : forall tm, mechanism (Some (smp, cnt)) (huang_auction S) d = Ok (tm, XEmpty) -> tm_trans tm = []).
    { intros tm E. destruct (Sd tm XEmpty E) as (_ & _ & _ & _ & _ & NE). destruct (tm_trans tm) as [|t l]; [reflexivity|].
      destruct NE as (ps & pb & q & X & _); [discriminate | discriminate X]. }
    clear Sd. cut (exists tm, mechanism (Some (smp, cnt)) (huang_auction S) d = Ok (tm, XEmpty)); [intros (tm & E); eauto|].
    assert (T : two_sided d \/ ~ two_sided d).
    { destruct (filter buying d) as [|b l] eqn:F1.
      - right. intros ((z & Hz & Bz) & _). assert (I : In z (filter buying d)) by (apply filter_In; auto). rewrite F1 in I. exact I.
      - destruct (filter (fun r => negb (buying r)) d) as [|s l'] eqn:F2.
        + right. intros (_ & z & Hz & Bz). assert (I : In z (filter (fun r => negb (buying r)) d)) by (apply filter_In; rewrite Bz; auto). rewrite F2 in I. exact I.
        + left. split; [exists b | exists s].
          * assert (I : In b (filter buying d)) by (rewrite F1; left; reflexivity). apply filter_In in I. exact I.
          * assert (I : In s (filter (fun r => negb (buying r)) d)) by (rewrite F2; left; reflexivity). apply filter_In in I.
            rewrite negb_true_iff in I. exact I. }
    destruct T as [T|T]; [|exists tm_init; apply A1; assumption].
    assert (Sh : ~ short (map (rounded 5) d)).
    { intros (x & Hx & L). assert (Q : qty_nonneg (map (rounded 5) d)) by (intros z Hz; apply in_map_iff in Hz; destruct Hz as (w & <- & Hw); exact (Hq w Hw)).
      assert (N : forall f, 0 <= qsumf qty (filter f (map (rounded 5) d))) by (intro f; apply qsumf_nonneg; intros z Hz; apply filter_In in Hz; apply Q, Hz).
      unfold demand_at, supply_at in L. destruct (buying x); apply (Qcle_not_lt _ _ (N _) L). }
    destruct (A3 T Sh) as (md & mp & c & tm0 & ex & M & E & _ & K2).
    destruct (merge_same_price_ok 5 smp d cnt) as (mb & ms & c2 & M' & O). rewrite M in M'. injection M' as -> -> ->.
    pose proof (merged_qty_nonneg _ _ _ _ _ _ O Hq) as Mq. pose proof (huang_any_cases S _ Mq) as C. rewrite E in C.
    inversion C as [E1|B1 B2 L1 rs L2 qs qb tm' q pb EB EL Nb Lp D E1].
    - subst tm0 ex. apply K2. intros ? ? [].
    - exfalso. assert (Is : In rs (map fst (mb ++ ms)) /\ buying rs = false).
      { assert (I : In rs (sellers (map fst (mb ++ ms)))) by (apply (Permutation_in _ (s_asc_perm S _)); rewrite EL; apply in_or_app; right; left; reflexivity).
        apply filter_In in I. rewrite negb_true_iff in I. exact I. }
      destruct Is as [Is Bs]. destruct (merged_price_round _ _ _ _ _ _ O rs Is) as (xs & Ixs & Bxs & Ps). rewrite Bs in Bxs.
      unfold next_buy in Nb. destruct B2 as [|rb B2].
      + pose proof (np_round_nonneg 5 (price xs) (Hp xs Ixs)) as N. rewrite <- Ps in N. subst pb. qlra.
      + assert (Ib : In rb (map fst (mb ++ ms)) /\ buying rb = true).
        { assert (I : In rb (buyers (map fst (mb ++ ms)))) by (apply (Permutation_in _ (s_desc_perm S _)); rewrite EB; apply in_or_app; right; left; reflexivity).
          apply filter_In in I. exact I. }
        destruct Ib as [Ib Bb]. destruct (merged_price_round _ _ _ _ _ _ O rb Ib) as (xb & Ixb & Bxb & Pb). rewrite Bb in Bxb.
        pose proof (round_mono _ _ (Qclt_le_weak _ _ (Hb xb xs Ixb Ixs Bxb Bxs))) as R. rewrite <- Ps, <- Pb in R. subst pb. qlra.
  Qed.
End Below.

Section Above.
  Variable d : df.
  Hypothesis Hl : map lbl d = seq 0 (length d).
  Hypothesis Hq : qty_nonneg d.
  Hypothesis Ha : all_above d.
  Let best := qmin (total_demand d) (total_supply d).

  Lemma above_max x t : alloc_ok d x -> volume d x = wanted_above d price t + offered_at d price t -> volume d x = best.
  Proof.
    intros (X0 & X1 & X2) V. apply Qcle_antisym.
    - unfold best. apply qmin_glb.
      + unfold volume, total_demand. apply qsumf_le. exact X1.
      + unfold volume, total_supply. rewrite qsumf_swap. apply qsumf_le. exact X2.
    - rewrite V. assert (N : forall f, 0 <= qsumf qty (filter f (all_b d)) /\ 0 <= qsumf qty (filter f (all_s d))).
      { intro f. split; apply qsumf_nonneg; intros z Hz; apply filter_In in Hz; destruct Hz as [Hz _]; apply filter_In in Hz; apply Hq, Hz. }
      assert (K : wanted_above d price t = total_demand d \/ offered_at d price t = total_supply d).
      { destruct (filter (fun r => negb (qltb t (price r))) (all_b d)) as [|b l] eqn:F.
        - left. unfold wanted_above. rewrite filter_all; [reflexivity|]. intros z Hz. destruct (qltb t (price z)) eqn:L; [reflexivity|]. exfalso.
          assert (I : In z (filter (fun r => negb (qltb t (price r))) (all_b d))) by (apply filter_In; rewrite L; auto). rewrite F in I. exact I.
        - right. assert (I : In b (filter (fun r => negb (qltb t (price r))) (all_b d))) by (rewrite F; left; reflexivity).
          apply filter_In in I. destruct I as [I L]. apply negb_true_iff, qltb_ge in L. apply filter_In in I. destruct I as [I Bb].
          unfold offered_at. rewrite filter_all; [reflexivity|]. intros z Hz. apply filter_In in Hz. destruct Hz as [Hz Bz]. apply negb_true_iff in Bz.
          pose proof (Ha b z I Hz Bb Bz). apply qleb_le. qlra. }
      pose proof (proj1 (N (fun r => qltb t (price r)))) as N1. pose proof (proj2 (N (fun r => qleb (price r) t))) as N2.
      change (0 <= wanted_above d price t) in N1. change (0 <= offered_at d price t) in N2.
      unfold best. destruct K as [-> | ->]; destruct (qmin_case (total_demand d) (total_supply d)) as [[-> ?]|[-> ?]]; qlra.
  Qed.
  Lemma above_p2p c r tm ex : p2p_random d c r = Ok (tm, ex) -> bought d (tm_trans tm) = best.
  Proof.
    intro E. assert (Hu : labels_unique d) by apply labels_ok, Hl.
    pose proof (p2p_refer d c r Hl Hq tm ex E) as Rf. destruct (p2p_feasible d c r Hl Hq tm ex E) as [_ Fe]. pose proof (p2p_balanced d c r Hl Hq tm ex E) as B.
    pose proof (bought_by d _ Hu Rf) as EB. pose proof (sold_by d _ Hu Rf) as ES.
    assert (LB : bought d (tm_trans tm) <= total_demand d) by (rewrite EB; apply qsumf_le; intros z Hz; apply filter_In in Hz; apply Fe, Hz).
    assert (LS : sold d (tm_trans tm) <= total_supply d) by (rewrite ES; apply qsumf_le; intros z Hz; apply filter_In in Hz; apply Fe, Hz).
    rewrite <- B in LS. apply Qcle_antisym; [unfold best; apply qmin_glb; assumption|].
    assert (K : bought d (tm_trans tm) = total_demand d \/ sold d (tm_trans tm) = total_supply d).
    { destruct (filter (fun x => negb (qeqb (traded_by (lbl x) (tm_trans tm)) (qty x))) (all_b d)) as [|b l] eqn:F.
      - left. rewrite EB. apply qsumf_ext. intros z Hz. destruct (qeqb (traded_by (lbl z) (tm_trans tm)) (qty z)) eqn:Q; [apply qeqb_eq, Q|]. exfalso.
        assert (I : In z (filter (fun x => negb (qeqb (traded_by (lbl x) (tm_trans tm)) (qty x))) (all_b d))) by (apply filter_In; rewrite Q; auto). rewrite F in I. exact I.
      - right. assert (I : In b (filter (fun x => negb (qeqb (traded_by (lbl x) (tm_trans tm)) (qty x))) (all_b d))) by (rewrite F; left; reflexivity).
        apply filter_In in I. destruct I as [I L]. apply negb_true_iff, qeqb_neq in L. apply filter_In in I. destruct I as [I Bb].
        rewrite ES. apply qsumf_ext. intros z Hz. apply filter_In in Hz. destruct Hz as [Hz Bz]. apply negb_true_iff in Bz.
        destruct (p2p_exhausts d c r Hl Hq tm ex E b z I Hz Bb Bz (Qclt_le_weak _ _ (Ha b z I Hz Bb Bz))) as [X|X]; [contradiction | exact X]. }
    rewrite B in *. unfold best. destruct K as [K|K]; rewrite K in *; destruct (qmin_case (total_demand d) (total_supply d)) as [[-> ?]|[-> ?]]; qlra.
  Qed.
  Lemma above_run S c r tm ex : run_algo S (AP2P c r) d = Ok (tm, ex) -> bought d (tm_trans tm) = best.
  Proof.
    cbn [run_algo]. unfold mechanism, mech_run0. destruct (_ || _) eqn:X; [|apply above_p2p]. intros [= <- _]. change (bought d (tm_trans tm_init)) with 0.
    apply unmixed in X. assert (N : 0 <= total_demand d /\ 0 <= total_supply d).
    { split; apply qsumf_nonneg; intros z Hz; apply filter_In in Hz; apply Hq, Hz. }
    unfold best. destruct X as [X|X].
    - assert (Z : total_supply d = 0) by (unfold total_supply; rewrite filter_none; [reflexivity | intros z Hz; rewrite (X z Hz); reflexivity]). destruct (qmin_case (total_demand d) (total_supply d)) as [[-> ?]|[-> ?]]; qlra.
    - assert (Z : total_demand d = 0) by (unfold total_demand; rewrite filter_none; [reflexivity | exact X]). destruct (qmin_case (total_demand d) (total_supply d)) as [[-> ?]|[-> ?]]; qlra.
  Qed.
  Lemma above_traded sv S c r tm ex : solver_ok sv -> run_algo S (AP2P c r) d = Ok (tm, ex) ->
    percentage_traded sv d (tm_trans tm) = Ok (if qltb 0 best then Some 1 else None).
  Proof.
    intros Hsv E. destruct (max_volume d Hl sv Hq Hsv) as (x & t & vars & Ex & X1 & X2 & X3 & _).
    pose proof (above_max x t X1 X3) as V. pose proof (above_run S c r tm ex E) as B. assert (Hu : labels_unique d) by apply labels_ok, Hl.
    assert (BS : bought d (tm_trans tm) = sold d (tm_trans tm) /\ refer d (tm_trans tm)).
    { apply mech0_inv in E. destruct E as [[-> _]|E]; [split; [reflexivity | intros ? []]|].
      split; [eapply p2p_balanced; eauto | eapply p2p_refer; eauto]. }
    unfold percentage_traded. rewrite Ex. cbn [bind ratio]. change (qsum (map t_qty (tm_trans tm))) with (qsumf t_qty (tm_trans tm)).
    rewrite (total_qty d (tm_trans tm) Hu (proj2 BS)), (half_sum _ _ (proj1 BS)), B, V.
    destruct (qlt_spec 0 best) as [P|P]; [|reflexivity]. do 2 f_equal. field. intro Z. rewrite Z in P. qlra.
  Qed.
End Above.
