(** Runs and statistics of markets whose bids come from the data set generator. *)
From Verif Require Import QcTac Num ModelBase ModelCurves ModelHuang ModelMuda ModelP2P ModelMerge ModelDatasets ModelMarket ModelStats ListFacts Spec SpecTrade SpecMerge SpecMuda
  SpecAlloc SpecStats SpecHuang SpecSign SpecShort SpecErrors SpecTables SpecCompare SpecGen
  StoreFacts TradeFacts AllocFacts CoverFacts LPFacts P2PFacts P2PTrades MergeFacts HuangFacts HuangMarketFacts HuangMarketTop SignFacts StatsFacts StatsTop FairFacts FairRuns
  MudaFacts MudaErrors TableFacts TableMuda MarketFacts MarketTables MarketZero MarketTop MoreFacts BookTop LoneTop MarketOrder DatasetFacts ModelRound RoundFacts RoundMerge HuangLoss CompareTop
  NoTradeTop GenFacts GenIdle.

Lemma made_exists nb ns os ob r eps : 0 < eps -> exists bs, generate nb ns os ob r eps = Ok bs /\ made nb ns os ob bs.
Proof.
  intro He. destruct (generate_ok nb ns os ob r eps He) as (B & L & E & _). exists (B ++ L). split; [exact E|]. exists r, eps. auto.
Qed.

Section Made.
  Variables (nb ns : nat) (os ob : Qc) (bs : list bid).
  Hypothesis M : made nb ns os ob bs.
  Let d := table_of bs.
  Let m := market_of bs.

  Lemma made_lbl : map lbl d = seq 0 (length d).
  Proof. apply get_df_lbl. Qed.
  Lemma made_qty : qty_nonneg d.
  Proof. intros r Hr. apply (made_table _ _ _ _ _ M), Hr. Qed.
  Lemma made_price : 0 <= os -> 0 <= ob -> price_nonneg d.
  Proof. intros Ho Hb r Hr. destruct (made_table _ _ _ _ _ M) as (_ & _ & _ & _ & H). destruct (H r Hr) as (_ & _ & _ & _ & P). destruct (buying r); destruct P; qlra. Qed.
  Lemma made_below : ob + 1 <= os -> all_below d.
  Proof.
    intros Ho b s Ib Is Bb Bs. destruct (made_table _ _ _ _ _ M) as (_ & _ & _ & _ & H).
    destruct (H b Ib) as (_ & _ & _ & _ & Pb). destruct (H s Is) as (_ & _ & _ & _ & Ps). rewrite Bb in Pb. rewrite Bs in Ps. destruct Pb, Ps. qlra.
  Qed.
  Lemma made_above : os + 1 <= ob -> all_above d.
  Proof.
    intros Ho b s Ib Is Bb Bs. destruct (made_table _ _ _ _ _ M) as (_ & _ & _ & _ & H).
    destruct (H b Ib) as (_ & _ & _ & _ & Pb). destruct (H s Is) as (_ & _ & _ & _ & Ps). rewrite Bb in Pb. rewrite Bs in Ps. destruct Pb, Ps. qlra.
  Qed.
  (** a seller *)
  Lemma made_seller : (0 < ns)%nat -> exists s, In s d /\ buying s = false.
  Proof.
    intro P. destruct (made_table _ _ _ _ _ M) as (L & El & _ & _ & H). fold d in L, El, H.
    assert (I : In nb (map lbl d)) by (rewrite El; apply in_seq; lia). apply in_map_iff in I. destruct I as (s & E & Is). exists s. split; [exact Is|].
    destruct (H s Is) as (_ & _ & _ & B & _). destruct (buying s); [|reflexivity]. assert ((lbl s < nb)%nat) by (apply B; reflexivity). lia.
  Qed.
  Lemma made_not_lone : (0 < ns)%nat -> ~ lone_price (np_round 5) d.
  Proof. intros P (_ & B & _). destruct (made_seller P) as (s & Is & Bs). rewrite (B s Is) in Bs. discriminate. Qed.

  (** ** Which runs succeed *)
  Theorem made_p2p S c r : exists tm ex, snd (market_run S m (AP2P c r)) = Ok (tm, ex).
  Proof. apply market_p2p. Qed.
  Theorem made_muda S fl : length fl = (nb + ns)%nat -> exists tm ex, snd (market_run S m (AMuda fl)) = Ok (tm, ex).
  Proof.
    intro Lf. rewrite market_run_snd. fold d. change (get_df (mk_bm m)) with d. cbn [run_algo mechanism]. unfold mech_run0. destruct (_ || _); [eauto|].
    destruct (made_table _ _ _ _ _ M) as (Ld & El & Eu & _ & H). fold d in Ld, El, Eu, H.
    assert (Hu : labels_unique d) by apply labels_ok, made_lbl.
    destruct (muda_table S d fl Hu) as (_ & _ & K); [lia|]. cbv zeta in K.
    destruct K as (pl & pr & _ & _ & K & _).
    - intros (r1 & r2 & I1 & I2 & N & _ & _ & E). apply N. destruct (H r1 I1) as (U1 & _). destruct (H r2 I2) as (U2 & _). rewrite U1, U2 in E. lia.
    - assert (Sub : forall b r, In r (flipped b fl d) -> In r d).
      { intros b r I. apply in_map_iff in I. destruct I as ([x y] & <- & I). apply filter_In in I. destruct I as [I _]. apply in_combine_r in I. exact I. }
      assert (Pos : forall l, (forall r, In r l -> In r d) -> ~ overdrawn_list l).
      { intros l Hs (l1 & l2 & -> & L). revert L. apply Qcle_not_lt, qsumf_nonneg. intros r Ir. apply made_qty, Hs, in_or_app. left. exact Ir. }
      assert (Half : forall b, ~ overdrawn S (flipped b fl d)).
      { intros b [O|O]; revert O; apply Pos; intros r Ir.
        - apply (Permutation_in _ (s_desc_perm S _)) in Ir. apply filter_In in Ir. apply (Sub b), Ir.
        - apply (Permutation_in _ (s_asc_perm S _)) in Ir. apply filter_In in Ir. apply (Sub b), Ir. }
      intros [O|O]; revert O; apply Half.
    - destruct K as (tm & ex & E); [|exists tm, ex; exact E].
      assert (En : length (nodup Z.eq_dec (map user d)) = (nb + ns)%nat).
      { rewrite nodup_fixed_point.
        - rewrite Eu, map_length, seq_length. reflexivity.
        - rewrite Eu. apply FinFun.Injective_map_NoDup; [intros x y; lia | apply seq_NoDup]. }
      assert (P : forall b p u, pays S (flipped b fl d) p u -> in_range (nb + ns) u).
      { intros b p u Hp. destruct p as [q| | |]; cbn [pays] in Hp; try contradiction. destruct Hp as (_ & r & <- & l1 & l2 & Eq & _).
        assert (Ir : In r (flipped b fl d)).
        { assert (I : In r (queue S (long_side (flipped b fl d) q) q (flipped b fl d))) by (rewrite Eq; apply in_or_app; right; left; reflexivity).
          unfold queue in I. destruct (long_side _ _); [apply (Permutation_in _ (s_desc_perm S _)) in I | apply (Permutation_in _ (s_asc_perm S _)) in I];
            apply filter_In in I; apply I. }
        apply in_map_iff in Ir. destruct Ir as ([x y] & Ey & I). cbn [snd] in Ey. subst y. apply filter_In in I. destruct I as [I _]. apply in_combine_r in I.
        destruct (H r I) as (-> & _). assert (Il : In (lbl r) (map lbl d)) by (apply in_map, I). rewrite El in Il. apply in_seq in Il. unfold in_range. lia. }
      rewrite En. intros u [U|U]; exact (P _ _ _ U).
  Qed.
  Theorem made_huang S smp cnt : 0 < np_round 5 os -> 0 <= os -> 0 <= ob -> (0 < ns)%nat ->
    (zero_wins d -> snd (market_run S m (AHuang smp cnt)) = Err NaNProduced) /\
    (~ zero_wins d -> exists tm ex, snd (market_run S m (AHuang smp cnt)) = Ok (tm, ex)).
  Proof.
    intros Po Ho Hb P. destruct (market_huang_zero S m smp cnt) as [A1 A2].
    - exact made_qty.
    - exact (made_price Ho Hb).
    - intros r Hr B. apply in_map_iff in Hr. destruct Hr as (x & <- & Hx). cbn [rounded price buying] in *.
      destruct (made_table _ _ _ _ _ M) as (_ & _ & _ & _ & H). destruct (H x Hx) as (_ & _ & _ & _ & Q). rewrite B in Q. destruct Q as [Q _].
      pose proof (round_mono _ _ Q). qlra.
    - split; [exact A1|]. intro Z. apply A2; [exact Z | exact (made_not_lone P)].
  Qed.
  Theorem made_huang_pos S smp cnt : qty_pos d -> 0 <= os -> 0 <= ob -> (0 < ns)%nat -> exists tm ex, snd (market_run S m (AHuang smp cnt)) = Ok (tm, ex).
  Proof.
    intros Hq Ho Hb P. rewrite market_run_snd. change (get_df (mk_bm m)) with d. cbn [run_algo].
    destruct (huang_market S smp cnt d made_lbl Hq (made_price Ho Hb) (made_not_lone P)) as (tm & ex & E & _). eauto.
  Qed.

  (** ** Every bid below every ask *)
  Theorem made_apart S : ob + 1 <= os ->
    (forall c r tm ex, snd (market_run S m (AP2P c r)) = Ok (tm, ex) -> idle (tm_trans tm)) /\
    (forall fl tm ex, snd (market_run S m (AMuda fl)) = Ok (tm, ex) -> idle (tm_trans tm)) /\
    (0 <= ob -> (0 < ns)%nat -> forall smp cnt, exists tm, snd (market_run S m (AHuang smp cnt)) = Ok (tm, XEmpty) /\ tm_trans tm = []).
  Proof.
    intro Ho. pose proof (made_below Ho) as B. split; [|split].
    - intros c r tm ex. rewrite market_run_snd. apply (below_p2p d made_lbl made_qty B).
    - intros fl tm ex. rewrite market_run_snd. apply (below_muda d made_lbl made_qty B).
    - intros Hb P smp cnt. rewrite market_run_snd. apply (below_huang d made_lbl made_qty B); [apply made_price; qlra | exact (made_not_lone P)].
  Qed.
  Lemma run_table S a : get_df (mk_bm (fst (market_run S m a))) = d.
  Proof. unfold market_run. destruct (run_algo S a (get_df (mk_bm m))) as [[t x]|e]; reflexivity. Qed.
  Theorem made_apart_shares S sv a rp : ob + 1 <= os -> solver_ok sv -> let m' := fst (market_run S m a) in
    percentage_traded sv (get_df (mk_bm m')) (tm_trans (mk_trans m')) = Ok None /\
    percentage_welfare sv (get_df (mk_bm m')) (tm_trans (mk_trans m')) rp = Ok None.
  Proof.
    intros Ho Hsv. cbv zeta. rewrite run_table. pose proof (made_below Ho) as B. split.
    - apply (below_traded d made_lbl made_qty B _ _ Hsv).
    - apply (below_welfare d made_lbl made_qty B _ _ _ Hsv).
  Qed.
  Theorem made_apart_stats S sv smp cnt rp ex : ob + 1 <= os -> 0 <= ob -> (0 < ns)%nat -> solver_ok sv -> ~ In SProfits ex ->
    snd (statistics sv (fst (market_run S m (AHuang smp cnt))) rp ex) = Err ValueError.
  Proof.
    intros Ho Hb P Hsv N. destruct (made_apart_shares S sv (AHuang smp cnt) rp Ho Hsv) as [T W]. destruct (made_apart S Ho) as (_ & _ & K).
    destruct (K Hb P smp cnt) as (tm & E & E0). assert (F : stat_mem ex SProfits = false) by (apply not_true_iff_false; intro H; apply N, stat_mem_in, H).
    assert (Et : tm_trans (mk_trans (fst (market_run S m (AHuang smp cnt)))) = []).
    { revert E. unfold market_run. destruct (run_algo S (AHuang smp cnt) (get_df (mk_bm m))) as [[t x]|e]; cbn [fst snd mk_trans]; [intros [= -> _]; exact E0 | discriminate]. }
    set (m' := fst (market_run S m (AHuang smp cnt))) in *.
    assert (Ep : calculate_profits (get_df (mk_bm m')) (tm_trans (mk_trans m')) rp (extra_fees (mk_extra m')) = (Err ValueError, option_map (fun x => dict_fill x (get_df (mk_bm m'))) rp)).
    { rewrite Et. unfold calculate_profits. cbv zeta. cbn [join flat_map]. destruct rp; reflexivity. }
    unfold statistics, STATS. cbn [stats_loop]. change (existsb (stat_eqb SProfits) ex) with (stat_mem ex SProfits). rewrite F. unfold run_stat. rewrite T, W, Ep.
    destruct (existsb (stat_eqb STraded) ex), (existsb (stat_eqb SWelfare) ex); reflexivity.
  Qed.

  (** ** Every bid above every ask *)
  Theorem made_over S sv c r tm ex : os + 1 <= ob -> solver_ok sv -> snd (market_run S m (AP2P c r)) = Ok (tm, ex) ->
    let best := qmin (total_demand d) (total_supply d) in
    bought d (tm_trans tm) = best /\ percentage_traded sv d (tm_trans tm) = Ok (if qltb 0 best then Some 1 else None).
  Proof.
    intros Ho Hsv. rewrite market_run_snd. change (get_df (mk_bm m)) with d. intro E. pose proof (made_above Ho) as A. cbv zeta. split.
    - exact (above_run d made_lbl made_qty A S c r tm ex E).
    - exact (above_traded d made_lbl made_qty A sv S c r tm ex Hsv E).
  Qed.

  (** ** The Huang auction on the table *)
  Theorem made_loss S tm ps pb q : qty_pos d -> 0 <= os -> 0 <= ob -> huang_auction S d = Ok (tm, XHuang ps pb q) ->
    exists c, Marginal d ps pb c /\ bought d (tm_trans tm) < c /\ c < bought d (tm_trans tm) + 1.
  Proof.
    intros Hq Ho Hb E. destruct (made_table _ _ _ _ _ M) as (_ & _ & _ & D & H). fold d in D, H.
    destruct (huang_quantity S d tm ps pb q Hq (made_price Ho Hb) (labels_ok d made_lbl) D E) as (_ & c & rb & rs & Mg & Ib & Is & _ & _ & _ & _ & L1 & L2).
    exists c. split; [exact Mg|]. split; [exact L1|]. destruct (H rb Ib) as (_ & _ & Q1 & _). destruct (H rs Is) as (_ & _ & Q2 & _).
    destruct (qmax_case (qty rb) (qty rs)) as [[K _]|[K _]]; rewrite K in L2; qlra.
  Qed.
End Made.

(** the notebook "Efficiency and performance": [generate(i, i, 2, 1)], [run('huang')], [statistics()] *)
Theorem notebook S sv i bs smp cnt : (0 < i)%nat -> made i i (qz 2) 1 bs -> solver_ok sv ->
  snd (statistics sv (fst (market_run S (market_of bs) (AHuang smp cnt))) None []) = Err ValueError.
Proof.
  intros P M Hsv. apply (made_apart_stats i i (qz 2) 1 bs M); auto.
  - replace (1 + 1) with (qz 2) by (apply Qc_is_canon; reflexivity). apply Qcle_refl.
  - discriminate.
Qed.
