(** The statements about [Market.run("huang")] and about generated markets. *)
From Verif Require Import QcTac Num ModelBase ModelCurves ModelHuang ModelMerge ModelMarket Spec SpecTrade SpecMerge SpecMuda SpecStats SpecAlloc SpecHuang SpecMarketLoss SpecGen
  ListFacts StoreFacts TradeFacts HuangMarketFacts HuangMarketTop MarketLoss GenFacts.

(** rounded prices that differ leave every group with one bid *)
Lemma group_single d x : prices_distinct (map (rounded 5) d) -> labels_unique d -> In x d -> qsumf qty (group_of 5 d (rounded 5 x)) = qty x.
Proof.
  intros [D1 D2] Hu Ix.
  assert (U : forall y, In y d -> in_group 5 (rounded 5 x) y = true -> y = x).
  { intros y Iy G. apply in_group_iff in G. destruct G as [Gb Gp]. cbn [rounded buying price] in Gb, Gp.
    assert (K : forall f : row -> bool, NoDup (map price (filter f (map (rounded 5) d))) -> f (rounded 5 x) = true -> f (rounded 5 y) = true -> y = x).
    { intros f N Fx Fy. assert (R : rounded 5 y = rounded 5 x).
      { apply (NoDup_map_in price (filter f (map (rounded 5) d)) _ _ N); [apply filter_In; split; [apply in_map, Iy | exact Fy] | apply filter_In; split; [apply in_map, Ix | exact Fx] | exact Gp]. }
      apply (f_equal lbl) in R. cbn [rounded lbl] in R. exact (NoDup_map_in lbl d y x Hu Iy Ix R). }
    destruct (buying x) eqn:B; [apply (K buying D1) | apply (K (fun r => negb (buying r)) D2)]; cbn [rounded buying]; rewrite ?Gb, ?B; reflexivity. }
  unfold group_of. rewrite qsumf_filter. rewrite (qsumf_ext _ (fun b => if in_group 5 (rounded 5 x) b then qty x else 0)).
  - apply (sum_single d x (in_group 5 (rounded 5 x))); [exact (NoDup_map_inv lbl d Hu) | exact Ix | apply in_group_iff; split; reflexivity | exact U].
  - intros b Hb. fold (in_group 5 (rounded 5 x) b). destruct (in_group 5 (rounded 5 x) b) eqn:G; [rewrite (U b Hb G)|]; reflexivity.
Qed.

Section Market.
  Variables (S : sorter) (m : market) (smp : nat -> nat) (cnt : Z).
  Let d := get_df (mk_bm m).
  Let rd := map (rounded 5) d.
  Hypothesis Hq : qty_pos d.
  Hypothesis Hp : price_nonneg d.
  Variables (tm : transmgr) (ps pb q : Qc).
  Hypothesis E : snd (market_run S m (AHuang smp cnt)) = Ok (tm, XHuang ps pb q).
  Let tl := tm_trans tm.
  Lemma run_mech : mechanism (Some (smp, cnt)) (huang_auction S) d = Ok (tm, XHuang ps pb q).
  Proof. rewrite market_run_snd in E. exact E. Qed.

  Theorem market_quantity : exists c b s, Marginal rd ps pb c /\ In b d /\ In s d /\ buying b = true /\ buying s = false /\ np_round 5 (price b) = pb /\ np_round 5 (price s) = ps /\
    bought d tl = qmin (demand_above rd pb) (supply_below rd ps) /\ bought d tl < c /\
    c <= bought d tl + qmax (qsumf qty (group_of 5 d (rounded 5 b))) (qsumf qty (group_of 5 d (rounded 5 s))) /\
    (prices_distinct rd -> c <= bought d tl + qmax (qty b) (qty s)).
  Proof.
    destruct (run_quantity S smp cnt d (get_df_lbl _) Hq Hp tm ps pb q run_mech) as (c & b & s & M & Ib & Is & Bb & Bs & Pb & Ps & T & L1 & L2).
    exists c, b, s. repeat (split; [assumption|]). intro D.
    assert (Hu : labels_unique d) by (unfold labels_unique, d; rewrite get_df_lbl; apply seq_NoDup).
    rewrite (group_single d b D Hu Ib), (group_single d s D Hu Is) in L2. exact L2.
  Qed.
  Theorem market_loss c x hi lo : Marginal rd ps pb c -> alloc_ok d x -> (forall r, In r rd -> if buying r then price r <= hi else lo <= price r) ->
    welfare d price x <= traded_surplus price d tl + (c - bought d tl) * (hi - lo) + (half_step + half_step) * (volume d x + bought d tl).
  Proof. exact (run_loss S smp cnt d (get_df_lbl _) Hq Hp tm ps pb q run_mech c x hi lo). Qed.
  Theorem market_ratio c x : Marginal rd ps pb c -> alloc_ok d x -> demand_above rd pb = supply_below rd ps ->
    welfare rd price x * bought d tl <= traded_surplus price rd tl * c.
  Proof. exact (run_ratio S smp cnt d (get_df_lbl _) Hq Hp tm ps pb q run_mech c x). Qed.
End Market.

(** generated bids whose prices stay different after rounding *)
Theorem made_run_loss nb ns os ob bs (S : sorter) smp cnt tm ps pb q : made nb ns os ob bs -> qty_pos (table_of bs) -> 0 <= os -> 0 <= ob ->
  prices_distinct (map (rounded 5) (table_of bs)) -> snd (market_run S (market_of bs) (AHuang smp cnt)) = Ok (tm, XHuang ps pb q) ->
  exists c, Marginal (map (rounded 5) (table_of bs)) ps pb c /\ bought (table_of bs) (tm_trans tm) < c /\ c < bought (table_of bs) (tm_trans tm) + 1.
Proof.
  intros M Hq Ho Hb D E. destruct (made_table _ _ _ _ _ M) as (_ & _ & _ & _ & H). cbv zeta in H.
  assert (Hp : price_nonneg (table_of bs)).
  { intros r Hr. destruct (H r Hr) as (_ & _ & _ & _ & P). destruct (buying r); destruct P; qlra. }
  destruct (market_quantity S (market_of bs) smp cnt Hq Hp tm ps pb q E) as (c & b & s & Mg & Ib & Is & _ & _ & _ & _ & _ & L1 & _ & L2).
  specialize (L2 D). exists c. split; [exact Mg|]. split; [exact L1|].
  destruct (H b Ib) as (_ & _ & Q1 & _). destruct (H s Is) as (_ & _ & Q2 & _). fold (table_of bs) in L2.
  destruct (qmax_case (qty b) (qty s)) as [[K _]|[K _]]; rewrite K in L2; qlra.
Qed.
