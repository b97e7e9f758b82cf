(** The figures of a market after a run. *)
From Coq Require Import QArith.Qround.
From Verif Require Import QcTac Num NumFacts ListFacts ModelBase ModelCurves ModelHuang ModelMuda ModelP2P ModelMarket ModelPlot
  Spec SpecTrade SpecMuda SpecHuang SpecStats SpecPlot P2PFacts P2PTrades CurveFacts MudaTop UpdateFacts HuangMarketFacts FairRuns MergeFacts StatsFacts
  PlotFacts PlotGraph.

(** ** Where the drawn curves cross *)
Theorem plot_crossing S mx my d ps pb c x vd vs : qty_nonneg d -> price_nonneg d -> 1 <= my -> Marginal d ps pb c ->
  let f := plot_demand_curves S mx my d in
  Drawn (fig_dx f) (fig_dy f) x vd -> Drawn (fig_sx f) (fig_sy f) x vs ->
  (x < c -> vs < vd) /\ (c <= x -> vd <= vs).
Proof.
  intros Hq Hp My (C0 & Lp & D1 & D2 & S1 & S2 & Mx) f Dd Ds.
  destruct (plot_demand S mx my d Hq Hp x vd Dd) as (X0 & V0 & CD). destruct (plot_supply S mx my d Hq Hp x vs Ds) as (_ & CS & CT).
  pose proof (supply_le S d Hq ps) as TS. split; intro L.
  - destruct CS as [V1 CS]; [qlra|]. assert (vs <= ps) by (apply CS; qlra). assert (pb <= vd) by (apply CD; qlra). qlra.
  - destruct (Qclt_le_dec vs vd) as [K|K]; [|exact K]. exfalso.
    destruct (Qclt_le_dec x (total_supply d)) as [T|T].
    + destruct (CS T) as [V1 CS']. assert (x < demand_at d vd) by (apply CD; qlra). assert (x < supply_at d vd) by (apply CS'; qlra).
      specialize (Mx vd). destruct (qmin_case (demand_at d vd) (supply_at d vd)) as [[E _]|[E _]]; rewrite E in Mx; qlra.
    + pose proof (top_best S d) as B. rewrite (CT T _ B) in K. pose proof (best_nonneg d Hp _ B) as B0.
      set (m := top_bid (s_desc S (buyers d))) in *. clearbody m.
      assert (0 <= m * (my - 1)) by (apply qmult_nonneg; qlra). replace (m * my) with (m + m * (my - 1)) in K by ring.
      assert (P : 0 < vd) by qlra. assert (x < demand_at d vd) by (apply CD; [exact P | apply Qcle_refl]).
      assert (demand_at d vd = 0); [|qlra]. unfold demand_at. rewrite qsumf_filter. apply qsumf_zero. intros r Hr.
      destruct (buying r) eqn:Br; cbn [andb]; [|reflexivity]. destruct B as [B _]. specialize (B r Hr Br). rewrite (proj2 (qleb_gt _ _)) by qlra. reflexivity.
Qed.

(** ** p2p *)
Lemma market_run_inv S m a m' tm ex : market_run S m a = (m', Ok (tm, ex)) ->
  run_algo S a (get_df (mk_bm m)) = Ok (tm, ex) /\ mk_bm m' = mk_bm m /\ mk_trans m' = tm /\ mk_extra m' = ex.
Proof. unfold market_run. destruct (run_algo S a _) as [[t x]|e]; intro E; inversion E; subst; auto. Qed.
Theorem plot_p2p S m c r m' tm ex : let d := get_df (mk_bm m) in qty_nonneg d -> NoDup (map user d) ->
  market_run S m (AP2P c r) = (m', Ok (tm, ex)) ->
  exists f, plot_method S m' MP2P = FTrades f /\
    (forall x y, In x d -> In y d -> (joins (fig_edges f) (user x) (user y) <-> met (tm_trans tm) x y)) /\
    Forall2 (labelled d) (filter (on_side true d) (tm_trans tm)) (fig_labels f) /\
    qsumf snd (fig_labels f) = bought d (tm_trans tm).
Proof.
  intros d Hq Hn E. apply market_run_inv in E. destruct E as (E & E1 & E2 & E3). unfold plot_method. rewrite E1, E2. fold d in E |- *.
  assert (Hl : map lbl d = seq 0 (length d)) by apply get_df_lbl. pose proof (labels_ok d Hl) as Hu.
  eexists. split; [reflexivity|]. apply mech0_inv in E.
  assert (K : exists L, Meetings L (tm_trans tm) /\ NoDup L /\ forall p, In p L -> is_meeting d p).
  { destruct E as [[-> _]|E].
    - exists []. split; [constructor|]. split; [constructor | intros ? []].
    - destruct (p2p_matching d c r Hl Hq tm ex E) as (gtl & _ & M & ND & _ & W). exists (concat gtl). split; [exact M|]. split; [exact ND|].
      intros [b s] Hp. destruct (W b s Hp) as (x & y & Hx & Hy & Bx & By & F1 & F2). exists x, y. repeat split; auto. }
  destruct K as (L & M & ND & W). split; [|split].
  - intros x y Hx Hy. apply (graph_joins d L); assumption.
  - rewrite (graph_labels d Hu Hn L) by assumption. apply (lab_labelled d Hu L); assumption.
  - rewrite (graph_labels d Hu Hn L) by assumption. apply labels_total.
Qed.
Lemma plot_layout S m f : (forall r, In r (get_df (mk_bm m)) -> user r = Z.of_nat (lbl r)) -> plot_method S m MP2P = FTrades f ->
  forall r, In r (get_df (mk_bm m)) -> ((exists i, In i (fig_top f) /\ Z.of_nat i = user r) <-> buying r = true).
Proof.
  intros Hi E r Hr. cbn [plot_method] in E. injection E as <-. cbn [plot_trades_as_graph fig_top].
  pose proof (labels_ok _ (get_df_lbl (mk_bm m))) as Hu. split.
  - intros (i & Ii & Ei). apply in_map_iff in Ii. destruct Ii as (y & <- & Hy). apply filter_In in Hy. destruct Hy as [Hy By].
    rewrite (Hi r Hr) in Ei. apply Nat2Z.inj in Ei. rewrite <- (NoDup_map_in lbl _ y r Hu Hy Hr Ei). exact By.
  - intro B. exists (lbl r). split; [|symmetry; apply Hi, Hr]. apply in_map. apply filter_In. auto.
Qed.

(** ** MUDA *)
Theorem plot_muda S m fl m' tm ex : let d := get_df (mk_bm m) in qty_nonneg d -> market_run S m (AMuda fl) = (m', Ok (tm, ex)) ->
  (plot_method S m' MMuda = FNone /\ tm_trans tm = []) \/
  exists f l r, plot_method S m' MMuda = FMuda f /\ Permutation (l ++ r) (map lbl d) /\
    fig_left f = plot_demand_curves S margin margin (rows_in l d) /\ fig_right f = plot_demand_curves S margin margin (rows_in r d) /\
    forall t, In t (tm_trans tm) -> (In (t_bid t) l /\ fig_left_line f = Fin (t_price t)) \/ (In (t_bid t) r /\ fig_right_line f = Fin (t_price t)).
Proof.
  intros d Hq E. apply market_run_inv in E. destruct E as (E & E1 & E2 & E3). unfold plot_method. rewrite E1, E3. fold d in E |- *.
  pose proof (labels_ok d (get_df_lbl (mk_bm m))) as Hu. apply mech0_inv in E. destruct E as [[-> ->]|E]; [left; split; reflexivity|].
  destruct (top_split S d fl tm ex Hq Hu E) as (l & r & pl & pr & fees & -> & P & _ & _ & _ & _ & T).
  right. eexists. exists l, r. split; [reflexivity|]. split; [exact P|]. split; [reflexivity|]. split; [reflexivity|]. exact T.
Qed.

(** ** Huang *)
Lemma ceil_step q step : 0 < q -> 0 < step -> exists n, Z.to_nat (Qceiling (this (q / step))) = Datatypes.S n /\ qnat n * step < q /\ q <= qnat (Datatypes.S n) * step.
Proof.
  intros Q P. assert (N : step <> 0) by (intro Z; rewrite Z in P; revert P; apply Qcle_not_lt, Qcle_refl).
  assert (D : q / step * step = q) by (field; exact N).
  set (z := q / step) in *. assert (Z0 : 0 < z).
  { destruct (Qclt_le_dec 0 z) as [L|L]; [exact L|]. exfalso. assert (0 <= (- z) * step) by (apply qmult_nonneg; qlra). replace (- z * step) with (- (z * step)) in H by ring. qlra. }
  pose proof (Qle_ceiling (this z)) as C1. pose proof (Qceiling_lt (this z)) as C2. set (k := Qceiling (this z)) in *.
  assert (K1 : z <= qz k) by (unfold Qcle; rewrite this_qz; exact C1).
  assert (K2 : qz (k - 1) < z) by (unfold Qclt; rewrite this_qz; exact C2).
  assert (K0 : (0 < k)%Z). { apply (proj2 (qz_lt _ _)). rewrite qz_0. qlra. }
  exists (Z.to_nat (k - 1)). split; [lia|].
  assert (QN : forall n, qnat n = qz (Z.of_nat n)) by reflexivity.
  rewrite !QN. rewrite Z2Nat.id by lia. replace (Z.of_nat (Datatypes.S (Z.to_nat (k - 1)))) with k by lia. rewrite <- D. split.
  - assert (0 < (z - qz (k - 1)) * step) by (apply qmult_pos; qlra). replace ((z - qz (k - 1)) * step) with (z * step - qz (k - 1) * step) in H by ring. qlra.
  - assert (0 <= (qz k - z) * step) by (apply qmult_nonneg; qlra). replace ((qz k - z) * step) with (qz k * step - z * step) in H by ring. qlra.
Qed.
Lemma arange_points q step : 0 < q -> 0 < step -> (forall x, In x (arange q step) -> 0 <= x /\ x < q) /\ In 0 (arange q step) /\ exists x, In x (arange q step) /\ q - step <= x.
Proof.
  intros Q P. destruct (ceil_step q step Q P) as (n & E & L1 & L2). unfold arange. rewrite E. split; [|split].
  - intros x Hx. apply in_map_iff in Hx. destruct Hx as (i & <- & Hi). apply in_seq in Hi.
    assert (qnat i <= qnat n) by (unfold qnat; apply (proj1 (qz_le _ _)); lia).
    assert (0 <= qnat i) by (unfold qnat; rewrite <- qz_0; apply (proj1 (qz_le _ _)); lia). split.
    + apply qmult_nonneg; qlra.
    + assert (0 <= (qnat n - qnat i) * step) by (apply qmult_nonneg; qlra). replace ((qnat n - qnat i) * step) with (qnat n * step - qnat i * step) in H1 by ring. qlra.
  - apply in_map_iff. exists 0%nat. split; [unfold qnat; change (qz (Z.of_nat 0)) with 0; ring | apply in_seq; lia].
  - exists (qnat n * step). split; [apply in_map_iff; exists n; split; [reflexivity | apply in_seq; lia]|].
    assert (Eq : qnat (Datatypes.S n) = qnat n + 1) by apply qnat_S. rewrite Eq in L2.
    replace ((qnat n + 1) * step) with (qnat n * step + step) in L2 by ring. qlra.
Qed.
Theorem plot_huang S m smp cnt m' tm ex : let d := get_df (mk_bm m) in qty_pos d -> price_nonneg d ->
  market_run S m (AHuang smp cnt) = (m', Ok (tm, ex)) ->
  tm_trans tm = [] \/
  exists f, plot_method S m' MHuang = FHuang f /\
    (forall t r, In t (tm_trans tm) -> In r d -> lbl r = t_bid t -> t_price t = if buying r then fig_buy_line f else fig_sell_line f) /\
    fig_sell_line f < fig_buy_line f /\
    bought d (tm_trans tm) = fig_quantity_line f /\ sold d (tm_trans tm) = fig_quantity_line f /\
    (fig_buy_line f - fig_sell_line f) * fig_quantity_line f = money true d (tm_trans tm) - money false d (tm_trans tm) /\
    fig_curves f = plot_demand_curves S margin margin d /\
    (0 < fig_quantity_line f -> (forall x, In x (fig_fill_x f) -> 0 <= x /\ x < fig_quantity_line f) /\ In 0 (fig_fill_x f) /\
       exists x, In x (fig_fill_x f) /\ fig_quantity_line f - qf 1 100 <= x).
Proof.
  intros d Hq Hp E. destruct (market_run_huang S m smp cnt Hq Hp (run_not_lone _ _ _ _ _ (f_equal snd E))) as (tm1 & ex1 & E0 & Bal & _ & Rf & _ & C).
  fold d in Bal, Rf, C. rewrite E in E0. cbn [snd] in E0. injection E0 as <- <-. apply market_run_inv in E. destruct E as (_ & E1 & E2 & E3).
  destruct C as [C|(ps & pb & q & -> & Eq & Lp & T)]; [left; exact C|]. right. unfold plot_method. rewrite E1, E3. fold d.
  eexists. split; [reflexivity|]. cbn [plot_huang_auction fig_curves fig_sell_line fig_buy_line fig_quantity_line fig_fill_x].
  split; [|split; [|split; [|split; [|split; [|split]]]]].
  - intros t r Ht Hr El. specialize (T t r Ht Hr El). destruct (buying r); apply T.
  - exact Lp.
  - symmetry; exact Eq.
  - rewrite <- Bal. symmetry; exact Eq.
  - assert (K : forall s, money s d (tm_trans tm) = (if s then pb else ps) * qsumf t_qty (filter (on_side s d) (tm_trans tm))).
    { intro s. unfold money. rewrite <- qsumf_scale. apply qsumf_ext. intros t Ht. apply filter_In in Ht. destruct Ht as [Ht Os].
      apply on_side_ex in Os. destruct Os as (r & Hr & El & Br). specialize (T t r Ht Hr El). rewrite Br in T. destruct s; destruct T as [-> _]; reflexivity. }
    rewrite !K. fold (bought d (tm_trans tm)) (sold d (tm_trans tm)). rewrite <- Bal, Eq. ring.
  - reflexivity.
  - intro Q. apply arange_points; [exact Q | reflexivity].
Qed.

Lemma plot_market S m : let d := get_df (mk_bm m) in let f := market_plot S m in qty_nonneg d -> price_nonneg d ->
  (forall x, 0 <= x -> x < extent margin d -> (exists v, Drawn (fig_dx f) (fig_dy f) x v) /\ (exists v, Drawn (fig_sx f) (fig_sy f) x v)) /\
  (forall x v, Drawn (fig_dx f) (fig_dy f) x v -> forall p, 0 < p -> (p <= v <-> x < demand_at d p)) /\
  (forall x v, Drawn (fig_sx f) (fig_sy f) x v -> (x < total_supply d -> forall p, v <= p <-> x < supply_at d p) /\
     (total_supply d <= x -> forall b, best_bid d b -> v = b * qf 6 5)).
Proof.
  intros d f Hq Hp. split; [|split].
  - intros x H0 H1. apply (plot_exists S margin margin d Hp x H0 H1).
  - intros x v D. apply (plot_demand S margin margin d Hq Hp x v D).
  - intros x v D. destruct (plot_supply S margin margin d Hq Hp x v D) as (_ & H1 & H2). split; [intro H; apply (H1 H) | exact H2].
Qed.
