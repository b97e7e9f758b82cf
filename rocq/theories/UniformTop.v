(** The uniform price mechanism is efficient, and what follows. *)
From Verif Require Import QcTac Num NumFacts ModelBase ModelCurves ModelHuang ModelMuda ModelMarket ModelStats ModelUniform ListFacts Spec SpecTrade SpecHuang SpecMarket SpecAlloc SpecStats
  CurveFacts IntersectFacts StoreFacts TradeFacts Sorter HuangFacts MudaPrice CurveTop HuangTop PriceExact AllocFacts P2PFacts P2PTrades LPFacts StatsFacts StatsTop FairFacts FairRuns UniformFacts.

Lemma wanted_at_demand d p : wanted_at d price p = demand_at d p.
Proof. unfold wanted_at, demand_at, all_b. rewrite filter_filter. reflexivity. Qed.
Lemma wanted_above_demand d p : wanted_above d price p = demand_above d p.
Proof. unfold wanted_above, demand_above, all_b. rewrite filter_filter. reflexivity. Qed.
Lemma offered_at_supply d p : offered_at d price p = supply_at d p.
Proof. unfold offered_at, supply_at, all_s. rewrite filter_filter. reflexivity. Qed.
Lemma offered_below_supply d p : offered_below d price p = supply_below d p.
Proof. unfold offered_below, supply_below, all_s. rewrite filter_filter. reflexivity. Qed.

(** the competitive quantity is traded at every price that clears the market *)
Lemma clearing_quantity d p ps pb c : qty_nonneg d -> Marginal d ps pb c -> clearing d price p ->
  demand_above d p <= c /\ c <= demand_at d p /\ supply_below d p <= c /\ c <= supply_at d p.
Proof.
  intros Hq (C0 & L & D1 & D2 & D3 & D4 & M) [K1 K2].
  rewrite wanted_above_demand, offered_at_supply in K1. rewrite wanted_at_demand, offered_below_supply in K2.
  repeat split; apply Qcnot_lt_le; intro G.
  - destruct (min_sat (qltb p) (map price (filter buying d))) as (x & Ix & Px & Mx).
    { unfold demand_above in G. destruct (filter (fun r => buying r && qltb p (price r)) d) as [|r l] eqn:E; [rewrite qsumf_nil in G; exfalso; qlra|].
      assert (I : In r (filter (fun r => buying r && qltb p (price r)) d)) by (rewrite E; left; reflexivity).
      apply filter_In in I. destruct I as [I1 I2]. apply andb_true_iff in I2. exists (price r). split; [apply in_map, filter_In; tauto | tauto]. }
    apply (proj1 (qltb_lt _ _)) in Px. specialize (M x).
    assert (A1 : demand_above d p <= demand_at d x).
    { unfold demand_above, demand_at. rewrite !qsumf_filter. apply qsumf_le. intros r Hr. specialize (Hq r Hr).
      destruct (buying r) eqn:Br; cbn [andb]; [|qlra]. destruct (qlt_spec p (price r)) as [A|A]; [|destruct (qleb x (price r)); qlra].
      destruct (qle_spec x (price r)) as [|A']; [qlra|]. exfalso.
      assert (x <= price r); [|qlra]. apply Mx; [apply in_map, filter_In; auto | apply qltb_lt, A]. }
    pose proof (supply_at_le d p x Hq (Qclt_le_weak _ _ Px)).
    destruct (qmin_case (demand_at d x) (supply_at d x)) as [[Em ?]|[Em ?]]; rewrite Em in M; qlra.
  - assert (pb < p) by (destruct (qlt_spec pb p) as [|A]; [assumption|]; pose proof (demand_at_le d p pb Hq A); exfalso; qlra).
    pose proof (supply_mono d ps p Hq ltac:(qlra)). qlra.
  - destruct (max_sat (fun y => qltb y p) (map price (filter (fun r => negb (buying r)) d))) as (x & Ix & Px & Mx).
    { unfold supply_below in G. destruct (filter (fun r => negb (buying r) && qltb (price r) p) d) as [|r l] eqn:E; [rewrite qsumf_nil in G; exfalso; qlra|].
      assert (I : In r (filter (fun r => negb (buying r) && qltb (price r) p) d)) by (rewrite E; left; reflexivity).
      apply filter_In in I. destruct I as [I1 I2]. apply andb_true_iff in I2. exists (price r). split; [apply in_map, filter_In; tauto | tauto]. }
    apply (proj1 (qltb_lt _ _)) in Px. specialize (M x).
    assert (A1 : supply_below d p <= supply_at d x).
    { unfold supply_below, supply_at. rewrite !qsumf_filter. apply qsumf_le. intros r Hr. specialize (Hq r Hr).
      destruct (buying r) eqn:Br; cbn [andb negb]; [qlra|]. destruct (qlt_spec (price r) p) as [A|A]; [|destruct (qleb (price r) x); qlra].
      destruct (qle_spec (price r) x) as [|A']; [qlra|]. exfalso.
      assert (price r <= x); [|qlra]. apply Mx; [apply in_map, (proj2 (filter_In _ _ _)); rewrite Br; auto | apply qltb_lt, A]. }
    pose proof (demand_at_le d x p Hq (Qclt_le_weak _ _ Px)).
    destruct (qmin_case (demand_at d x) (supply_at d x)) as [[Em ?]|[Em ?]]; rewrite Em in M; qlra.
  - assert (p < ps) by (destruct (qlt_spec p ps) as [|A]; [assumption|]; pose proof (supply_at_le d ps p Hq A); exfalso; qlra).
    pose proof (demand_mono d p pb Hq ltac:(qlra)). qlra.
Qed.

(** serving the best bids up to a quantity that clears gives the whole surplus of the side *)
Lemma side_served (h : row -> Qc) X r Y c :
  StronglySorted (fun a b => h b <= h a) (X ++ r :: Y) -> (forall y, In y (X ++ r :: Y) -> 0 < qty y) ->
  qsumf qty X <= c -> c <= qsumf qty X + qty r ->
  qsumf qty (filter (fun y => qltb 0 (h y)) (X ++ r :: Y)) <= c -> c <= qsumf qty (filter (fun y => qleb 0 (h y)) (X ++ r :: Y)) ->
  qsumf (fun y => h y * qty y) X + h r * (c - qsumf qty X) = qsumf (fun y => qty y * qmax 0 (h y)) (X ++ r :: Y).
Proof.
  intros Hs Hq C1 C2 A1 A2. assert (Hq0 : forall y, In y (X ++ r :: Y) -> 0 <= qty y) by (intros y Hy; apply Qclt_le_weak, Hq, Hy).
  assert (HX : forall y, In y X -> 0 <= h y).
  { intros y Hy. apply Qcnot_lt_le. intro G. apply in_split in Hy. destruct Hy as (X1 & X2 & ->).
    rewrite <- app_assoc in Hs, Hq, Hq0, A2. cbn [app] in Hs, Hq, Hq0, A2. destruct (sorted_app _ _ _ _ Hs) as (_ & S2 & _).
    assert (B : qsumf qty (filter (fun y => qleb 0 (h y)) (X1 ++ y :: X2 ++ r :: Y)) <= qsumf qty X1).
    { apply sum_filter_le; [exact Hq0| |]; [intros z Hz; pose proof (S2 z Hz); cbv beta in *|]; apply qleb_gt; qlra. }
    assert (0 < qty y) by (apply Hq, in_or_app; right; left; reflexivity).
    rewrite qsumf_app, qsumf_cons in C1. assert (0 <= qsumf qty X2).
    { apply qsumf_nonneg. intros z Hz. apply Hq0, in_or_app. right. right. apply in_or_app. left; exact Hz. }
    qlra. }
  assert (HY : forall y, In y Y -> h y <= 0).
  { intros y Hy. apply Qcnot_lt_le. intro G. apply in_split in Hy. destruct Hy as (Y1 & Y2 & ->).
    assert (Eq : X ++ r :: Y1 ++ y :: Y2 = (X ++ r :: Y1) ++ y :: Y2) by (rewrite <- app_assoc; reflexivity). rewrite Eq in Hs, Hq, Hq0, A1.
    destruct (sorted_app _ _ _ _ Hs) as (S1 & _).
    assert (B : qsumf qty (X ++ r :: Y1) + qty y <= qsumf qty (filter (fun y => qltb 0 (h y)) ((X ++ r :: Y1) ++ y :: Y2))).
    { apply sum_filter_ge; [exact Hq0| |]; [intros z Hz; pose proof (S1 z Hz); cbv beta in *|]; apply qltb_lt; qlra. }
    assert (0 < qty y) by (apply Hq, in_or_app; right; left; reflexivity).
    rewrite qsumf_app, qsumf_cons in B. assert (0 <= qsumf qty Y1).
    { apply qsumf_nonneg. intros z Hz. apply Hq0. rewrite <- app_assoc. apply in_or_app. right. right. apply in_or_app. left; exact Hz. }
    qlra. }
  rewrite qsumf_app, qsumf_cons.
  assert (EX : qsumf (fun y => qty y * qmax 0 (h y)) X = qsumf (fun y => h y * qty y) X).
  { apply qsumf_ext. intros y Hy. specialize (HX y Hy). destruct (qmax_case 0 (h y)) as [[-> ?]|[-> ?]]; [|ring]. assert (h y = 0) as -> by qlra. ring. }
  assert (EY : qsumf (fun y => qty y * qmax 0 (h y)) Y = 0).
  { apply qsumf_zero. intros y Hy. specialize (HY y Hy). destruct (qmax_case 0 (h y)) as [[-> ?]|[-> ?]]; [ring|]. assert (h y = 0) as -> by qlra. ring. }
  rewrite EX, EY. destruct (sorted_app _ _ _ _ Hs) as (S1 & S2 & _).
  destruct (qlt_spec 0 (h r)) as [G|G].
  - assert (B : qsumf qty X + qty r <= qsumf qty (filter (fun y => qltb 0 (h y)) (X ++ r :: Y))).
    { apply sum_filter_ge; [exact Hq0| |]; [intros z Hz; pose proof (S1 z Hz); cbv beta in *|]; apply qltb_lt; qlra. }
    assert (c = qsumf qty X + qty r) as -> by qlra. destruct (qmax_case 0 (h r)) as [[-> ?]|[-> ?]]; [exfalso; qlra|]. ring.
  - destruct (qlt_spec (h r) 0) as [G'|G'].
    + assert (B : qsumf qty (filter (fun y => qleb 0 (h y)) (X ++ r :: Y)) <= qsumf qty X).
      { apply sum_filter_le; [exact Hq0| |]; [intros z Hz; pose proof (S2 z Hz); cbv beta in *|]; apply qleb_gt; qlra. }
      assert (c = qsumf qty X) as -> by qlra. destruct (qmax_case 0 (h r)) as [[-> ?]|[-> ?]]; [ring|exfalso; qlra].
    + assert (Z : h r = 0) by qlra. rewrite Z. destruct (qmax_case 0 0) as [[-> ?]|[-> ?]]; ring.
Qed.

Section Efficient.
  Variables (S : sorter) (d : df).
  Hypothesis Hq : qty_pos d.
  Hypothesis Hp : price_nonneg d.
  Hypothesis Hu : labels_unique d.
  Let Hn : qty_nonneg d := fun r H => Qclt_le_weak _ _ (Hq r H).

  Lemma uniform_marginal tm c p : uniform_price_mechanism S d = Ok (tm, XUniform (Fin c) (Fin p)) ->
    exists ps pb, Marginal d ps pb c /\ ps <= p /\ p <= pb.
  Proof.
    intro E. pose proof (uniform_cases S d Hn Hp) as U. rewrite E in U.
    inversion U as [|c' p' B1 rb B2 L1 rs L2 tm' EB EL Lp P1 P2 C0 Cr Sf Sg Pr B3 B4 L3 L4 T E1]. subst tm' c' p'.
    exists (price rs), (price rb). split; [|auto].
    assert (P : 0 < c) by (apply (crossing_pos S d); [exact Hq | exact Cr | apply crossing_end; assumption]).
    assert (Irs : In rs d) by (apply (seller_row S d _ _ _ rs EL), in_or_app; right; left; reflexivity).
    assert (U' : 0 < price rb) by (specialize (Hp rs Irs); qlra).
    destruct (demand_step S d Hn _ _ _ P U' Sf) as [D1 D2]. destruct (supply_step S d Hn _ _ _ P Sg) as [D3 D4].
    split; [exact P|]. split; [exact Lp|]. split; [exact D1|]. split; [exact D2|]. split; [exact D3|]. split; [exact D4|].
    intro q. eapply crossing_max; eassumption.
  Qed.

  Lemma uniform_surplus tm ex p0 : uniform_price_mechanism S d = Ok (tm, ex) -> clearing d price p0 ->
    traded_surplus price d (tm_trans tm) = surplus d price p0.
  Proof.
    intros E K. destruct (uniform_summary S d Hn Hp Hu tm ex E) as (c & p & -> & _ & Bt & St & _ & Rf & _ & _ & _ & B1 & rb & B2 & L1 & rs & L2 & EB & EL & _ & _ & _ & _ & _ & B3 & B4 & L3 & L4 & T1 & T2 & T3 & T4).
    destruct (uniform_marginal tm c p E) as (ps & pb & M & _ & _).
    destruct (clearing_quantity d p0 ps pb c Hn M K) as (D1 & D2 & D3 & D4).
    set (tl := tm_trans tm) in *.
    assert (SB : qsumf (fun r => (price r - p0) * traded_by (lbl r) tl) (all_b d) = qsumf (fun b => qty b * qmax 0 (price b - p0)) (all_b d)).
    { assert (P : Permutation (all_b d) (B1 ++ rb :: B2)) by (rewrite <- EB; symmetry; apply s_desc_perm).
      rewrite (qsumf_perm _ _ _ P), (qsumf_perm _ _ _ P). rewrite <- (side_served (fun r => price r - p0) B1 rb B2 c); try assumption.
      - rewrite qsumf_app, qsumf_cons, T2.
        rewrite (qsumf_zero _ B2) by (intros r Hr; rewrite T4 by (left; exact Hr); ring).
        rewrite (qsumf_ext _ (fun y => (price y - p0) * qty y) B1) by (intros r Hr; rewrite T1 by (left; exact Hr); reflexivity). ring.
      - rewrite <- EB. apply (sorted_impl (fun a b => price b <= price a)); [|apply s_desc_sorted]. intros x y _ _ H. qlra.
      - intros y Hy. apply Hq. apply (buyer_row S d _ _ _ y EB Hy).
      - rewrite <- EB. unfold demand_above in D1. rewrite (demand_filter S d) in D1. erewrite filter_ext; [exact D1|]. intro r. cbv beta.
        destruct (qlt_spec 0 (price r - p0)), (qlt_spec p0 (price r)); try reflexivity; exfalso; qlra.
      - rewrite <- EB. unfold demand_at in D2. rewrite (demand_filter S d) in D2. erewrite filter_ext; [exact D2|]. intro r. cbv beta.
        destruct (qle_spec 0 (price r - p0)), (qle_spec p0 (price r)); try reflexivity; exfalso; qlra. }
    assert (SL : qsumf (fun r => (p0 - price r) * traded_by (lbl r) tl) (all_s d) = qsumf (fun b => qty b * qmax 0 (p0 - price b)) (all_s d)).
    { assert (P : Permutation (all_s d) (L1 ++ rs :: L2)) by (rewrite <- EL; symmetry; apply s_asc_perm).
      rewrite (qsumf_perm _ _ _ P), (qsumf_perm _ _ _ P). rewrite <- (side_served (fun r => p0 - price r) L1 rs L2 c); try assumption.
      - rewrite qsumf_app, qsumf_cons, T3.
        rewrite (qsumf_zero _ L2) by (intros r Hr; rewrite T4 by (right; exact Hr); ring).
        rewrite (qsumf_ext _ (fun y => (p0 - price y) * qty y) L1) by (intros r Hr; rewrite T1 by (right; exact Hr); reflexivity). ring.
      - rewrite <- EL. apply (sorted_impl (fun a b => price a <= price b)); [|apply s_asc_sorted]. intros x y _ _ H. qlra.
      - intros y Hy. apply Hq. apply (seller_row S d _ _ _ y EL Hy).
      - rewrite <- EL. unfold supply_below in D3. rewrite (supply_filter S d) in D3. erewrite filter_ext; [exact D3|]. intro r. cbv beta.
        destruct (qlt_spec 0 (p0 - price r)), (qlt_spec (price r) p0); try reflexivity; exfalso; qlra.
      - rewrite <- EL. unfold supply_at in D4. rewrite (supply_filter S d) in D4. erewrite filter_ext; [exact D4|]. intro r. cbv beta.
        destruct (qle_spec 0 (p0 - price r)), (qle_spec (price r) p0); try reflexivity; exfalso; qlra. }
    unfold surplus. rewrite <- SB, <- SL.
    assert (Bal : qsumf (fun b => traded_by (lbl b) tl) (all_b d) = qsumf (fun s => traded_by (lbl s) tl) (all_s d)).
    { rewrite <- bought_by, <- sold_by by assumption. congruence. }
    unfold traded_surplus. rewrite (qsumf_filter_split _ buying d). fold (all_b d) (all_s d).
    rewrite (qsumf_ext _ (fun r => (price r - p0) * traded_by (lbl r) tl + p0 * traded_by (lbl r) tl) (all_b d)).
    2:{ intros r Hr. apply filter_In in Hr. destruct Hr as [_ ->]. ring. }
    rewrite (qsumf_ext _ (fun r => (p0 - price r) * traded_by (lbl r) tl - p0 * traded_by (lbl r) tl) (all_s d)).
    2:{ intros r Hr. apply filter_In in Hr. destruct Hr as [_ Br]. apply negb_true_iff in Br. rewrite Br. ring. }
    rewrite qsumf_plus, qsumf_minus, !qsumf_scale, Bal. ring.
  Qed.

  Lemma surplus_pos b s p0 : In b d -> In s d -> buying b = true -> buying s = false -> price s < price b -> 0 < surplus d price p0.
  Proof.
    intros Hb Hs Bb Bs L. unfold surplus.
    assert (T : forall (h : row -> Qc) r, In r d -> 0 <= qty r * qmax 0 (h r)).
    { intros h r Hr. apply qmult_nonneg; [apply Hn, Hr|]. apply qmax_l. }
    assert (Ib : In b (all_b d)) by (apply filter_In; auto).
    assert (Is : In s (all_s d)) by (apply (proj2 (filter_In _ _ _)); rewrite Bs; auto).
    assert (A : forall (h : row -> Qc) l, (forall r, In r l -> In r d) -> 0 <= qsumf (fun r => qty r * qmax 0 (h r)) l).
    { intros h l Hl. apply qsumf_nonneg. intros r Hr. apply T, Hl, Hr. }
    assert (A' : forall (h : row -> Qc) l x, (forall r, In r l -> In r d) -> In x l -> 0 < h x -> 0 < qsumf (fun r => qty r * qmax 0 (h r)) l).
    { intros h l x Hl Hx Hh. apply in_split in Hx. destruct Hx as (l1 & l2 & ->). rewrite qsumf_app, qsumf_cons.
      assert (0 <= qsumf (fun r => qty r * qmax 0 (h r)) l1) by (apply A; intros r Hr; apply Hl, in_or_app; left; exact Hr).
      assert (0 <= qsumf (fun r => qty r * qmax 0 (h r)) l2) by (apply A; intros r Hr; apply Hl, in_or_app; right; right; exact Hr).
      assert (H1 : 0 < qty x) by (apply Hq, Hl, in_or_app; right; left; reflexivity).
      destruct (qmax_case 0 (h x)) as [[E ?]|[E ?]]; [exfalso; qlra|]. rewrite E. pose proof (qmult_pos _ _ H1 Hh). qlra. }
    assert (Pb : forall r, In r (all_b d) -> In r d) by (intros r Hr; apply filter_In in Hr; tauto).
    assert (Ps : forall r, In r (all_s d) -> In r d) by (intros r Hr; apply filter_In in Hr; tauto).
    pose proof (A (fun r => price r - p0) _ Pb) as G1. pose proof (A (fun r => p0 - price r) _ Ps) as G2. cbv beta in G1, G2.
    destruct (qlt_spec p0 (price b)) as [G|G].
    - pose proof (A' (fun r => price r - p0) _ b Pb Ib ltac:(cbv beta; qlra)) as G3. cbv beta in G3. qlra.
    - pose proof (A' (fun r => p0 - price r) _ s Ps Is ltac:(cbv beta; qlra)) as G3. cbv beta in G3. qlra.
  Qed.

  Lemma same_price_money tl p : (forall t, In t tl -> t_price t = p) -> money true d tl = p * bought d tl /\ money false d tl = p * sold d tl.
  Proof.
    intro H. unfold money, bought, sold. split; rewrite <- qsumf_scale; apply qsumf_ext; intros t Ht; apply filter_In in Ht; rewrite (H t) by tauto; reflexivity.
  Qed.

  Lemma uniform_money tm ex : uniform_price_mechanism S d = Ok (tm, ex) -> money true d (tm_trans tm) = money false d (tm_trans tm).
  Proof.
    intro E. destruct (uniform_summary S d Hn Hp Hu tm ex E) as (c & p & _ & _ & Bt & St & _ & _ & _ & _ & Pr & _).
    destruct (same_price_money (tm_trans tm) p) as [-> ->]; [|congruence]. intros t Ht. apply Pr, Ht.
  Qed.
  Lemma uniform_fair tm ex : uniform_price_mechanism S d = Ok (tm, ex) -> Fair d (tm_trans tm).
  Proof.
    intro E. destruct (uniform_summary S d Hn Hp Hu tm ex E) as (c & p & _ & _ & Bt & St & _ & Rf & Fe & Ra & Pr & _).
    split; [exact Rf | exact Fe | intros t r Ht _; apply Ra, Ht|]. intros f _. unfold weighted.
    assert (W : forall s, qsumf (fun t => f (t_price t) * t_qty t) (filter (on_side s d) (tm_trans tm)) = f p * qsumf t_qty (filter (on_side s d) (tm_trans tm))).
    { intro s. rewrite <- qsumf_scale. apply qsumf_ext. intros t Ht. apply filter_In in Ht. destruct (Pr t) as [-> _]; [tauto | reflexivity]. }
    rewrite !W. unfold bought in Bt. unfold sold in St. rewrite Bt, St. apply Qcle_refl.
  Qed.

  Lemma uniform_efficient tm ex : uniform_price_mechanism S d = Ok (tm, ex) ->
    (forall y, alloc_ok d y -> welfare d price y <= traded_surplus price d (tm_trans tm)) /\
    (exists x, alloc_ok d x /\ welfare d price x = traded_surplus price d (tm_trans tm)) /\
    0 < traded_surplus price d (tm_trans tm).
  Proof.
    intro E. destruct (clearing_exists d price Hn) as (p0 & K). rewrite (uniform_surplus tm ex p0 E K). split; [|split].
    - intros y Y. apply welfare_le_surplus, Y.
    - apply clearing_optimum; assumption.
    - destruct (uniform_summary S d Hn Hp Hu tm ex E) as (c & p & _ & _ & _ & _ & _ & _ & _ & _ & _ & B1 & rb & B2 & L1 & rs & L2 & EB & EL & Lp & _).
      destruct (buyer_row S d _ _ _ rb EB) as [I1 I2]; [apply in_or_app; right; left; reflexivity|].
      destruct (seller_row S d _ _ _ rs EL) as [I3 I4]; [apply in_or_app; right; left; reflexivity|].
      apply (surplus_pos rb rs); assumption.
  Qed.
  Lemma uniform_best tm ex tl : uniform_price_mechanism S d = Ok (tm, ex) -> Fair d tl ->
    traded_surplus price d tl <= traded_surplus price d (tm_trans tm).
  Proof.
    intros E F. destruct (clearing_exists d price Hn) as (p0 & K). rewrite (uniform_surplus tm ex p0 E K). apply fair_surplus; assumption.
  Qed.
End Efficient.

(** ** As run through the interface *)
Lemma two_sided_guard d b s : In b d -> In s d -> buying b = true -> buying s = false ->
  Nat.eqb (length (buyers d)) 0 || Nat.eqb (length (buyers d)) (length d) = false.
Proof.
  intros Hb Hs Bb Bs. apply orb_false_iff. split; apply Nat.eqb_neq; intro E.
  - assert (I : In b (buyers d)) by (apply filter_In; auto). destruct (buyers d); [contradiction | discriminate E].
  - unfold buyers in E. clear - Hs Bs E. assert (L : forall l : df, (length (filter buying l) <= length l)%nat) by (induction l as [|x l IH]; cbn; [lia|]; destruct (buying x); cbn; lia).
    induction d as [|x d IH]; [contradiction|]. cbn in E. destruct Hs as [->|Hs].
    + rewrite Bs in E. specialize (L d). lia.
    + destruct (buying x); cbn in E; [apply IH; [exact Hs | lia]|]. specialize (L d). lia.
Qed.
Lemma uniform_run_eq S d b s : In b d -> In s d -> buying b = true -> buying s = false -> uniform_run S d = uniform_price_mechanism S d.
Proof. intros Hb Hs Bb Bs. unfold uniform_run, mechanism, mech_run0. rewrite (two_sided_guard d b s) by assumption. reflexivity. Qed.
Lemma uniform_run_inv S d tm ex : uniform_run S d = Ok (tm, ex) -> (tm = tm_init /\ ex = XEmpty /\ one_sided d) \/ uniform_price_mechanism S d = Ok (tm, ex).
Proof.
  unfold uniform_run, mechanism, mech_run0. destruct (Nat.eqb (length (buyers d)) 0 || Nat.eqb (length (buyers d)) (length d)) eqn:E; [|auto].
  intro H. left. assert (tm = tm_init /\ ex = XEmpty) as [-> ->] by (split; congruence). split; [reflexivity|]. split; [reflexivity|].
  destruct (existsb buying d) eqn:Eb.
  - apply existsb_exists in Eb. destruct Eb as (b & Hb & Bb). left. intros s Hs. destruct (buying s) eqn:Bs; [reflexivity|].
    rewrite (two_sided_guard d b s) in E by assumption. discriminate E.
  - right. intros r Hr. destruct (buying r) eqn:Br; [|reflexivity]. rewrite <- Eb. symmetry. apply existsb_exists. eauto.
Qed.

Theorem uniform_outcome S d b s tm ex : qty_nonneg d -> price_nonneg d -> labels_unique d ->
  In b d -> In s d -> buying b = true -> buying s = false -> uniform_run S d = Ok (tm, ex) ->
  exists c p, ex = XUniform (Fin c) (Fin p) /\ bought d (tm_trans tm) = c /\ sold d (tm_trans tm) = c /\
    find_competitive_price S d = Ok (Fin p) /\ (forall t, In t (tm_trans tm) -> t_price t = p) /\
    once (tm_trans tm) /\ refer d (tm_trans tm) /\ feasible d (tm_trans tm) /\ rational d (tm_trans tm).
Proof.
  intros Hq Hp Hu Hb Hs Bb Bs E. rewrite (uniform_run_eq S d b s) in E by assumption.
  destruct (uniform_summary S d Hq Hp Hu tm ex E) as (c & p & E1 & E2 & E3 & E4 & E5 & E6 & E7 & E8 & E9 & _).
  exists c, p. repeat (split; [assumption|]). split; [intros t Ht; apply E9, Ht|]. auto.
Qed.

Theorem uniform_runs_iff S d b s : qty_pos d -> price_nonneg d -> asks_pos d ->
  In b d -> In s d -> buying b = true -> buying s = false ->
  (forall ps pb c, Marginal d ps pb c -> exists tm p, uniform_run S d = Ok (tm, XUniform (Fin c) (Fin p)) /\ ps <= p /\ p <= pb) /\
  ((forall ps pb c, ~ Marginal d ps pb c) -> uniform_run S d = Err TypeError).
Proof.
  intros Hq Hp Ha Hb Hs Bb Bs. rewrite (uniform_run_eq S d b s) by assumption.
  assert (Hn : qty_nonneg d) by (intros r Hr; apply Qclt_le_weak, Hq, Hr).
  pose proof (uniform_cases S d Hn Hp) as U. split.
  - intros ps pb c M. destruct (marginal_crossing S d Hn Hp ps pb c Ha M) as (Cr & (i & F) & (j & G)).
    inversion U as [N|c' p B1 rb B2 L1 rs L2 tm EB EL Lp P1 P2 C0 Cr' Sf Sg Pr B3 B4 L3 L4 T E1]; [destruct (N _ Cr)|].
    pose proof (crossing_unique _ _ _ _ Cr Cr') as X. apply Fin_inj in X. subst c'.
    destruct (StepAt_fun _ _ _ _ _ _ Sf F) as [_ X1]. destruct (StepAt_fun _ _ _ _ _ _ Sg G) as [_ X2].
    apply Fin_inj in X1, X2. subst ps pb. exists tm, p. auto.
  - intro N. inversion U as [|c' p B1 rb B2 L1 rs L2 tm EB EL Lp P1 P2 C0 Cr' Sf Sg Pr B3 B4 L3 L4 T E1]; [reflexivity|]. exfalso.
    symmetry in E1. destruct (uniform_marginal S d Hq Hp tm c' p E1) as (ps & pb & M & _). apply (N ps pb c' M).
Qed.

Theorem uniform_welfare S d b s tm ex : qty_pos d -> price_nonneg d -> labels_unique d ->
  In b d -> In s d -> buying b = true -> buying s = false -> uniform_run S d = Ok (tm, ex) ->
  money true d (tm_trans tm) = money false d (tm_trans tm) /\
  0 < traded_surplus price d (tm_trans tm) /\
  (forall y, alloc_ok d y -> welfare d price y <= traded_surplus price d (tm_trans tm)).
Proof.
  intros Hq Hp Hu Hb Hs Bb Bs E. rewrite (uniform_run_eq S d b s) in E by assumption.
  destruct (uniform_efficient S d Hq Hp Hu tm ex E) as (A1 & _ & A3). split; [|auto]. apply (uniform_money S d Hq Hp Hu tm ex E).
Qed.
Theorem uniform_percentage S sv d b s tm ex rp : map lbl d = seq 0 (length d) -> qty_pos d -> price_nonneg d -> solver_ok sv ->
  In b d -> In s d -> buying b = true -> buying s = false -> uniform_run S d = Ok (tm, ex) ->
  percentage_welfare sv d (tm_trans tm) rp = Ok (Some 1).
Proof.
  intros Hl Hq Hp Hsv Hb Hs Bb Bs E. rewrite (uniform_run_eq S d b s) in E by assumption. pose proof (labels_ok d Hl) as Hu.
  assert (Hn : qty_nonneg d) by (intros r Hr; apply Qclt_le_weak, Hq, Hr).
  destruct (uniform_efficient S d Hq Hp Hu tm ex E) as (A1 & (x & X1 & X2) & A3).
  destruct (welfare_spec sv d (tm_trans tm) rp Hl Hn Hsv) as (y & w & Y1 & Y2 & Y3 & ->).
  assert (w = traded_surplus price d (tm_trans tm)) as ->.
  { apply Qcle_antisym; [rewrite <- Y2; apply A1, Y1 | rewrite <- X2; apply Y3, X1]. }
  rewrite (proj2 (qltb_lt _ _) A3). rewrite (uniform_money S d Hq Hp Hu tm ex E). do 2 f_equal.
  field. intro Z. rewrite Z in A3. apply (Qclt_not_eq _ _ A3). reflexivity.
Qed.
Theorem uniform_at_least S d b s tm ex a tm' ex' : map lbl d = seq 0 (length d) -> qty_pos d -> price_nonneg d ->
  In b d -> In s d -> buying b = true -> buying s = false -> uniform_run S d = Ok (tm, ex) ->
  op_ok (ORun a) -> run_algo S a d = Ok (tm', ex') ->
  traded_surplus price d (tm_trans tm') <= traded_surplus price d (tm_trans tm).
Proof.
  intros Hl Hq Hp Hb Hs Bb Bs E Oa E'. rewrite (uniform_run_eq S d b s) in E by assumption. pose proof (labels_ok d Hl) as Hu.
  apply (uniform_best S d Hq Hp Hu tm ex _ E). apply (run_fair S a d tm' ex' Hl); [|exact E'].
  assert (Hn : qty_nonneg d) by (intros r Hr; apply Qclt_le_weak, Hq, Hr). destruct a; cbn in *; auto.
Qed.
Lemma uniform_market S m :
  (forall tm ex, uniform_run S (get_df (mk_bm m)) = Ok (tm, ex) -> market_run_uniform S m = (mkMarket (mk_bm m) tm ex, Ok (tm, ex))) /\
  (forall e, uniform_run S (get_df (mk_bm m)) = Err e -> market_run_uniform S m = (m, Err e)).
Proof. unfold market_run_uniform. split; intros; rewrite H; reflexivity. Qed.
