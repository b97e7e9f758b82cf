(** The outcome of the uniform price mechanism. *)
From Verif Require Import QcTac Num NumFacts ModelBase ModelCurves ModelHuang ModelMuda ModelMarket ModelUniform ListFacts Spec SpecTrade SpecHuang SpecAlloc SpecStats
  CurveFacts IntersectFacts StoreFacts TradeFacts Sorter HuangFacts MudaPrice CurveTop HuangTop PriceExact FillFacts AllocFacts.

Lemma uniform_short_emit l p : uniform_short l p = emit l (map qty l) p.
Proof. unfold uniform_short, emit. induction l as [|r l IH]; [reflexivity|]. cbn [map combine]. f_equal. exact IH. Qed.
Lemma uniform_long_emit l r traded p : forall a, (forall y, In y l -> 0 <= qty y) ->
  a + qsumf qty l <= traded -> traded <= a + qsumf qty l + qty r ->
  uniform_long (l ++ [r]) traded a p = emit (l ++ [r]) (map qty l ++ [traded - (a + qsumf qty l)]) p.
Proof.
  induction l as [|x l IH]; intros a Hl H1 H2.
  - rewrite qsumf_nil in *. cbn. unfold emit. cbn. repeat f_equal.
    replace (traded - (a + 0)) with (traded - a) by ring. destruct (qle_spec (qty r + a) traded); [qlra | reflexivity].
  - rewrite qsumf_cons in *. cbn [app uniform_long map]. unfold emit. cbn [combine map fst snd]. fold (emit (l ++ [r]) (map qty l ++ [traded - (a + (qty x + qsumf qty l))]) p).
    assert (S0 : 0 <= qsumf qty l) by (apply qsumf_nonneg; intros y Hy; apply Hl; right; exact Hy).
    destruct (qle_spec (qty x + a) traded) as [_|G]; [|exfalso; qlra]. f_equal.
    rewrite IH.
    + replace (a + qty x + qsumf qty l) with (a + (qty x + qsumf qty l)) by ring. reflexivity.
    + intros y Hy. apply Hl. right; exact Hy.
    + qlra.
    + qlra.
Qed.

(** where a point lies in the rows of a curve *)
Lemma firstn_S_app {A} (l1 : list A) r l2 : firstn (Datatypes.S (length l1)) (l1 ++ r :: l2) = l1 ++ [r].
Proof. induction l1 as [|x l1 IH]; [reflexivity|]. cbn [length app]. cbn [firstn] in *. f_equal. exact IH. Qed.
Lemma rows_before l1 r l2 tail c v : (forall y, In y (l1 ++ r :: l2) -> 0 <= qty y) -> 0 <= c ->
  StepAt (crows 0 (l1 ++ r :: l2) ++ tail) (Fin c) (length l1) v ->
  qsumf qty l1 <= c /\ c <= qsumf qty l1 + qty r.
Proof.
  intros Hq H0 ((a & N & L) & Hb). split.
  - destruct (rev l1) as [|y m] eqn:E.
    + apply (f_equal (@rev row)) in E. rewrite rev_involutive in E. cbn [rev] in E. subst l1. rewrite qsumf_nil. exact H0.
    + apply (f_equal (@rev row)) in E. rewrite rev_involutive in E. cbn [rev] in E. set (l0 := rev m) in *. subst l1.
      assert (Ny : nth_error (crows 0 ((l0 ++ [y]) ++ r :: l2) ++ tail) (length l0) = Some (Fin (qsumf qty l0 + qty y), Fin (price y))).
      { rewrite nth_error_app1 by (rewrite crows_length, !app_length; cbn; lia). rewrite <- app_assoc.
        rewrite (crows_nth 0 _ (length l0) y); [|rewrite nth_error_app2, Nat.sub_diag by lia; reflexivity].
        change (l0 ++ [y] ++ r :: l2) with (l0 ++ y :: r :: l2). rewrite firstn_S_app, qsumf_app, qsumf_cons, qsumf_nil. do 3 f_equal. ring. }
      rewrite qsumf_app, qsumf_cons, qsumf_nil.
      specialize (Hb (length l0)). rewrite app_length in Hb. cbn [length] in Hb. specialize (Hb _ _ ltac:(lia) Ny).
      destruct (qle_spec c (qsumf qty l0 + qty y)) as [G|G].
      * exfalso. apply (proj2 (nle_Fin _ _)) in G. unfold nle in G. congruence.
      * qlra.
  - rewrite nth_error_app1 in N by (rewrite crows_length, app_length; cbn; lia).
    rewrite (crows_nth 0 _ (length l1) r) in N by (rewrite nth_error_app2, Nat.sub_diag by lia; reflexivity).
    rewrite firstn_S_app, qsumf_app, qsumf_cons, qsumf_nil in N.
    assert (a = Fin (0 + (qsumf qty l1 + (qty r + 0)))) as -> by congruence. apply nle_Fin in L. qlra.
Qed.
Lemma rows_end l1 r l2 tv c v w : (forall y, In y (l1 ++ r :: l2) -> 0 <= qty y) ->
  ends_sorted (crows 0 (l1 ++ r :: l2) ++ [(PInf, tv)]) -> 0 <= c ->
  StepAt (crows 0 (l1 ++ r :: l2) ++ [(PInf, tv)]) (Fin c) (length l1) v ->
  In (Fin c, w) (crows 0 (l1 ++ r :: l2) ++ [(PInf, tv)]) -> c = qsumf qty l1 + qty r.
Proof.
  intros Hq [_ Hs] H0 St I. pose proof (rows_before _ _ _ _ _ _ Hq H0 St) as [_ U].
  destruct St as ((a & N & L) & Hb). apply In_nth_error in I. destruct I as (k & Nk).
  assert (Lk : (length l1 <= k)%nat).
  { destruct (Nat.lt_ge_cases k (length l1)) as [G|G]; [|exact G]. specialize (Hb _ _ _ G Nk).
    rewrite (proj2 (nle_Fin c c)) in Hb; [discriminate | qlra]. }
  assert (Na : a = Fin (qsumf qty l1 + qty r)).
  { rewrite nth_error_app1 in N by (rewrite crows_length, app_length; cbn; lia).
    rewrite (crows_nth 0 _ (length l1) r) in N by (rewrite nth_error_app2, Nat.sub_diag by lia; reflexivity).
    rewrite firstn_S_app, qsumf_app, qsumf_cons, qsumf_nil in N.
    assert (a = Fin (0 + (qsumf qty l1 + (qty r + 0)))) as -> by congruence. f_equal. ring. }
  subst a. apply Nat.lt_eq_cases in Lk. destruct Lk as [Lk|Lk].
  - pose proof (sorted_nth _ _ _ _ _ _ Hs Lk N Nk) as G. cbn [fst] in G. apply nle_Fin in G. qlra.
  - subst k. assert (Fin c = Fin (qsumf qty l1 + qty r)) by congruence. apply Fin_inj. assumption.
Qed.

Definition cut_last (X : df) (c : Qc) : list Qc := map qty X ++ [c - qsumf qty X].
Inductive uniform_result (S : sorter) (d : df) : res (transmgr * extra) -> Prop :=
| UR_none : (forall x, ~ Crossing (fst (demand_curve_from_bids S d)) (fst (supply_curve_from_bids S d)) x) ->
    uniform_result S d (Err TypeError)
| UR_some c p B1 rb B2 L1 rs L2 tm :
    s_desc S (buyers d) = B1 ++ rb :: B2 -> s_asc S (sellers d) = L1 ++ rs :: L2 ->
    price rs < price rb -> price rs <= p -> p <= price rb -> 0 <= c ->
    Crossing (fst (demand_curve_from_bids S d)) (fst (supply_curve_from_bids S d)) (Fin c) ->
    StepAt (fst (demand_curve_from_bids S d)) (Fin c) (length B1) (Fin (price rb)) ->
    StepAt (fst (supply_curve_from_bids S d)) (Fin c) (length L1) (Fin (price rs)) ->
    find_competitive_price S d = Ok (Fin p) ->
    qsumf qty B1 <= c -> c <= qsumf qty B1 + qty rb -> qsumf qty L1 <= c -> c <= qsumf qty L1 + qty rs ->
    tm_trans tm = (if qltb (qsumf qty L1 + qty rs) (qsumf qty B1 + qty rb)
      then emit (L1 ++ [rs]) (cut_last L1 c) p ++ emit (B1 ++ [rb]) (cut_last B1 c) p
      else emit (B1 ++ [rb]) (cut_last B1 c) p ++ emit (L1 ++ [rs]) (cut_last L1 c) p) ->
    uniform_result S d (Ok (tm, XUniform (Fin c) (Fin p))).

Lemma map_qty_cut X r c : c = qsumf qty X + qty r -> map qty (X ++ [r]) = cut_last X c.
Proof. intros ->. unfold cut_last. rewrite map_app. cbn [map]. do 2 f_equal. ring. Qed.

Theorem uniform_cases S d : qty_nonneg d -> price_nonneg d -> uniform_result S d (uniform_price_mechanism S d).
Proof.
  intros Hq Hp. unfold uniform_price_mechanism.
  set (f := fst (demand_curve_from_bids S d)). set (g := fst (supply_curve_from_bids S d)).
  destruct (intersect_spec f g (demand_ends S d Hq) (supply_ends S d Hq) (demand_decreasing S d Hp) (supply_increasing S d)
      (demand_nonempty S d) (supply_nonempty S d) (qf 1 2)) as [(x & b & u & s & w & E & Cr & _ & Sf & Sg)|(xm & i' & u & j' & w & E & Nc & _)].
  2:{ rewrite E. cbn [bind]. apply UR_none. exact Nc. }
  assert (Lwu : nlt w u).
  { destruct Cr as (X0 & _ & _ & C). apply (C x b u s w X0 Sf Sg).
    destruct Sf as ((a & _ & La) & _). apply nle_ok in La. apply nle_refl; tauto. }
  destruct (StepAt_in _ _ _ _ Sf) as (af & _ & _ & Nf). destruct (StepAt_in _ _ _ _ Sg) as (ag & _ & _ & Ng).
  assert (Hs : exists rs, nth_error (s_asc S (sellers d)) s = Some rs /\ w = Fin (price rs)).
  { destruct (crows_app_nth _ _ _ _ _ Ng) as [H|[_ H]]; [exact H|]. injection H as -> ->.
    destruct u; discriminate. }
  destruct Hs as (rs & Ns & ->).
  assert (Irs : In rs d).
  { apply nth_error_In in Ns. apply (Permutation_in _ (s_asc_perm S _)) in Ns. apply filter_In in Ns. tauto. }
  assert (Hb : exists rb, nth_error (s_desc S (buyers d)) b = Some rb /\ u = Fin (price rb)).
  { destruct (crows_app_nth _ _ _ _ _ Nf) as [H|[_ H]]; [exact H|]. injection H as -> ->.
    apply nlt_Fin in Lwu. specialize (Hp rs Irs). exfalso; qlra. }
  destruct Hb as (rb & Nb & ->). apply nlt_Fin in Lwu.
  assert (K0 : 0 <= qf 1 2) by (vm_compute; discriminate). assert (K1 : qf 1 2 <= 1) by (vm_compute; discriminate).
  destruct (ordinate_between f g x b s _ _ (qf 1 2) Cr Sf Sg K0 K1) as (p & Eo & P1 & P2). 
  destruct (crossing_fin S d x Cr) as (c & -> & C0).
  assert (Pr : find_competitive_price S d = Ok (Fin p)).
  { unfold find_competitive_price. fold f g. rewrite E. cbn [bind]. rewrite Eo. reflexivity. }
  rewrite E. cbn [bind]. rewrite Eo.
  pose proof (nth_error_split' _ _ _ Nb) as EB. pose proof (nth_error_split' _ _ _ Ns) as EL.
  assert (LB : length (firstn b (s_desc S (buyers d))) = b).
  { apply firstn_length_le. apply Nat.lt_le_incl. apply nth_error_Some. congruence. }
  assert (LL : length (firstn s (s_asc S (sellers d))) = s).
  { apply firstn_length_le. apply Nat.lt_le_incl. apply nth_error_Some. congruence. }
  set (B1 := firstn b (s_desc S (buyers d))) in *. set (L1 := firstn s (s_asc S (sellers d))) in *.
  set (B2 := skipn _ _) in EB. set (L2 := skipn _ _) in EL.
  assert (QB : forall y, In y (B1 ++ rb :: B2) -> 0 <= qty y).
  { intros y Hy. rewrite <- EB in Hy. apply (Permutation_in _ (s_desc_perm S _)) in Hy. apply filter_In in Hy. apply Hq; tauto. }
  assert (QL : forall y, In y (L1 ++ rs :: L2) -> 0 <= qty y).
  { intros y Hy. rewrite <- EL in Hy. apply (Permutation_in _ (s_asc_perm S _)) in Hy. apply filter_In in Hy. apply Hq; tauto. }
  assert (Ef : f = crows 0 (B1 ++ rb :: B2) ++ [(PInf, Fin 0)]).
  { unfold f, demand_curve_from_bids. simpl fst. rewrite curve_rows_crows, EB. reflexivity. }
  assert (Eg : g = crows 0 (L1 ++ rs :: L2) ++ [(PInf, PInf)]).
  { unfold g, supply_curve_from_bids. simpl fst. rewrite curve_rows_crows, EL. reflexivity. }
  pose proof Sf as Sf'. pose proof Sg as Sg'. rewrite <- LB, Ef in Sf'. rewrite <- LL, Eg in Sg'.
  destruct (rows_before _ _ _ _ _ _ QB C0 Sf') as [B3 B4]. destruct (rows_before _ _ _ _ _ _ QL C0 Sg') as [L3 L4].
  pose proof (demand_ends S d Hq) as Df. fold f in Df. rewrite Ef in Df.
  pose proof (supply_ends S d Hq) as Dg. fold g in Dg. rewrite Eg in Dg.
  assert (Mn : c = qsumf qty B1 + qty rb \/ c = qsumf qty L1 + qty rs).
  { destruct (crossing_end S d Hq Hp (Fin c) Cr) as [(v & I)|(v & I)].
    - left. fold f in I. rewrite Ef in I. apply (rows_end _ _ _ _ _ _ _ QB Df C0 Sf' I).
    - right. fold g in I. rewrite Eg in I. apply (rows_end _ _ _ _ _ _ _ QL Dg C0 Sg' I). }
  rewrite EB, EL, <- LB, <- LL, !firstn_S_app.
  change (qsum (map qty (B1 ++ [rb]))) with (qsumf qty (B1 ++ [rb])). change (qsum (map qty (L1 ++ [rs]))) with (qsumf qty (L1 ++ [rs])).
  assert (SB : qsumf qty (B1 ++ [rb]) = qsumf qty B1 + qty rb) by (rewrite qsumf_app, qsumf_cons, qsumf_nil; ring).
  assert (SL : qsumf qty (L1 ++ [rs]) = qsumf qty L1 + qty rs) by (rewrite qsumf_app, qsumf_cons, qsumf_nil; ring).
  rewrite SB, SL.
  assert (QB1 : forall y, In y B1 -> 0 <= qty y) by (intros y Hy; apply QB, in_or_app; left; exact Hy).
  assert (QL1 : forall y, In y L1 -> 0 <= qty y) by (intros y Hy; apply QL, in_or_app; left; exact Hy).
  destruct (qlt_spec (qsumf qty L1 + qty rs) (qsumf qty B1 + qty rb)) as [G|G].
  - change (qsum (map qty (L1 ++ [rs]))) with (qsumf qty (L1 ++ [rs])). rewrite SL.
    assert (Ec : c = qsumf qty L1 + qty rs) by (destruct Mn; qlra). rewrite <- Ec.
    eapply UR_some; try eassumption; [rewrite LB; exact Sf | rewrite LL; exact Sg |].
    rewrite !add_all_trans. rewrite uniform_short_emit, (map_qty_cut L1 rs c Ec).
    rewrite uniform_long_emit by (try exact QB1; qlra).
    destruct (qlt_spec (qsumf qty L1 + qty rs) (qsumf qty B1 + qty rb)) as [_|X]; [|exfalso; qlra].
    unfold cut_last. replace (0 + qsumf qty B1) with (qsumf qty B1) by ring. reflexivity.
  - change (qsum (map qty (B1 ++ [rb]))) with (qsumf qty (B1 ++ [rb])). rewrite SB.
    assert (Ec : c = qsumf qty B1 + qty rb) by (destruct Mn; qlra). rewrite <- Ec.
    eapply UR_some; try eassumption; [rewrite LB; exact Sf | rewrite LL; exact Sg |].
    rewrite !add_all_trans. rewrite uniform_short_emit, (map_qty_cut B1 rb c Ec).
    rewrite uniform_long_emit by (try exact QL1; qlra).
    destruct (qlt_spec (qsumf qty L1 + qty rs) (qsumf qty B1 + qty rb)) as [X|_]; [exfalso; qlra|].
    unfold cut_last. replace (0 + qsumf qty L1) with (qsumf qty L1) by ring. reflexivity.
Qed.

Lemma emit_cut X r c p : emit (X ++ [r]) (cut_last X c) p =
  map (fun x => mkTrans (lbl x) (qty x) p (-1) false) X ++ [mkTrans (lbl r) (c - qsumf qty X) p (-1) false].
Proof.
  unfold cut_last. generalize (c - qsumf qty X). intro q. unfold emit. induction X as [|x X IH]; [reflexivity|].
  cbn [app map combine fst snd]. f_equal. exact IH.
Qed.
Lemma cut_length X r c : length (cut_last X c) = length (X ++ [r]).
Proof. unfold cut_last. rewrite !app_length, map_length. reflexivity. Qed.
Lemma cut_sum X c : qsum (cut_last X c) = c.
Proof. unfold cut_last. rewrite qsum_app. change (qsum (map qty X)) with (qsumf qty X). cbn. ring. Qed.
Lemma NoDup_app_l {A} (l m : list A) : NoDup (l ++ m) -> NoDup l.
Proof. induction l as [|x l IH]; intro H; [constructor|]. inversion_clear H as [|? ? H1 H2]. constructor; [|auto]. intro I. apply H1, in_or_app. left; exact I. Qed.

Section Summary.
  Variables (S : sorter) (d : df).
  Hypothesis Hq : qty_nonneg d.
  Hypothesis Hp : price_nonneg d.
  Hypothesis Hu : labels_unique d.

  Lemma uniform_summary tm ex : uniform_price_mechanism S d = Ok (tm, ex) ->
    exists c p, ex = XUniform (Fin c) (Fin p) /\ find_competitive_price S d = Ok (Fin p) /\
      bought d (tm_trans tm) = c /\ sold d (tm_trans tm) = c /\ once (tm_trans tm) /\ refer d (tm_trans tm) /\
      feasible d (tm_trans tm) /\ rational d (tm_trans tm) /\
      (forall t, In t (tm_trans tm) -> t_price t = p /\ t_source t = (-1)%Z /\ t_active t = false) /\
      exists B1 rb B2 L1 rs L2,
        s_desc S (buyers d) = B1 ++ rb :: B2 /\ s_asc S (sellers d) = L1 ++ rs :: L2 /\
        price rs < price rb /\ 0 <= c /\
        Crossing (fst (demand_curve_from_bids S d)) (fst (supply_curve_from_bids S d)) (Fin c) /\
        StepAt (fst (demand_curve_from_bids S d)) (Fin c) (length B1) (Fin (price rb)) /\
        StepAt (fst (supply_curve_from_bids S d)) (Fin c) (length L1) (Fin (price rs)) /\
        qsumf qty B1 <= c /\ c <= qsumf qty B1 + qty rb /\ qsumf qty L1 <= c /\ c <= qsumf qty L1 + qty rs /\
        (forall r, In r B1 \/ In r L1 -> traded_by (lbl r) (tm_trans tm) = qty r) /\
        traded_by (lbl rb) (tm_trans tm) = c - qsumf qty B1 /\ traded_by (lbl rs) (tm_trans tm) = c - qsumf qty L1 /\
        (forall r, In r B2 \/ In r L2 -> traded_by (lbl r) (tm_trans tm) = 0).
  Proof.
    intro E. pose proof (uniform_cases S d Hq Hp) as U. rewrite E in U.
    inversion U as [|c p B1 rb B2 L1 rs L2 tm' EB EL Lp P1 P2 C0 Cr Sf Sg Pr B3 B4 L3 L4 T E1]. subst tm' ex.
    exists c, p. split; [reflexivity|]. split; [exact Pr|].
    set (eb := emit (B1 ++ [rb]) (cut_last B1 c) p) in *. set (es := emit (L1 ++ [rs]) (cut_last L1 c) p) in *.
    set (tl := tm_trans tm) in *.
    assert (Pm : Permutation tl (es ++ eb)).
    { rewrite T. destruct (qltb _ _); [reflexivity | apply Permutation_app_comm]. }
    assert (In0 : forall t, In t tl <-> In t es \/ In t eb).
    { intro t. split; intro H.
      - apply in_app_or, (Permutation_in _ Pm), H.
      - apply (Permutation_in _ (Permutation_sym Pm)), in_or_app, H. }
    assert (RB : forall y, In y (B1 ++ [rb]) -> In y d /\ buying y = true).
    { intros y Hy. apply (buyer_row S d _ _ _ y EB). change (rb :: B2) with ([rb] ++ B2). rewrite app_assoc. apply in_or_app. left; exact Hy. }
    assert (RL : forall y, In y (L1 ++ [rs]) -> In y d /\ buying y = false).
    { intros y Hy. apply (seller_row S d _ _ _ y EL). change (rs :: L2) with ([rs] ++ L2). rewrite app_assoc. apply in_or_app. left; exact Hy. }
    assert (As : all_side false d es).
    { intros t Ht. apply emit_in in Ht. destruct Ht as (r & q & _ & Hr & ->). exists r. destruct (RL r Hr). auto. }
    assert (Ab : all_side true d eb).
    { intros t Ht. apply emit_in in Ht. destruct Ht as (r & q & _ & Hr & ->). exists r. destruct (RB r Hr). auto. }
    destruct (side_sums _ _ _ Hu As) as [As1 As2]. destruct (side_sums _ _ _ Hu Ab) as [Ab1 Ab2].
    unfold es in As2. rewrite emit_sum in As2 by apply cut_length. rewrite cut_sum in As2. fold es in As2.
    unfold eb in Ab1. rewrite emit_sum in Ab1 by apply cut_length. rewrite cut_sum in Ab1. fold eb in Ab1.
    assert (Bt : bought d tl = c) by (rewrite T; destruct (qltb _ _); rewrite bought_app, As1, Ab1; ring).
    assert (St : sold d tl = c) by (rewrite T; destruct (qltb _ _); rewrite sold_app, As2, Ab2; ring).
    assert (ND : NoDup (map lbl ((L1 ++ [rs]) ++ (B1 ++ [rb]) ++ L2 ++ B2))).
    { pose proof (split_labels S d Hu _ _ _ _ _ _ EB EL) as H. revert H. apply Permutation_NoDup, Permutation_map.
      change (rs :: L2) with ([rs] ++ L2). change (rb :: B2) with ([rb] ++ B2). rewrite (app_assoc L1), (app_assoc B1).
      rewrite <- (app_assoc (L1 ++ [rs]) L2). apply Permutation_app_head. rewrite !(app_assoc _ _ B2). apply Permutation_app_tail.
      apply Permutation_app_comm. }
    assert (Onc : once tl).
    { unfold once. apply (Permutation_NoDup (Permutation_sym (Permutation_map t_bid Pm))). rewrite map_app.
      unfold es, eb. rewrite !emit_bids by apply cut_length. rewrite <- map_app. rewrite app_assoc, map_app in ND. apply NoDup_app_l in ND. exact ND. }
    assert (Row : forall t r, In t tl -> In r d -> lbl r = t_bid t ->
       t_price t = p /\ t_source t = (-1)%Z /\ t_active t = false /\
       (buying r = true /\ (In r B1 /\ t_qty t = qty r \/ r = rb /\ t_qty t = c - qsumf qty B1) \/
        buying r = false /\ (In r L1 /\ t_qty t = qty r \/ r = rs /\ t_qty t = c - qsumf qty L1))).
    { intros t r Ht Hr El. apply In0 in Ht. destruct Ht as [Ht|Ht]; [unfold es in Ht | unfold eb in Ht]; rewrite emit_cut in Ht; apply in_app_or in Ht;
      (destruct Ht as [Ht|[Ht|[]]]; [apply in_map_iff in Ht; destruct Ht as (y & Et & Hy)|]); subst t; cbn in El |- *; repeat (split; [reflexivity|]).
      - destruct (RL y) as [Yd Yb]; [apply in_or_app; left; exact Hy|]. assert (r = y) by (apply (NoDup_map_in lbl d); auto). subst y. right. auto.
      - destruct (RL rs) as [Yd Yb]; [apply in_or_app; right; left; reflexivity|]. assert (r = rs) by (apply (NoDup_map_in lbl d); auto). subst r. right. auto.
      - destruct (RB y) as [Yd Yb]; [apply in_or_app; left; exact Hy|]. assert (r = y) by (apply (NoDup_map_in lbl d); auto). subst y. left. auto.
      - destruct (RB rb) as [Yd Yb]; [apply in_or_app; right; left; reflexivity|]. assert (r = rb) by (apply (NoDup_map_in lbl d); auto). subst r. left. auto. }
    assert (Ref : refer d tl).
    { intros t Ht. apply In0 in Ht. destruct Ht as [Ht|Ht].
      - destruct (As t Ht) as (r & ? & ? & ?). eauto.
      - destruct (Ab t Ht) as (r & ? & ? & ?). eauto. }
    pose proof (s_desc_sorted S (buyers d)) as Sd. rewrite EB in Sd. apply sorted_app in Sd. destruct Sd as (Sd & _).
    pose proof (s_asc_sorted S (sellers d)) as Sa. rewrite EL in Sa. apply sorted_app in Sa. destruct Sa as (Sa & _).
    split; [exact Bt|]. split; [exact St|]. split; [exact Onc|]. split; [exact Ref|]. split; [|split; [|split]].
    - apply feasible_once; try assumption. intros t r Ht Hr El. pose proof (Hq r Hr).
      destruct (Row t r Ht Hr El) as (_ & _ & _ & [[_ [[_ ->]|[-> ->]]]|[_ [[_ ->]|[-> ->]]]]); split; qlra.
    - intros t r Ht Hr El. destruct (Row t r Ht Hr El) as (-> & _ & _ & [[-> [[I _]|[-> _]]]|[-> [[I _]|[-> _]]]]); try assumption.
      + pose proof (Sd r I). cbv beta in *. qlra.
      + pose proof (Sa r I). cbv beta in *. qlra.
    - intros t Ht. destruct (Ref t Ht) as (r & Hr & El). destruct (Row t r Ht Hr El) as (? & ? & ? & _). auto.
    - exists B1, rb, B2, L1, rs, L2. repeat (split; [assumption|]). split; [|split; [|split]].
      + intros r [Hr|Hr].
        * assert (I : In (mkTrans (lbl r) (qty r) p (-1) false) tl).
          { apply In0. right. unfold eb. rewrite emit_cut. apply in_or_app. left. apply in_map_iff. eauto. }
          apply (traded_by_once tl _ Onc I).
        * assert (I : In (mkTrans (lbl r) (qty r) p (-1) false) tl).
          { apply In0. left. unfold es. rewrite emit_cut. apply in_or_app. left. apply in_map_iff. eauto. }
          apply (traded_by_once tl _ Onc I).
      + assert (I : In (mkTrans (lbl rb) (c - qsumf qty B1) p (-1) false) tl).
        { apply In0. right. unfold eb. rewrite emit_cut. apply in_or_app. right. left. reflexivity. }
        apply (traded_by_once tl _ Onc I).
      + assert (I : In (mkTrans (lbl rs) (c - qsumf qty L1) p (-1) false) tl).
        { apply In0. left. unfold es. rewrite emit_cut. apply in_or_app. right. left. reflexivity. }
        apply (traded_by_once tl _ Onc I).
      + intros r Hr. apply traded_by_absent. intro I. apply (Permutation_in _ (Permutation_map t_bid Pm)) in I. rewrite map_app in I.
        unfold es, eb in I. rewrite !emit_bids in I by apply cut_length. rewrite <- map_app in I. rewrite app_assoc, map_app in ND.
        assert (J : In (lbl r) (map lbl (L2 ++ B2))) by (apply in_map, in_or_app; tauto).
        clear - I J ND. revert I ND. generalize (map lbl ((L1 ++ [rs]) ++ B1 ++ [rb])). intros l I ND.
        induction l as [|y l IH]; [contradiction|]. inversion_clear ND as [|? ? N1 N2]. destruct I as [->|I]; [|auto]. apply N1, in_or_app. right; exact J.
  Qed.
End Summary.
