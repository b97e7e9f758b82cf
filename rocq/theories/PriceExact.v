(** The exact value of [find_competitive_price]. *)
From Verif Require Import QcTac Num NumFacts ModelBase ModelCurves ModelHuang ModelMuda ListFacts Spec SpecTrade SpecHuang
  CurveFacts IntersectFacts StoreFacts TradeFacts Sorter MudaPrice CurveTop HuangTop.

(** the end points of a curve *)
Lemma crows_split l : forall a c v, In (Fin c, v) (crows a l) ->
  exists l1 r l2, l = l1 ++ r :: l2 /\ c = a + qsumf qty l1 + qty r /\ v = Fin (price r).
Proof.
  induction l as [|r l IH]; intros a c v; [intros []|]. rewrite crows_cons. intros [E|H].
  - exists [], r, l. split; [reflexivity|]. rewrite qsumf_nil. split; [|congruence]. assert (X : a + qty r = c) by congruence. rewrite <- X. ring.
  - destruct (IH _ _ _ H) as (l1 & r' & l2 & -> & -> & ->). exists (r :: l1), r', l2. split; [reflexivity|]. split; [rewrite qsumf_cons; ring | reflexivity].
Qed.
(** the rows up to a threshold end at an end point *)
Lemma crows_prefix (inc : row -> bool) l : forall a,
  StronglySorted (fun x y => inc y = true -> inc x = true) l -> (exists r, In r l /\ inc r = true) ->
  exists v, In (Fin (a + qsumf qty (filter inc l)), v) (crows a l).
Proof.
  induction l as [|r l IH]; intros a Hs (y & Hy & Iy); [contradiction|]. inversion_clear Hs as [|? ? Hs' Hr]. rewrite Forall_forall in Hr.
  assert (Ir : inc r = true) by (destruct Hy as [<-|Hy]; [exact Iy | apply (Hr y Hy Iy)]).
  cbn [filter]. rewrite Ir, qsumf_cons, crows_cons.
  destruct (existsb inc l) eqn:Ex.
  - apply existsb_exists in Ex. destruct (IH (a + qty r) Hs' Ex) as (v & Hv). exists v. right.
    replace (a + (qty r + qsumf qty (filter inc l))) with (a + qty r + qsumf qty (filter inc l)) by ring. exact Hv.
  - assert (E : filter inc l = []).
    { clear - Ex. induction l as [|x l IHl]; [reflexivity|]. simpl in *. apply orb_false_iff in Ex. destruct Ex as [-> Ex]. auto. }
    exists (Fin (price r)). left. rewrite E, qsumf_nil. do 2 f_equal. ring.
Qed.
Lemma sorted_impl {A} (R Q : A -> A -> Prop) l : (forall x y, In x l -> In y l -> R x y -> Q x y) -> StronglySorted R l -> StronglySorted Q l.
Proof.
  intros H Hs. induction Hs as [|x l Hs IH Hx]; constructor.
  - apply IH. intros. apply H; simpl; auto.
  - rewrite Forall_forall in *. intros y Hy. apply H; simpl; auto.
Qed.
Lemma NoDup_after {A} (l1 : list A) r l2 : NoDup (l1 ++ r :: l2) -> ~ In r l2.
Proof. intro H. apply NoDup_remove_2 in H. intro I. apply H. apply in_or_app. right; exact I. Qed.

Lemma half_mean (a b : Qc) : a * qf 1 2 + (1 - qf 1 2) * b = (a + b) / qz 2.
Proof.
  assert (H1 : (1 - qf 1 2)%Qc = qf 1 2) by (apply Qc_is_canon; vm_compute; reflexivity).
  assert (H2 : (/ qz 2)%Qc = qf 1 2) by (apply Qc_is_canon; vm_compute; reflexivity).
  unfold Qcdiv. rewrite H1, H2. ring.
Qed.

Section Exact.
  Variables (S : sorter) (d : df).
  Hypothesis Hq : qty_pos d.
  Hypothesis Hp : price_nonneg d.
  Hypothesis Ha : asks_pos d.
  Notation f := (fst (demand_curve_from_bids S d)).
  Notation g := (fst (supply_curve_from_bids S d)).
  Let Hn : qty_nonneg d := fun r H => Qclt_le_weak _ _ (Hq r H).

  Lemma f_end_at p : 0 < demand_at d p -> is_end f (Fin (demand_at d p)).
  Proof.
    intro H. unfold is_end, demand_curve_from_bids. simpl fst. rewrite curve_rows_crows.
    unfold demand_at in *. rewrite (demand_filter S d) in *. set (l := s_desc S (buyers d)) in *.
    destruct (crows_prefix (fun r => qleb p (price r)) l 0) as (v & Hv).
    - apply (sorted_impl (fun a b => price b <= price a)); [|apply s_desc_sorted].
      intros x y _ _ L I. apply (proj1 (qleb_le _ _)) in I. apply qleb_le. qlra.
    - destruct (filter (fun r => qleb p (price r)) l) as [|r m] eqn:E; [rewrite qsumf_nil in H; exfalso; qlra|].
      exists r. apply (proj1 (filter_In (fun r => qleb p (price r)) r l)). rewrite E. left; reflexivity.
    - exists v. apply in_or_app. left.
      match type of Hv with In (Fin ?a, _) _ => replace a with (qsumf qty (filter (fun r => qleb p (price r)) l)) in Hv by ring end. exact Hv.
  Qed.
  Lemma g_end_at p : 0 < supply_at d p -> is_end g (Fin (supply_at d p)).
  Proof.
    intro H. unfold is_end, supply_curve_from_bids. simpl fst. rewrite curve_rows_crows.
    unfold supply_at in *. rewrite (supply_filter S d) in *. set (l := s_asc S (sellers d)) in *.
    destruct (crows_prefix (fun r => qleb (price r) p) l 0) as (v & Hv).
    - apply (sorted_impl (fun a b => price a <= price b)); [|apply s_asc_sorted].
      intros x y _ _ L I. apply (proj1 (qleb_le _ _)) in I. apply qleb_le. qlra.
    - destruct (filter (fun r => qleb (price r) p) l) as [|r m] eqn:E; [rewrite qsumf_nil in H; exfalso; qlra|].
      exists r. apply (proj1 (filter_In (fun r => qleb (price r) p) r l)). rewrite E. left; reflexivity.
    - exists v. apply in_or_app. left.
      match type of Hv with In (Fin ?a, _) _ => replace a with (qsumf qty (filter (fun r => qleb (price r) p) l)) in Hv by ring end. exact Hv.
  Qed.

  Lemma f_end_dist c p : prices_distinct d -> is_end f (Fin c) -> demand_above d p < c -> c <= demand_at d p -> c = demand_at d p.
  Proof.
    intros [Hd _] (v & I) D1 D2. unfold demand_curve_from_bids in I. simpl fst in I. rewrite curve_rows_crows in I.
    apply in_app_or in I. destruct I as [I|[I|[]]]; [|discriminate I].
    set (l := s_desc S (buyers d)) in *. apply crows_split in I. destruct I as (l1 & r & l2 & E & Ec & _).
    assert (Hs : StronglySorted (fun a b => price b <= price a) l) by apply s_desc_sorted.
    assert (Nd : NoDup (map price l)).
    { apply (Permutation_NoDup (l := map price (buyers d))); [|exact Hd]. apply Permutation_map. symmetry. apply s_desc_perm. }
    assert (Hin : forall y, In y l -> 0 < qty y) by (intros y Hy; apply Hq; apply (desc_in S d) in Hy; apply Hy).
    rewrite E in Hs, Nd, Hin. destruct (sorted_app _ _ _ _ Hs) as (A1 & A2 & _).
    assert (Hin0 : forall y, In y (l1 ++ r :: l2) -> 0 <= qty y) by (intros y Hy; apply Qclt_le_weak, Hin, Hy).
    assert (Qr : 0 < qty r) by (apply Hin, in_or_app; right; left; reflexivity).
    assert (B1 : demand_at d (price r) = c).
    { unfold demand_at. rewrite (demand_filter S d). fold l. rewrite E, filter_app, qsumf_app. cbn [filter].
      rewrite (proj2 (qleb_le (price r) (price r))) by qlra. rewrite qsumf_cons.
      assert (F1 : filter (fun y => qleb (price r) (price y)) l1 = l1) by (apply filter_all; intros y Hy; apply qleb_le, A1, Hy).
      assert (F2 : filter (fun y => qleb (price r) (price y)) l2 = []).
      { apply filter_none. intros y Hy. apply qleb_gt. rewrite map_app in Nd. cbn [map] in Nd. apply NoDup_after in Nd.
        pose proof (A2 y Hy). destruct (qlt_spec (price y) (price r)) as [|G]; [assumption|].
        exfalso. apply Nd. replace (price r) with (price y) by qlra. apply in_map, Hy. }
      rewrite F1, F2, qsumf_nil. rewrite Ec. ring. }
    assert (B2 : demand_above d (price r) < c).
    { unfold demand_above. rewrite (demand_filter S d). fold l. rewrite E.
      assert (G : qsumf qty (filter (fun y => qltb (price r) (price y)) (l1 ++ r :: l2)) <= qsumf qty l1).
      { apply sum_filter_le; [exact Hin0| |].
        - intros y Hy. apply qltb_ge. apply A2, Hy.
        - apply qltb_ge. qlra. }
      qlra. }
    assert (p = price r) as ->; [|symmetry; exact B1].
    apply (demand_price_unique d c); auto. rewrite B1. qlra.
  Qed.
  Lemma g_end_dist c p : prices_distinct d -> is_end g (Fin c) -> supply_below d p < c -> c <= supply_at d p -> c = supply_at d p.
  Proof.
    intros [_ Hd] (v & I) D1 D2. unfold supply_curve_from_bids in I. simpl fst in I. rewrite curve_rows_crows in I.
    apply in_app_or in I. destruct I as [I|[I|[]]]; [|discriminate I].
    set (l := s_asc S (sellers d)) in *. apply crows_split in I. destruct I as (l1 & r & l2 & E & Ec & _).
    assert (Hs : StronglySorted (fun a b => price a <= price b) l) by apply s_asc_sorted.
    assert (Nd : NoDup (map price l)).
    { apply (Permutation_NoDup (l := map price (sellers d))); [|exact Hd]. apply Permutation_map. symmetry. apply s_asc_perm. }
    assert (Hin : forall y, In y l -> 0 < qty y) by (intros y Hy; apply Hq; apply (asc_in S d) in Hy; apply Hy).
    rewrite E in Hs, Nd, Hin. destruct (sorted_app _ _ _ _ Hs) as (A1 & A2 & _).
    assert (Hin0 : forall y, In y (l1 ++ r :: l2) -> 0 <= qty y) by (intros y Hy; apply Qclt_le_weak, Hin, Hy).
    assert (Qr : 0 < qty r) by (apply Hin, in_or_app; right; left; reflexivity).
    assert (B1 : supply_at d (price r) = c).
    { unfold supply_at. rewrite (supply_filter S d). fold l. rewrite E, filter_app, qsumf_app. cbn [filter].
      rewrite (proj2 (qleb_le (price r) (price r))) by qlra. rewrite qsumf_cons.
      assert (F1 : filter (fun y => qleb (price y) (price r)) l1 = l1) by (apply filter_all; intros y Hy; apply qleb_le, A1, Hy).
      assert (F2 : filter (fun y => qleb (price y) (price r)) l2 = []).
      { apply filter_none. intros y Hy. apply qleb_gt. rewrite map_app in Nd. cbn [map] in Nd. apply NoDup_after in Nd.
        pose proof (A2 y Hy). destruct (qlt_spec (price r) (price y)) as [|G]; [assumption|].
        exfalso. apply Nd. replace (price r) with (price y) by qlra. apply in_map, Hy. }
      rewrite F1, F2, qsumf_nil. rewrite Ec. ring. }
    assert (B2 : supply_below d (price r) < c).
    { unfold supply_below. rewrite (supply_filter S d). fold l. rewrite E.
      assert (G : qsumf qty (filter (fun y => qltb (price y) (price r)) (l1 ++ r :: l2)) <= qsumf qty l1).
      { apply sum_filter_le; [exact Hin0| |].
        - intros y Hy. apply qltb_ge. apply A2, Hy.
        - apply qltb_ge. qlra. }
      qlra. }
    assert (p = price r) as ->; [|symmetry; exact B1].
    apply (supply_price_unique d c); auto. rewrite B1. qlra.
  Qed.

  Lemma price_at_marginal ps pb c : Marginal d ps pb c -> exists i j v,
    intersect_stepwise f g (qf 1 2) = Ok (Some (Fin c), Some i, Some j, v) /\ StepAt f (Fin c) i (Fin pb) /\ StepAt g (Fin c) j (Fin ps) /\
    find_competitive_price S d = Ok v.
  Proof.
    intro M. destruct (marginal_crossing S d Hn Hp ps pb c Ha M) as (Cr & (i & F) & (j & G)).
    destruct (intersect_spec f g (demand_ends S d Hn) (supply_ends S d Hn) (demand_decreasing S d Hp) (supply_increasing S d)
      (demand_nonempty S d) (supply_nonempty S d) (qf 1 2)) as [(x & i' & u & j' & w & E & C & _ & Su & Sw)|(xm & i' & u & j' & w & E & N & _)].
    2:{ destruct (N _ Cr). }
    pose proof (crossing_unique _ _ _ _ C Cr). subst x.
    destruct (StepAt_fun _ _ _ _ _ _ Su F) as [-> ->]. destruct (StepAt_fun _ _ _ _ _ _ Sw G) as [-> ->].
    eexists i, j, _. split; [exact E|]. split; [exact F|]. split; [exact G|].
    unfold find_competitive_price. rewrite E. reflexivity.
  Qed.

  Theorem exact_price ps pb c : Marginal d ps pb c ->
    (c = demand_at d pb -> c = supply_at d ps -> find_competitive_price S d = Ok (Fin ((ps + pb) / qz 2))) /\
    (prices_distinct d -> c < supply_at d ps -> c = demand_at d pb /\ find_competitive_price S d = Ok (Fin ps)) /\
    (prices_distinct d -> c < demand_at d pb -> c = supply_at d ps /\ find_competitive_price S d = Ok (Fin pb)).
  Proof.
    intro M. destruct (price_at_marginal ps pb c M) as (i & j & v & E & F & G & P).
    destruct (ordinate_exact f g (qf 1 2) (Fin c) i j pb ps v (demand_nonempty S d) (supply_nonempty S d)
      (demand_ends S d Hn) (supply_ends S d Hn) (demand_decreasing S d Hp) (supply_increasing S d) E F G) as (O1 & O2 & O3).
    destruct (marginal_crossing S d Hn Hp ps pb c Ha M) as (Cr & _). pose proof (crossing_end S d Hn Hp (Fin c) Cr) as CE.
    destruct M as (C0 & L & D1 & D2 & D3 & D4 & _). rewrite P. split; [|split].
    - intros E1 E2. rewrite O1; [do 2 f_equal; apply half_mean|]. split; [rewrite E1; apply f_end_at; rewrite <- E1; exact C0 | rewrite E2; apply g_end_at; rewrite <- E2; exact C0].
    - intros Hd Lt. assert (Ng : ~ is_end g (Fin c)) by (intro X; pose proof (g_end_dist c ps Hd X D3 D4); qlra).
      destruct CE as [CE|CE]; [|contradiction]. split; [apply (f_end_dist c pb Hd CE D1 D2)|]. rewrite O2; auto.
    - intros Hd Lt. assert (Nf : ~ is_end f (Fin c)) by (intro X; pose proof (f_end_dist c pb Hd X D1 D2); qlra).
      destruct CE as [CE|CE]; [contradiction|]. split; [apply (g_end_dist c ps Hd CE D3 D4)|]. rewrite O3; auto.
  Qed.

  Theorem no_price : (forall ps pb c, ~ Marginal d ps pb c) -> find_competitive_price S d = Ok PInf.
  Proof.
    intro N. destruct (price_cases S d Hn Hp) as [[E _]|(p & x & _ & _ & _ & _ & E & _)]; [exact E|]. exfalso.
    destruct (proj2 (huang_price S d Hn Hp)) as (tm & ps & pb & q & H); [eauto|].
    destruct (huang_marginal S d Hn Hp tm ps pb q Hq H) as (c & M & _). apply (N ps pb c M).
  Qed.
End Exact.
