(** The Huang auction on the mirror image of a market. *)
From Verif Require Import QcTac Num NumFacts ModelBase ModelCurves ModelHuang ListFacts Spec SpecTrade SpecMuda SpecDual
  Sorter CurveFacts IntersectFacts CurveTop UpdateFacts StoreFacts HuangFacts DualFacts.

Lemma ration_le (t : Qc) Q : 0 <= t -> (forall x, In x Q -> 0 <= x) -> qsum (map (fun x => qmax 0 (x - t)) Q) <= qsum Q.
Proof.
  intros T. induction Q as [|x Q IH]; intro H; [apply Qcle_refl|]. cbn [map]. change (qmax 0 (x - t) + qsum (map (fun x => qmax 0 (x - t)) Q) <= x + qsum Q).
  assert (L := IH (fun y Hy => H y (or_intror Hy))). specialize (H x (or_introl eq_refl)). destruct (qmax_case 0 (x - t)) as [[E ?]|[E ?]]; rewrite E; qlra.
Qed.
Lemma qsum_pos Q : (forall x, In x Q -> 0 <= x) -> 0 <= qsum Q.
Proof.
  induction Q as [|x Q IH]; intro H; [apply Qcle_refl|]. change (0 <= x + qsum Q). assert (L := IH (fun y Hy => H y (or_intror Hy))). specialize (H x (or_introl eq_refl)). qlra.
Qed.
Lemma ration_same (t : Qc) Q : 0 <= t -> (forall x, In x Q -> 0 <= x) -> qsum (map (fun x => qmax 0 (x - t)) Q) = qsum Q -> map (fun x => qmax 0 (x - t)) Q = Q.
Proof.
  intros T. induction Q as [|x Q IH]; intros H E; [reflexivity|]. cbn [map] in *. change (qmax 0 (x - t) + qsum (map (fun x => qmax 0 (x - t)) Q) = x + qsum Q) in E.
  assert (H0 : forall y, In y Q -> 0 <= y) by (intros; apply H; right; assumption). pose proof (ration_le t Q T H0) as L.
  specialize (H x (or_introl eq_refl)). destruct (qmax_case 0 (x - t)) as [[X ?]|[X ?]]; rewrite X in E |- *.
  - f_equal; [qlra | apply IH; [exact H0 | qlra]].
  - f_equal; [qlra | apply IH; [exact H0 | qlra]].
Qed.
Lemma update_zero Q gap : Q <> [] -> (forall x, In x Q -> 0 <= x) -> gap = 0 -> update_quantity Q gap = Ok Q.
Proof.
  intros N H ->. assert (P : 0 <= qsum Q) by (apply qsum_pos; exact H).
  destruct (update_quantity_spec Q 0 N) as (t & T & E & Su); [qlra | exact P|]. rewrite E. f_equal. apply ration_same; [exact T | exact H | qlra].
Qed.
Lemma emit_flip M l qs p : emit (map (flip M) l) qs (M - p) = map (flip_trans M) (emit l qs p).
Proof.
  unfold emit. rewrite map_map. revert qs. induction l as [|r l IH]; intros [|q qs]; [reflexivity | reflexivity | reflexivity|].
  cbn [map combine fst snd flip lbl]. f_equal. apply IH.
Qed.

Theorem huang_flip M S S' d : qty_nonneg d -> inside M d -> mirrored M S S' ->
  (huang_auction S d = Ok (tm_init, XEmpty) /\ huang_auction S' (map (flip M) d) = Ok (tm_init, XEmpty)) \/
  exists tm tm' ps pb q q', huang_auction S d = Ok (tm, XHuang ps pb q) /\ huang_auction S' (map (flip M) d) = Ok (tm', XHuang (M - pb) (M - ps) q') /\
    Permutation (tm_trans tm') (map (flip_trans M) (tm_trans tm)) /\ (tm_trans tm <> [] -> q' = q).
Proof.
  intros Hq Hin Hm. unfold huang_auction.
  destruct (intersect_flip M S S' d Hq Hin Hm) as [(c & i & j & u & w & v & -> & -> & Su & Sw & L)|[-> ->]]; cbn [bind]; [right | left; auto].
  destruct (crel_step _ _ _ _ _ _ (supply_crel M S S' d Hin Hm) Su) as (u' & Su' & Ou). destruct (crel_step _ _ _ _ _ _ (demand_crel M S S' d Hin Hm) Sw) as (w' & Sw' & Ow).
  assert (Nu : nth_error (s_desc S (buyers d)) i <> None /\ u' = Fin (M - u)).
  { destruct (StepAt_in _ _ _ _ Su) as (a & _ & _ & N). unfold demand_curve_from_bids in N. cbn [fst] in N. rewrite curve_rows_crows in N.
    inversion Ou as [p A1 A2|E|]; subst; [split; [|reflexivity] | exfalso]; destruct (crows_app_nth _ _ _ _ _ N) as [(r & R & X)|[_ X]]; [congruence | injection X as _ X; subst; qlra | |].
    - injection X as X. assert (I : In r d) by (apply nth_error_In in R; apply (Permutation_in _ (s_desc_perm S _)) in R; apply filter_In in R; tauto). destruct (Hin r I) as [I1 _]. rewrite <- X in I1. qlra.
    - destruct (StepAt_in _ _ _ _ Sw) as (a' & _ & _ & N'). unfold supply_curve_from_bids in N'. cbn [fst] in N'. rewrite curve_rows_crows in N'.
      destruct (crows_app_nth _ _ _ _ _ N') as [(r & R & Y)|[_ Y]]; [|discriminate Y]. injection Y as Y.
      assert (I : In r d) by (apply nth_error_In in R; apply (Permutation_in _ (s_asc_perm S _)) in R; apply filter_In in R; tauto). destruct (Hin r I) as [I1 _]. rewrite <- Y in I1. qlra. }
  assert (Nw : nth_error (s_asc S (sellers d)) j <> None /\ w' = Fin (M - w)).
  { destruct (StepAt_in _ _ _ _ Sw) as (a & _ & _ & N). unfold supply_curve_from_bids in N. cbn [fst] in N. rewrite curve_rows_crows in N.
    destruct (crows_app_nth _ _ _ _ _ N) as [(r & R & X)|[_ X]]; [|discriminate X]. injection X as X. split; [congruence|].
    assert (I : In r d) by (apply nth_error_In in R; apply (Permutation_in _ (s_asc_perm S _)) in R; apply filter_In in R; tauto). destruct (Hin r I) as [I1 _]. rewrite <- X in I1.
    inversion Ow; subst; [reflexivity | exfalso; qlra]. }
  destruct Nu as [Nu ->]. destruct Nw as [Nw ->].
  destruct (StepAt_in _ _ _ _ Su) as (a1 & _ & _ & N1). destruct (StepAt_in _ _ _ _ Sw) as (a2 & _ & _ & N2).
  destruct (StepAt_in _ _ _ _ Su') as (a3 & _ & _ & N3). destruct (StepAt_in _ _ _ _ Sw') as (a4 & _ & _ & N4). rewrite N1, N2, N3, N4. clear a1 a2 a3 a4 N1 N2 N3 N4 Su' Sw' Ou Ow.
  rewrite (desc_flip M S S' d Hm), (asc_flip M S S' d Hm), !firstn_map, !flip_qty.
  assert (LB : length (firstn i (s_desc S (buyers d))) = i) by (apply firstn_length_le, Nat.lt_le_incl, nth_error_Some, Nu).
  assert (LL : length (firstn j (s_asc S (sellers d))) = j) by (apply firstn_length_le, Nat.lt_le_incl, nth_error_Some, Nw).
  assert (QB : forall y, In y (map qty (firstn i (s_desc S (buyers d)))) -> 0 <= y).
  { intros y Hy. apply in_map_iff in Hy. destruct Hy as (r & <- & R). apply In_firstn in R. apply (Permutation_in _ (s_desc_perm S _)) in R. apply filter_In in R. apply Hq; tauto. }
  assert (QL : forall y, In y (map qty (firstn j (s_asc S (sellers d)))) -> 0 <= y).
  { intros y Hy. apply in_map_iff in Hy. destruct Hy as (r & <- & R). apply In_firstn in R. apply (Permutation_in _ (s_asc_perm S _)) in R. apply filter_In in R. apply Hq; tauto. }
  set (B1 := firstn i (s_desc S (buyers d))) in *. set (L1 := firstn j (s_asc S (sellers d))) in *.
  rewrite (andb_comm (Nat.ltb 0 j)). destruct (Nat.ltb 0 i && Nat.ltb 0 j) eqn:Pos.
  2:{ do 6 eexists. split; [reflexivity|]. split; [reflexivity|]. split; [constructor|]. intro X. destruct X. reflexivity. }
  apply andb_true_iff in Pos. destruct Pos as [Pb Ps]. apply Nat.ltb_lt in Pb, Ps.
  assert (NB : map qty B1 <> []) by (intro Z; apply map_eq_nil in Z; rewrite Z in LB; cbn [length] in LB; lia).
  assert (NL : map qty L1 <> []) by (intro Z; apply map_eq_nil in Z; rewrite Z in LL; cbn [length] in LL; lia).
  assert (SB : 0 <= qsum (map qty B1)) by (apply qsum_pos; exact QB). assert (SL : 0 <= qsum (map qty L1)) by (apply qsum_pos; exact QL).
  assert (Fin : forall qs qb q q', q' = q -> exists tm tm' ps pb q0 q1,
     Ok (add_all (add_all tm_init (emit L1 qs w)) (emit B1 qb u), XHuang w u q) = Ok (tm, XHuang ps pb q0) /\
     Ok (add_all (add_all tm_init (emit (map (flip M) B1) qb (M - u))) (emit (map (flip M) L1) qs (M - w)), XHuang (M - u) (M - w) q') = Ok (tm', XHuang (M - pb) (M - ps) q1) /\
     Permutation (tm_trans tm') (map (flip_trans M) (tm_trans tm)) /\ (tm_trans tm <> [] -> q1 = q0)).
  { intros qs qb q q' Eq. do 6 eexists. split; [reflexivity|]. split; [reflexivity|]. split; [|auto]. rewrite !add_all_trans, !emit_flip. cbn [tm_init tm_trans app]. rewrite map_app. apply Permutation_app_comm. }
  destruct (qlt_spec 0 (qsum (map qty L1) - qsum (map qty B1))) as [G|G].
  - destruct (qlt_spec 0 (qsum (map qty B1) - qsum (map qty L1))) as [G'|_]; [exfalso; qlra|].
    destruct (update_quantity_spec (map qty L1) (qsum (map qty L1) - qsum (map qty B1)) NL) as (t & T & E & Z); [qlra | qlra|].
    replace (- (qsum (map qty B1) - qsum (map qty L1))) with (qsum (map qty L1) - qsum (map qty B1)) by ring. rewrite E. cbn [bind]. apply Fin. rewrite Z. ring.
  - destruct (qlt_spec 0 (qsum (map qty B1) - qsum (map qty L1))) as [G'|G'].
    + destruct (update_quantity_spec (map qty B1) (qsum (map qty B1) - qsum (map qty L1)) NB) as (t & T & E & Z); [qlra | qlra|].
      replace (- (qsum (map qty L1) - qsum (map qty B1))) with (qsum (map qty B1) - qsum (map qty L1)) by ring. rewrite E. cbn [bind]. apply Fin. rewrite Z. ring.
    + rewrite (update_zero (map qty B1)), (update_zero (map qty L1)) by (try assumption; qlra). cbn [bind]. apply Fin. qlra.
Qed.
