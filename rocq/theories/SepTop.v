(** Rounding on separated bids: the mechanisms. *)
From Coq Require Import Permutation Sorted.
From Verif Require Import QcTac Num NumFacts ListFacts ModelBase ModelCurves ModelHuang ModelMuda ModelMarket ModelUniform ModelRound ModelRoundUniform ModelFloat Spec SpecRound SpecMuda SpecSep Sorter StoreFacts
  RoundFacts RoundHuang RoundError RoundMuda MudaHalf MudaFacts RoundTop SepFacts SepUpdate SepHuang SepPrice SepMuda.

Lemma alike_weaken e e' l l' : e <= e' -> Forall2 (alike e) l l' -> Forall2 (alike e') l l'.
Proof. intros L H. induction H as [|t t' l l' N H IH]; constructor; [|exact IH]. unfold alike in *. intuition. qlra. Qed.

Section Top.
  Variables (R : rounding) (u : Qc).
  Hypothesis Hrel : rel_error R u.
  Variables (A : adder R) (S : sorter) (d : df).
  Hypothesis Hq : qty_nonneg d.
  Hypothesis Hp : price_nonneg d.
  Hypothesis Hm : machine_qty R d.
  Lemma slack_mono l l' : Permutation d (l ++ l') -> slack u l <= slack u d.
  Proof.
    intro P. destruct (part_le d Hq l l' P) as (X0 & XW & Lx & _). pose proof (u_nonneg R u Hrel) as U. unfold slack.
    assert (N1 : qnat (2 * length l + 6) <= qnat (2 * length d + 6)) by (unfold qnat; apply (proj1 (MergeFacts.qz_le _ _)); lia).
    assert (B1 : (1 + u) ^ (2 * length l) <= (1 + u) ^ (2 * length d)) by (apply (B_mono R u Hrel); lia).
    pose proof (B_ge1 R u Hrel (2 * length l)) as G1. pose proof (B_ge1 R u Hrel (2 * length d)) as G2. pose proof (qmult_le_l u _ _ U B1) as M1.
    assert (E0 : 0 <= u * (1 + u) ^ (2 * length l)) by (apply qmult_nonneg; qlra).
    apply Qcle_trans with (qnat (2 * length d + 6) * (u * (1 + u) ^ (2 * length d)) * qsumf qty l).
    - apply qmult_le_r; [exact X0|]. apply Qcle_trans with (qnat (2 * length d + 6) * (u * (1 + u) ^ (2 * length l))); [apply qmult_le_r; assumption | apply qmult_le_l; [apply qnat_nn | exact M1]].
    - apply qmult_le_l; [|exact XW]. apply qmult_nonneg; [apply qnat_nn|]. apply qmult_nonneg; qlra.
  Qed.
  Theorem muda_alike fl : labels_unique d -> separated (slack u (rows_in (left_of d fl) d)) (rows_in (left_of d fl) d) -> separated (slack u (rows_in (right_of d fl) d)) (rows_in (right_of d fl) d) ->
    alike_muda (slack u d) (muda S d fl) (muda_r R A S d fl).
  Proof.
    intros Hu Sl Sr. rewrite (muda_eq S d fl Hu), (muda_r_eq R A S d fl Hu). unfold check_equal_price. destruct (_ || _); [reflexivity|]. unfold muda_body, body_r.
    assert (Sub : forall ls, qty_nonneg (rows_in ls d) /\ price_nonneg (rows_in ls d) /\ machine_qty R (rows_in ls d)).
    { intro ls. repeat split; intros r Hr; apply rows_in_In in Hr; [apply Hq | apply Hp | apply Hm]; apply Hr. }
    destruct (Sub (left_of d fl)) as (Q1 & P1 & M1). destruct (Sub (right_of d fl)) as (Q2 & P2 & M2).
    assert (Ml : forall ls, slack u (rows_in ls d) <= slack u d).
    { intro ls. eapply slack_mono. unfold rows_in. apply filter_negb_perm. }
    rewrite (price_same R u Hrel S _ Q1 P1 M1 Sl), (price_same R u Hrel S _ Q2 P2 M2 Sr).
    destruct (find_competitive_price S (rows_in (left_of d fl) d)) as [pl|]; [|reflexivity]. cbn [bind].
    destruct (find_competitive_price S (rows_in (right_of d fl) d)) as [pr|]; [|reflexivity]. cbn [bind].
    pose proof (half_alike R u Hrel A S _ Q1 M1 Sl pr (zero_fees d) (zero_fees d) eq_refl) as H1.
    destruct (solve_market_side S _ pr _) as [[tl f1]|]; destruct (solve_market_side_r R A S _ pr _) as [[tl' f1']|]; try contradiction; [|exact H1]. cbn [bind]. destruct H1 as [H1 L1].
    pose proof (half_alike R u Hrel A S _ Q2 M2 Sr pl f1 f1' L1) as H2.
    destruct (solve_market_side S _ pl _) as [[tr f2]|]; destruct (solve_market_side_r R A S _ pl _) as [[tr' f2']|]; try contradiction; [|exact H2]. cbn [bind alike_muda]. destruct H2 as [H2 L2].
    repeat (split; [|auto]). rewrite !tm_merge_trans. apply Forall2_app; eapply alike_weaken; eauto.
  Qed.

  Hypothesis Hs : separated (slack u d) d.
  Let n := length d.
  Let W := qsumf qty d.
  Let e := u * (1 + u) ^ (2 * n).
  Let err := qnat n * e * W.
  Lemma long_alike L L' T Tr p : Permutation d (L ++ L') -> near Tr T err -> 0 <= Tr -> Tr <= (1 + u) ^ n * W ->
    (forall i, firstn i L <> [] -> slack u d < qabs (qsumf qty (firstn i L) - T)) ->
    Forall2 (alike (slack u d)) (uniform_long L T 0 p) (uniform_long_r R L Tr 0 p).
  Proof.
    intros P NT T0 TB Sep. destruct (slack_ge R u Hrel d Hq) as (SG & S0 & _). fold n e W err in SG. pose proof (u_nonneg R u Hrel) as U.
    destruct (part_le d Hq L L' P) as (X0 & XW & Lx & Ix). fold n W in XW, Lx. assert (W0 : 0 <= W) by qlra.
    assert (Bu : u * ((1 + u) ^ n * W) <= e * W).
    { replace (e * W) with (u * ((1 + u) ^ (2 * n) * W)) by (unfold e; ring). apply qmult_le_l; [exact U|]. apply qmult_le_r; [exact W0|]. apply (B_mono R u Hrel). lia. }
    pose proof (slack_err u d) as SE. fold n e W err in SE. assert (EW : 0 <= e * W) by (apply qmult_nonneg; [exact (e_nonneg R u Hrel d) | exact W0]).
    replace (qz 6 * (e * W)) with (e * W + e * W + e * W + e * W + e * W + e * W) in SE by (replace (qz 6) with (1 + 1 + 1 + 1 + 1 + 1) by (apply Qc_is_canon; reflexivity); ring).
    assert (Run : forall pre l, L = pre ++ l -> near (run R (map qty pre)) (qsumf qty pre) err /\ 0 <= run R (map qty pre) /\ run R (map qty pre) <= (1 + u) ^ n * W).
    { intros pre l E. assert (P' : Permutation d (pre ++ (l ++ L'))) by (rewrite app_assoc, <- E; exact P). destruct (part_le d Hq _ _ P') as (Y0 & YW & Ly & Iy).
      assert (Qx : forall z, In z (map qty pre) -> 0 <= z /\ machine R z) by (intros z Hz; apply in_map_iff in Hz; destruct Hz as (y & <- & Hy); split; [apply Hq | apply Hm]; apply Iy, Hy).
      destruct (sum_machine R u Hrel (seq_adder R) d _ Qx ltac:(rewrite map_length; exact Ly) YW) as (_ & Z1 & Z2 & _).
      split; [apply (part_near_err R u Hrel d Hq Hm pre _ _ P'), run_sums; intros z Hz; apply Qx, Hz|]. split; assumption. }
    assert (K : forall l pre, L = pre ++ l -> Forall2 (alike (slack u d)) (uniform_long l T (qsumf qty pre) p) (uniform_long_r R l Tr (run R (map qty pre)) p)).
    { induction l as [|r l IH]; intros pre E; [constructor|]. cbn [uniform_long uniform_long_r].
      assert (E' : L = (pre ++ [r]) ++ l) by (rewrite E, <- app_assoc; reflexivity).
      assert (Q1 : qsumf qty pre + qty r = qsumf qty (pre ++ [r])) by (rewrite qsumf_app, qsumf_cons, qsumf_nil; ring).
      assert (Q2 : R (run R (map qty pre) + qty r) = run R (map qty (pre ++ [r]))) by (rewrite map_app; cbn [map]; rewrite run_snoc; reflexivity).
      rewrite (Qcplus_comm (qty r) (qsumf qty pre)), (Qcplus_comm (qty r) (run R (map qty pre))), Q1, Q2. constructor; [|apply IH, E'].
      destruct (Run _ _ E) as ([A1 A2] & A3 & A4). destruct (Run _ _ E') as ([B1 B2] & _ & _).
      pose proof (Sep (length (pre ++ [r]))) as Sp. assert (F : firstn (length (pre ++ [r])) L = pre ++ [r]) by (rewrite E', firstn_app, firstn_all, Nat.sub_diag, firstn_O, app_nil_r; reflexivity). rewrite F in Sp. specialize (Sp ltac:(destruct pre; discriminate)).
      destruct NT as [T1 T2]. unfold alike. cbn [t_bid t_price t_source t_active t_qty]. repeat (split; [reflexivity|]).
      unfold qabs in Sp. destruct (qle_spec 0 (qsumf qty (pre ++ [r]) - T)).
      - rewrite (proj2 (qleb_gt (qsumf qty (pre ++ [r])) T)), (proj2 (qleb_gt (run R (map qty (pre ++ [r]))) Tr)) by qlra.
        pose proof (rnd_near R u Hrel (Tr - run R (map qty pre))) as [N1 N2].
        assert (Ab : qabs (Tr - run R (map qty pre)) <= (1 + u) ^ n * W) by (unfold qabs; destruct (qle_spec 0 (Tr - run R (map qty pre))); qlra).
        pose proof (qmult_le_l _ _ _ U Ab) as Ua. apply near_qabs. split; qlra.
      - rewrite (proj2 (qleb_le (qsumf qty (pre ++ [r])) T)), (proj2 (qleb_le (run R (map qty (pre ++ [r]))) Tr)) by qlra.
        replace (qty r - qty r) with 0 by ring. exact S0. }
    exact (K L [] eq_refl).
  Qed.
  Theorem uniform_alike : alike_uniform (slack u d) (uniform_price_mechanism S d) (uniform_price_mechanism_r R A S d).
  Proof.
    unfold uniform_price_mechanism, uniform_price_mechanism_r. pose proof (crossing_same R u Hrel S d Hq Hp Hm Hs) as C.
    destruct (intersect_stepwise _ _ _) as [[[[x b] s] v]|]; destruct (intersect_stepwise_r R _ _ _) as [[[[x' b'] s'] v']|]; try contradiction; [|exact C].
    destruct C as (Px & -> & -> & ->). cbn [bind]. destruct b as [b|]; [|reflexivity]. destruct s as [s|]; [|reflexivity].
    destruct x as [x|]; destruct x' as [x'|]; try contradiction; [|reflexivity]. cbn in Px. destruct v as [p| | |]; try reflexivity.
    set (X := firstn (Datatypes.S b) (s_desc S (buyers d))). set (Y := firstn (Datatypes.S s) (s_asc S (sellers d))).
    destruct (slack_ge R u Hrel d Hq) as (SG & S0 & SE). fold n e W err in SG, SE.
    pose proof (bl_perm S d (Datatypes.S b)) as PX. fold X in PX. pose proof (sl_perm S d (Datatypes.S s)) as PY. fold Y in PY.
    assert (Part : forall l l', Permutation d (l ++ l') -> near (A (map qty l)) (qsumf qty l) err /\ 0 <= A (map qty l) /\ A (map qty l) <= (1 + u) ^ n * W /\ 0 <= qsumf qty l).
    { intros l l' P. destruct (part_le d Hq l l' P) as (X0 & XW & Lx & Ix).
      assert (Qx : forall z, In z (map qty l) -> 0 <= z /\ machine R z) by (intros z Hz; apply in_map_iff in Hz; destruct Hz as (y & <- & Hy); split; [apply Hq | apply Hm]; apply Ix, Hy).
      destruct (sum_machine R u Hrel A d _ Qx ltac:(rewrite map_length; exact Lx) XW) as (_ & Z1 & Z2 & _).
      split; [apply (part_near_err R u Hrel d Hq Hm l l' _ P (asum_ok R A _))|]. auto. }
    destruct (Part X _ PX) as ([NX1 NX2] & AX & BX & X0). destruct (Part Y _ PY) as ([NY1 NY2] & AY & BY & Y0).
    assert (Sh : forall l, Forall2 (alike (slack u d)) (uniform_short l p) (uniform_short l p)).
    { intro l. unfold uniform_short. induction l; constructor; [|assumption]. unfold alike. cbn. repeat (split; [reflexivity|]). match goal with |- qabs (?a - ?a) <= _ => replace (a - a) with 0 by ring end. exact S0. }
    assert (Xt : match x, x' with Fin c, Fin c' => qabs (c - c') <= slack u d | _, _ => x = x' end).
    { destruct Px as [[-> ->]|(c & c' & -> & -> & Hc)]; [reflexivity|]. pose proof (cut_near R u Hrel S d Hq Hm _ _ Hc) as N. fold n e W err in N. apply near_qabs in N. qlra. }
    cbv zeta. change (qsum (map qty X)) with (qsumf qty X). change (qsum (map qty Y)) with (qsumf qty Y).
    assert (Sx : forall i, firstn i X <> [] -> slack u d < qabs (qsumf qty (firstn i X) - qsumf qty Y)).
    { intros i Ni. unfold X in *. rewrite firstn_firstn in *. destruct (part_le d Hq _ _ (bl_perm S d (Nat.min i (Datatypes.S b)))) as (_ & _ & _ & I). destruct Y as [|y Y'] eqn:EY.
      - rewrite qsumf_nil. pose proof (sum_gt u d Hq Hs _ Ni I). unfold qabs. destruct (qle_spec 0 (qsumf qty (firstn (Nat.min i (Datatypes.S b)) (s_desc S (buyers d))) - 0)); qlra.
      - apply (proj2 Hs); [exact Ni | discriminate | apply bl_best | rewrite <- EY; apply sl_best]. }
    assert (Sy : forall i, firstn i Y <> [] -> slack u d < qabs (qsumf qty (firstn i Y) - qsumf qty X)).
    { intros i Ni. unfold Y in *. rewrite firstn_firstn in *. destruct (part_le d Hq _ _ (sl_perm S d (Nat.min i (Datatypes.S s)))) as (_ & _ & _ & I). destruct X as [|y X'] eqn:EX.
      - rewrite qsumf_nil. pose proof (sum_gt u d Hq Hs _ Ni I). unfold qabs. destruct (qle_spec 0 (qsumf qty (firstn (Nat.min i (Datatypes.S s)) (s_asc S (sellers d))) - 0)); qlra.
      - assert (K : slack u d < qabs (qsumf qty (y :: X') - qsumf qty (firstn (Nat.min i (Datatypes.S s)) (s_asc S (sellers d))))) by (apply (proj2 Hs); [discriminate | exact Ni | rewrite <- EX; apply bl_best | apply sl_best]).
        revert K. generalize (qsumf qty (y :: X')) (qsumf qty (firstn (Nat.min i (Datatypes.S s)) (s_asc S (sellers d)))). intros a c. unfold qabs. destruct (qle_spec 0 (a - c)), (qle_spec 0 (c - a)); qlra. }
    assert (Same : qltb (A (map qty Y)) (A (map qty X)) = qltb (qsumf qty Y) (qsumf qty X)).
    { assert (Far : X <> [] \/ Y <> [] -> qsumf qty X + err + err < qsumf qty Y \/ qsumf qty Y + err + err < qsumf qty X).
      { intros [Nx|Ny].
        - specialize (Sx (length X)). rewrite firstn_all in Sx. specialize (Sx Nx). unfold qabs in Sx. destruct (qle_spec 0 (qsumf qty X - qsumf qty Y)); [right|left]; qlra.
        - specialize (Sy (length Y)). rewrite firstn_all in Sy. specialize (Sy Ny). unfold qabs in Sy. destruct (qle_spec 0 (qsumf qty Y - qsumf qty X)); [left|right]; qlra. }
      assert (D : X = [] /\ Y = [] \/ X <> [] \/ Y <> []) by (destruct X, Y; [left; auto | right; right; discriminate | right; left; discriminate | right; left; discriminate]).
      destruct D as [[-> ->]|D]; [rewrite !(proj2 (qltb_ge _ _)) by apply Qcle_refl; reflexivity|].
      destruct (Far D).
      - rewrite (proj2 (qltb_ge (qsumf qty Y) (qsumf qty X))), (proj2 (qltb_ge (A (map qty Y)) (A (map qty X)))) by qlra. reflexivity.
      - rewrite (proj2 (qltb_lt (qsumf qty Y) (qsumf qty X))), (proj2 (qltb_lt (A (map qty Y)) (A (map qty X)))) by qlra. reflexivity. }
    rewrite Same. destruct (qltb (qsumf qty Y) (qsumf qty X)); cbn [alike_uniform]; rewrite !add_all_trans; (split; [|auto]); apply Forall2_app; try (apply Forall2_app; [constructor | apply Sh]).
    - apply (long_alike X _ _ _ _ PX); [split; assumption | exact AY | exact BY | exact Sx].
    - apply (long_alike Y _ _ _ _ PY); [split; assumption | exact AX | exact BX | exact Sy].
  Qed.
End Top.
