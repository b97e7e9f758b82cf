(** On separated bids the rounded auction of Huang et al. is the exact one, up to small differences of the quantities. *)
From Coq Require Import Permutation Sorted.
From Verif Require Import QcTac Num NumFacts ListFacts ModelBase ModelCurves ModelHuang ModelRound Spec SpecRound SpecSep Sorter UpdateFacts
  RoundFacts RoundHuang RoundError HuangFacts StoreFacts SepFacts SepUpdate.

Lemma near_qabs x y e : near x y e -> qabs (y - x) <= e.
Proof. intros [L1 L2]. unfold qabs. destruct (qle_spec 0 (y - x)); qlra. Qed.
Lemma emit_alike e X p : 0 <= e -> forall q q', Forall2 (fun y x => near y x e) q' q -> Forall2 (alike e) (emit X q p) (emit X q' p).
Proof.
  intro E. induction X as [|r X IH]; intros q q' H; [constructor|]. destruct H as [|y x q' q N H]; [constructor|].
  unfold emit. cbn [combine map]. constructor; [|apply (IH q q' H)]. unfold alike. cbn. repeat (split; [reflexivity|]). apply near_qabs, N.
Qed.
Lemma near_same e q : 0 <= e -> Forall2 (fun y x => near y x e) q q.
Proof. intro E. induction q; constructor; [apply near_self, E | assumption]. Qed.

Section Huang.
  Variables (R : rounding) (u : Qc).
  Hypothesis Hrel : rel_error R u.
  Hypothesis U1 : u < 1.
  Variables (A : adder R) (S : sorter) (d : df).
  Hypothesis Hq : qty_nonneg d.
  Hypothesis Hm : machine_qty R d.
  Hypothesis Hs : separated (slack u d) d.
  Let n := length d.
  Let W := qsumf qty d.
  Let e := u * (1 + u) ^ (2 * n).
  Let err := qnat n * e * W.
  Notation B k := ((1 + u) ^ k).

  Lemma sum_machine l : (forall x, In x l -> 0 <= x /\ machine R x) -> (length l <= n)%nat -> qsum l <= W -> machine R (A l) /\ 0 <= A l /\ A l <= B n * W /\ near (A l) (qsum l) (qnat n * e * qsum l).
  Proof.
    intros H L LW. pose proof (asum_ok R A l) as So. split; [apply (sums_machine R _ _ So); intros; apply H; assumption|].
    split; [apply (sums_nonneg R _ _ So); intros; apply H; assumption|].
    assert (X0 : 0 <= qsum l) by (apply qsum_nonneg'; intros; apply H; assumption). pose proof (B_ge1 R u Hrel n) as B1. split.
    - destruct (sums_err R u Hrel l _ So H) as [K _]. replace (qsum l + (B (length l - 1) - 1) * qsum l) with (B (length l - 1) * qsum l) in K by ring.
      pose proof (qmult_le_r _ _ _ X0 (B_mono R u Hrel (length l - 1) n ltac:(lia))) as M1. pose proof (qmult_le_l (B n) _ _ ltac:(qlra) LW) as M2. qlra.
    - apply (near_weaken _ _ _ _ (sums_near R u Hrel l _ n So H L)). apply qmult_le_r; [exact X0|]. apply qmult_le_l; [apply qnat_nn | exact (e_ge R u Hrel d)].
  Qed.
  Lemma update_machine Q g qs : Q <> [] -> (forall x, In x Q -> 0 <= x /\ machine R x) -> 0 <= g -> update_quantity_r R Q g = Ok qs ->
    (forall x, In x qs -> 0 <= x /\ machine R x) /\ qsum qs <= qsum Q /\ length qs = length Q.
  Proof.
    intros Hne HQ G E. destruct (update_r_spec R Q g Hne HQ G) as [Er|(q' & gap' & N' & El & A1 & A2 & A3 & A4 & A5 & E')]; [congruence|].
    destruct (update_r_reduced R Q g Hne HQ G) as [Er|(Q' & E2 & Rd)]; [congruence|]. rewrite E2 in E. injection E as ->. rewrite E2 in E'. injection E' as E'.
    split; [|split; [|apply (reduced_length _ _ Rd)]].
    - intros x Hx. split.
      + clear - Rd Hx. induction Rd as [|a b Q Q' H Rd IH]; [destruct Hx|]. destruct Hx as [<-|Hx]; [tauto | exact (IH Hx)].
      + rewrite E' in Hx. apply in_map_iff in Hx. destruct Hx as ([y|] & <- & _); cbn [cut_r]; [apply rnd_machine | apply machine_0].
    - clear - Rd. induction Rd as [|a b Q Q' H Rd IH]; [cbn; qlra|]. change (qsum (?a :: ?l)) with (a + qsum l). destruct H. qlra.
  Qed.
  (** one side, the larger, is rationed against the other *)
  Lemma side_close lx ly lx' ly' : Permutation d (lx ++ lx') -> Permutation d (ly ++ ly') -> qsumf qty lx + qsumf qty ly <= W -> lx <> [] -> ly <> [] ->
    qsumf qty ly + slack u d < qsumf qty lx ->
    0 < R (A (map qty lx) - A (map qty ly)) /\
    exists qs qe, update_quantity_r R (map qty lx) (R (A (map qty lx) - A (map qty ly))) = Ok qs /\ update_quantity (map qty lx) (qsumf qty lx - qsumf qty ly) = Ok qe /\
      length qs = length lx /\ length qe = length lx /\ Forall2 (fun y x => near y x (slack u d)) qs qe /\ qabs (qsum qe - A qs) <= slack u d + slack u d.
  Proof.
    intros Px Py LW Nx Ny Gap. pose proof (u_nonneg R u Hrel) as U.
    destruct (part_le d Hq lx lx' Px) as (X0 & XW & Lx & Ix). destruct (part_le d Hq ly ly' Py) as (Y0 & YW & Ly & Iy). fold W n in XW, YW, Lx, Ly.
    assert (Qx : forall z, In z (map qty lx) -> 0 <= z /\ machine R z) by (intros z Hz; apply in_map_iff in Hz; destruct Hz as (r & <- & Hr); split; [apply Hq | apply Hm]; apply Ix, Hr).
    assert (Qy : forall z, In z (map qty ly) -> 0 <= z /\ machine R z) by (intros z Hz; apply in_map_iff in Hz; destruct Hz as (r & <- & Hr); split; [apply Hq | apply Hm]; apply Iy, Hr).
    assert (Lx' : (length (map qty lx) <= n)%nat) by (rewrite map_length; exact Lx). assert (Ly' : (length (map qty ly) <= n)%nat) by (rewrite map_length; exact Ly).
    destruct (sum_machine _ Qx Lx' XW) as (Mx & Sx0 & SxB & Ex). destruct (sum_machine _ Qy Ly' YW) as (My & Sy0 & SyB & Ey).
    change (qsum (map qty lx)) with (qsumf qty lx) in *. change (qsum (map qty ly)) with (qsumf qty ly) in *.
    assert (Yg : slack u d < qsumf qty ly) by (apply (sum_gt u d Hq Hs ly Ny Iy)).
    set (X := qsumf qty lx) in *. set (Y := qsumf qty ly) in *. set (sx := A (map qty lx)) in *. set (sy := A (map qty ly)) in *.
    assert (W0 : 0 <= W) by qlra. assert (Pe : 0 <= e) by (exact (e_nonneg R u Hrel d)). assert (Pn : 0 <= qnat n) by apply qnat_nn.
    assert (Pne : 0 <= qnat n * e) by (apply qmult_nonneg; assumption).
    pose proof (qmult_le_l _ _ _ Pne LW) as K3. replace (qnat n * e * (X + Y)) with (qnat n * e * X + qnat n * e * Y) in K3 by ring. fold err in K3.
    pose proof (slack_err u d) as SE. fold n e W err in SE. assert (EW : 0 <= e * W) by (apply qmult_nonneg; assumption).
    replace (qz 6 * (e * W)) with (e * W + e * W + e * W + e * W + e * W + e * W) in SE by (replace (qz 6) with (1 + 1 + 1 + 1 + 1 + 1) by (apply Qc_is_canon; reflexivity); ring).
    assert (Er0 : 0 <= err) by (unfold err; apply qmult_nonneg; assumption).
    assert (Nd : near (sx - sy) (X - Y) err) by (apply near_weaken with (qnat n * e * X + qnat n * e * Y); [apply near_minus; assumption | exact K3]).
    assert (Dpos : 0 < sx - sy) by (destruct Nd; qlra).
    set (gr := R (sx - sy)).
    assert (Gpos : 0 < gr).
    { pose proof (rnd_low R u Hrel (sx - sy) ltac:(qlra)) as Rl. assert (0 < (1 - u) * (sx - sy)) by (apply qmult_pos; qlra). unfold gr. qlra. }
    assert (Gx : gr <= B n * W) by (assert (gr <= sx) by (apply rnd_le; [exact Mx | qlra]); qlra).
    assert (BB : B n * B n = B (2 * n)) by (clear; replace (2 * n)%nat with (n + n)%nat by lia; generalize n at 1 3; intro k; induction k as [|k IH]; cbn [Nat.add]; [change ((1 + u) ^ 0) with 1; ring | change ((1 + u) ^ Datatypes.S k) with ((1 + u) * (1 + u) ^ k); change ((1 + u) ^ Datatypes.S (k + n)) with ((1 + u) * (1 + u) ^ (k + n)); rewrite <- IH; ring]).
    pose proof (B_ge1 R u Hrel n) as B1. assert (Bu : u * (B n * W) <= e * W).
    { replace (e * W) with (u * (B (2 * n) * W)) by (unfold e; ring). apply qmult_le_l; [exact U|]. apply qmult_le_r; [exact W0|]. apply (B_mono R u Hrel). lia. }
    assert (Ng : near gr (X - Y) (err + e * W)).
    { pose proof (rnd_near_pos R u Hrel (sx - sy) ltac:(qlra)) as N1. fold gr in N1. assert (u * (sx - sy) <= u * (B n * W)) by (apply qmult_le_l; [exact U | qlra]).
      destruct N1, Nd. split; qlra. }
    assert (NeX : map qty lx <> []) by (destruct lx; [congruence | discriminate]). assert (Gn : 0 <= gr) by qlra.
    destruct (update_r_ok R u Hrel U1 (map qty lx) gr ltac:(qlra) Qx) as (qs & Eqs).
    { change (qsum (map qty lx)) with X. rewrite map_length.
      assert (Bl : B (length lx) * gr <= B n * gr) by (apply qmult_le_r; [qlra | apply (B_mono R u Hrel), Lx]).
      pose proof (B_lin R u Hrel n) as Bn. pose proof (qmult_le_r _ _ _ Gn Bn) as M1.
      assert (M2 : qnat n * (u * B n) * gr <= err).
      { apply Qcle_trans with (qnat n * (u * B n) * (B n * W)); [apply qmult_le_l; [apply qmult_nonneg; [exact Pn | apply qmult_nonneg; qlra] | exact Gx]|].
        unfold err, e. rewrite <- BB. replace (qnat n * (u * B n) * (B n * W)) with (qnat n * (u * (B n * B n)) * W) by ring. apply Qcle_refl. }
      replace ((B n - 1) * gr) with (B n * gr - gr) in M1 by ring. destruct Ng. qlra. }
    destruct (ration_close R u Hrel U1 (map qty lx) (X - Y) gr qs NeX Qx ltac:(qlra) ltac:(change (qsum (map qty lx)) with X; qlra) ltac:(qlra) (rnd_machine R _) Eqs) as (qe & Eqe & L1 & L2 & F).
    rewrite map_length in L1, L2. split; [exact Gpos|]. exists qs, qe. split; [exact Eqs|]. split; [exact Eqe|]. split; [exact L1|]. split; [exact L2|].
    assert (Ga : qabs (gr - (X - Y)) <= err + e * W) by (apply near_abs, Ng).
    assert (Uq : u * X <= e * W) by (apply Qcle_trans with (u * (B n * W)); [apply qmult_le_l; [exact U|]; pose proof (qmult_le_r _ _ _ W0 B1) as M; rewrite Qcmult_1_l in M; qlra | exact Bu]).
    assert (Un : u * (qnat (length lx) * gr) <= err).
    { assert (Ln : qnat (length lx) <= qnat n) by (unfold qnat; apply (proj1 (MergeFacts.qz_le _ _)); lia).
      pose proof (qmult_le_r _ _ _ Gn Ln) as M1. pose proof (qmult_le_l _ _ _ Pn Gx) as M2. pose proof (qmult_le_l u _ _ U (Qcle_trans _ _ _ M1 M2)) as M3.
      pose proof (qmult_le_l _ _ _ Pn Bu) as M4. unfold err. replace (qnat n * e * W) with (qnat n * (e * W)) by ring. replace (u * (qnat n * (B n * W))) with (qnat n * (u * (B n * W))) in M3 by ring. qlra. }
    rewrite map_length in F. change (qsum (map qty lx)) with X in F.
    split.
    - assert (K : qz 5 * (u * X) + u * (qnat (length lx) * gr) + qabs (gr - (X - Y)) <= slack u d).
      { replace (qz 5 * (u * X)) with (u * X + u * X + u * X + u * X + u * X) by (replace (qz 5) with (1 + 1 + 1 + 1 + 1) by (apply Qc_is_canon; reflexivity); ring). qlra. }
      clear - F K. induction F; constructor; [eapply near_weaken; eassumption | assumption].
    - destruct (update_machine (map qty lx) gr qs NeX Qx ltac:(qlra) Eqs) as (Mq & Sq & Lq). rewrite map_length in Lq. change (qsum (map qty lx)) with X in Sq.
      destruct (sum_machine qs Mq ltac:(lia) ltac:(qlra)) as (_ & _ & _ & Ea).
      pose proof (update_r_err R u Hrel (map qty lx) gr qs NeX Qx ltac:(qlra) (rnd_machine R _) Eqs) as Ne. rewrite map_length in Ne. change (qsum (map qty lx)) with X in Ne.
      replace (u * (qnat (length lx) * gr + X)) with (u * (qnat (length lx) * gr) + u * X) in Ne by ring.
      destruct (update_quantity_spec (map qty lx) (X - Y) NeX ltac:(qlra) ltac:(change (qsum (map qty lx)) with X; qlra)) as (t & _ & Ee & Es). rewrite Ee in Eqe. injection Eqe as <-.
      change (qsum (map qty lx)) with X in Es. rewrite Es.
      assert (Z : qnat n * e * qsum qs <= err) by (unfold err; apply qmult_le_l; [exact Pne | qlra]).
      apply near_qabs. destruct Ea, Ne, Ng. split; qlra.
  Qed.

  Lemma rows_snd L v : map snd (curve_rows L ++ [(PInf, v)]) = map snd (curve_rows_r R L ++ [(PInf, v)]).
  Proof.
    rewrite <- curve_rows_exact. change (curve_rows_r exact L) with (crows_r exact 0 L). change (curve_rows_r R L) with (crows_r R 0 L).
    generalize 0 at 1 as a. generalize 0 as c. induction L as [|r L IH]; intros c a; [reflexivity|]. rewrite !crows_r_cons. cbn [app map snd]. f_equal. apply IH.
  Qed.
  Lemma nth_snd (f g : list (num * num)) i : map snd f = map snd g -> option_map snd (nth_error g i) = option_map snd (nth_error f i).
  Proof. intro E. rewrite <- !nth_error_map, E. reflexivity. Qed.
  Lemma cut_ne l i p x : nth_error (crows_r R 0 l ++ [p]) i = Some x -> (0 < i)%nat -> firstn i l <> [].
  Proof.
    destruct x as [a v]. intros H L. destruct l as [|r l]; [|destruct i; [lia | discriminate]]. destruct i as [|[|i]]; [lia | discriminate H | discriminate H].
  Qed.
  Lemma parts_le i j : qsumf qty (firstn i (s_desc S (buyers d))) + qsumf qty (firstn j (s_asc S (sellers d))) <= W.
  Proof.
    pose proof (bl_perm S d i) as P. unfold W. rewrite (qsumf_perm qty _ _ P), !qsumf_app.
    rewrite <- (firstn_skipn j (s_asc S (sellers d))) at 2. rewrite qsumf_app.
    assert (I : forall r, In r (firstn i (s_desc S (buyers d)) ++ skipn i (s_desc S (buyers d)) ++ s_asc S (sellers d)) -> In r d) by (intros r Hr; apply (Permutation_in r (Permutation_sym P)), Hr).
    assert (0 <= qsumf qty (skipn i (s_desc S (buyers d)))) by (apply qsumf_nonneg; intros r Hr; apply Hq, I; rewrite !in_app_iff; tauto).
    assert (0 <= qsumf qty (skipn j (s_asc S (sellers d)))).
    { apply qsumf_nonneg; intros r Hr; apply Hq, I. rewrite !in_app_iff. right. right. rewrite <- (firstn_skipn j). apply in_or_app. right. exact Hr. }
    qlra.
  Qed.
  Theorem huang_alike : alike_outcome (slack u d) (huang_auction S d) (huang_auction_r R A S d).
  Proof.
    unfold huang_auction_r, huang_auction. pose proof (same_crossing R u Hrel S d Hq Hm Hs (qf 1 2)) as SC.
    pose proof (intersect_r_indices R (fst (demand_curve_from_bids S d)) (fst (supply_curve_from_bids S d)) (qf 1 2)) as EI.
    destruct (slack_ge R u Hrel d Hq) as (SG & S0 & SE).
    destruct (intersect_stepwise_r R (fst (demand_curve_from_bids S d)) (fst (supply_curve_from_bids S d)) (qf 1 2)) as [[[[q1 b1] s1] v1]|] eqn:E1;
      destruct (intersect_stepwise (fst (demand_curve_from_bids S d)) (fst (supply_curve_from_bids S d)) (qf 1 2)) as [[[[q b] s] v]|]; try contradiction;
      destruct (intersect_stepwise_r R (fst (demand_curve_r R S d)) (fst (supply_curve_r R S d)) (qf 1 2)) as [[[[q' b'] s'] v']|]; try contradiction; [|cbn; congruence].
    destruct EI as (-> & -> & ->). destruct SC as (_ & -> & -> & _). cbn [bind].
    destruct b as [b|]; [|cbn; repeat constructor]. destruct s as [s|]; [|cbn; repeat constructor].
    assert (HS : forall i, option_map snd (nth_error (fst (supply_curve_r R S d)) i) = option_map snd (nth_error (fst (supply_curve_from_bids S d)) i)) by (intro i; apply nth_snd, rows_snd).
    assert (HB : forall i, option_map snd (nth_error (fst (demand_curve_r R S d)) i) = option_map snd (nth_error (fst (demand_curve_from_bids S d)) i)) by (intro i; apply nth_snd, rows_snd).
    specialize (HS s). specialize (HB b).
    destruct (nth_error (fst (supply_curve_from_bids S d)) s) as [[xs ps]|]; destruct (nth_error (fst (supply_curve_r R S d)) s) as [[xs' ps']|] eqn:Ns; try discriminate HS; cbn [option_map snd] in HS; [|reflexivity].
    injection HS as ->.
    destruct (nth_error (fst (demand_curve_from_bids S d)) b) as [[xb pb]|]; destruct (nth_error (fst (demand_curve_r R S d)) b) as [[xb' pb']|] eqn:Nb; try discriminate HB; cbn [option_map snd] in HB; [|destruct ps; reflexivity].
    injection HB as ->. destruct ps as [ps| | |]; try reflexivity. destruct pb as [pb| | |]; try reflexivity.
    set (X := firstn b (s_desc S (buyers d))). set (Y := firstn s (s_asc S (sellers d))).
    pose proof (bl_perm S d b) as PX. fold X in PX. pose proof (sl_perm S d s) as PY. fold Y in PY. pose proof (parts_le b s) as PW. fold X Y in PW.
    destruct (part_le d Hq X _ PX) as (X0 & XW & LX & IX).
    assert (NX : qabs (qsum (map qty X) - A (map qty X)) <= slack u d + slack u d).
    { apply near_qabs. apply near_weaken with err; [|fold n e W err in SE; qlra]. apply (part_near_err R u Hrel d Hq Hm X _ _ PX). apply asum_ok. }
    destruct (Nat.ltb 0 b && Nat.ltb 0 s) eqn:Pos; [|cbn; split; [constructor | auto]].
    apply andb_true_iff in Pos. destruct Pos as [Pb Ps]. apply Nat.ltb_lt in Pb, Ps.
    destruct (part_le d Hq Y _ PY) as (Y0 & YW & LY & IY).
    assert (NeX : X <> []) by (exact (cut_ne _ _ _ _ Nb Pb)). assert (NeY : Y <> []) by (exact (cut_ne _ _ _ _ Ns Ps)).
    assert (D : qsumf qty Y + slack u d < qsumf qty X \/ qsumf qty X + slack u d < qsumf qty Y).
    { destruct Hs as [_ Hsep]. specialize (Hsep X Y NeX NeY (bl_best S d b) (sl_best S d s)). unfold qabs in Hsep. destruct (qle_spec 0 (qsumf qty X - qsumf qty Y)); [left | right]; qlra. }
    change (qsum (map qty X)) with (qsumf qty X) in *. change (qsum (map qty Y)) with (qsumf qty Y) in *.
    destruct D as [D|D].
    - destruct (side_close X Y _ _ PX PY PW NeX NeY D) as (G & qs & qe & E & E' & L1 & L2 & F & T).
      replace (A (map qty Y) - A (map qty X)) with (- (A (map qty X) - A (map qty Y))) by ring. rewrite rnd_opp.
      rewrite (proj2 (qltb_ge 0 (qsumf qty Y - qsumf qty X))) by qlra. rewrite (proj2 (qltb_ge 0 (- R _))) by qlra.
      replace (- - R (A (map qty X) - A (map qty Y))) with (R (A (map qty X) - A (map qty Y))) by ring.
      replace (- (qsumf qty Y - qsumf qty X)) with (qsumf qty X - qsumf qty Y) by ring. rewrite E, E'. cbn [bind alike_outcome]. split.
      + rewrite !add_all_trans. cbn [tm_init tm_trans app]. apply Forall2_app; apply emit_alike; try assumption. apply near_same, S0.
      + cbn [alike_extra]. auto.
    - rewrite (Qcplus_comm (qsumf qty X)) in PW.
      destruct (side_close Y X _ _ PY PX PW NeY NeX D) as (G & qs & qe & E & E' & L1 & L2 & F & T).
      rewrite (proj2 (qltb_lt 0 (qsumf qty Y - qsumf qty X))) by qlra. rewrite (proj2 (qltb_lt 0 (R _))) by exact G. rewrite E, E'. cbn [bind alike_outcome]. split.
      + rewrite !add_all_trans. cbn [tm_init tm_trans app]. apply Forall2_app; apply emit_alike; try assumption. apply near_same, S0.
      + cbn [alike_extra]. auto.
  Qed.
End Huang.
