(** [Market.run("huang")] in double precision: what the rounding of prices does, and a run in which the
    quantities do not add up. *)
From Verif Require Import QcTac Num NumFacts ModelBase ModelCurves ModelHuang ModelMerge ModelMarket ModelRound ModelFloat ModelRoundMarket Spec SpecTrade SpecRound SpecRoundMarket
  Sorter Conform MergeFacts MudaWitness RoundFacts RoundTop RoundWitness RoundMerge.

(** ** Integers in double precision *)
Lemma f64_int n : (0 <= n <= 2 ^ 53)%Z -> f64 (qz n) = qz n.
Proof.
  intros [H0 H]. destruct (Z.eq_dec n 0) as [->|Hn]; [apply Qc_is_canon; vm_compute; reflexivity|].
  change (f64_round (qz n) = qz n). assert (P : 0 < qz n) by (rewrite <- qz_0; apply (proj1 (qz_lt _ _)); lia).
  unfold f64_round. rewrite (proj2 (qltb_lt _ _) P). pose proof (Z.log2_spec n ltac:(lia)) as [L1 L2]. set (k := Z.log2 n) in *.
  assert (K0 : (0 <= k)%Z) by apply Z.log2_nonneg.
  destruct (Z.le_gt_cases k 52) as [Lk|Lk].
  - apply (f64_pos_grid _ (n * 2 ^ (52 - k)) k).
    + rewrite qz_mult, <- (p2_nonneg_int (52 - k)) by lia. rewrite <- Qcmult_assoc, <- p2_plus.
      replace (52 - k + (k - 52))%Z with 0%Z by lia. rewrite p2_0. ring.
    + replace (2 ^ 52)%Z with (2 ^ k * 2 ^ (52 - k))%Z by (rewrite <- Z.pow_add_r by lia; f_equal; lia).
      replace (2 ^ 53)%Z with (2 ^ Z.succ k * 2 ^ (52 - k))%Z by (rewrite <- Z.pow_add_r by lia; f_equal; lia).
      pose proof (Z.pow_pos_nonneg 2 (52 - k) ltac:(lia) ltac:(lia)). split; apply Z.mul_le_mono_nonneg_r; lia.
  - assert (E : n = (2 ^ 53)%Z).
    { pose proof (Z.pow_le_mono_r 2 53 k ltac:(lia) ltac:(lia)). lia. }
    apply (f64_pos_grid _ (2 ^ 53) 52); [|lia]. rewrite E. change (52 - 52)%Z with 0%Z. rewrite p2_0. ring.
Qed.
Lemma f64_rints : rints f64.
Proof.
  intros x X0 Mx. destruct (qeq_spec x 0) as [->|Nx].
  { rewrite rint_0. apply f64_int. lia. }
  assert (P : 0 < x) by (destruct (Qclt_le_dec 0 x) as [L|L]; [exact L | exfalso; apply Nx, Qcle_antisym; assumption]).
  destruct (Z.le_gt_cases 52 (expo x)) as [L|L].
  - (* [x] is an integer *)
    assert (E : x = qz (rint (x / p2 (expo x - 52)) * 2 ^ (expo x - 52))).
    { rewrite qz_mult, <- p2_nonneg_int by lia. rewrite <- Mx at 1. change (f64 x) with (f64_round x). unfold f64_round.
      rewrite (proj2 (qltb_lt _ _) P). reflexivity. }
    rewrite E at 1. rewrite rint_int, <- E. exact Mx.
  - apply f64_int. destruct (expo_spec x P) as [_ X1].
    assert (X2 : x <= qz (2 ^ 53)).
    { rewrite <- p2_nonneg_int by lia. pose proof (p2_le (expo x + 1) 53 ltac:(lia)). qlra. }
    apply ModelFloat.rint_le_int in X2. split; [|exact X2]. apply ModelFloat.rint_ge_int. rewrite qz_0. exact X0.
Qed.

(** ** Two buyers of 0.7 and 0.5 at the same price *)
Definition SQ := seq_adder f64.
Definition shares : df := frame [B (tenth 7) (qz 5) 0; B (tenth 5) (qz 5) 1; B (qz 1) (qz 3) 2; A (tenth 15) (qz 1) 3; A (qz 10) (qz 2) 4].
Definition first : nat -> nat := fun _ => 0%nat.
Lemma positive_ok d : forallb (fun r => qltb 0 (qty r)) d = true -> qty_pos d.
Proof. intros H r Hr. apply (proj1 (qltb_lt _ _)). exact (proj1 (forallb_forall _ _) H r Hr). Qed.
Lemma shares_run : exists tm ex, run_huang_r f64 NP SQ SS first 0 shares = Ok (tm, ex) /\
  (forall x, nth_error shares 0 = Some x -> qty x < traded_by (lbl x) (tm_trans tm)) /\ sold shares (tm_trans tm) < bought shares (tm_trans tm).
Proof.
  destruct (checks_ok (run_huang_r f64 NP SQ SS first 0 shares)
    (fun tl => qltb (tenth 7) (traded_by 0 tl) && qltb (sold shares tl) (bought shares tl))) as (tm & ex & E & F); [vm_compute; reflexivity|].
  exists tm, ex. split; [exact E|]. apply andb_true_iff in F. destruct F as [F1 F2]. split; [|apply (proj1 (qltb_lt _ _)), F2].
  intros x Ex. change (nth_error shares 0) with (Some (mkRow 0 (tenth 7) (qz 5) 0 true 0 true)) in Ex. injection Ex as <-. apply (proj1 (qltb_lt _ _)), F1.
Qed.
Lemma shares_witness : exists (S : sorter) (smp : nat -> nat) (cnt : Z) (d : df) tm ex,
  map lbl d = seq 0 (length d) /\ qty_pos d /\ price_nonneg d /\ machine_qty f64 d /\ machine_price f64 d /\
  run_huang_r f64 (np_adder f64) (seq_adder f64) S smp cnt d = Ok (tm, ex) /\
  (exists x, In x d /\ qty x < traded_by (lbl x) (tm_trans tm)) /\ sold d (tm_trans tm) < bought d (tm_trans tm).
Proof.
  destruct shares_run as (tm & ex & E & F & L). destruct (good_ok shares) as (_ & G2 & G3 & G4); [vm_compute; reflexivity|].
  exists SS, first, 0%Z, shares, tm, ex. split; [reflexivity|]. split; [apply positive_ok; vm_compute; reflexivity|].
  repeat (split; [assumption|]). split; [|exact L].
  destruct (nth_error shares 0) as [x|] eqn:Ex; [|discriminate]. exists x. split; [apply (nth_error_In shares 0), Ex | apply F; reflexivity].
Qed.
(** the table of C56 on which Huang's auction raises: it does so through the market as well *)
Lemma gap_market_witness : exists (S : sorter) (smp : nat -> nat) (cnt : Z) (d : df),
  map lbl d = seq 0 (length d) /\ qty_pos d /\ price_nonneg d /\ machine_qty f64 d /\ machine_price f64 d /\
  run_huang_r f64 (np_adder f64) (seq_adder f64) S smp cnt d = Err ValueError /\ exists tm ex, run_algo S (AHuang smp cnt) d = Ok (tm, ex).
Proof.
  destruct (good_ok gap_frame) as (_ & G2 & G3 & G4); [vm_compute; reflexivity|].
  exists SS, first, 0%Z, gap_frame. split; [reflexivity|]. split; [apply positive_ok; vm_compute; reflexivity|].
  repeat (split; [assumption|]). split; [vm_compute; reflexivity|].
  destruct (checks_ok (run_algo SS (AHuang first 0) gap_frame) (fun _ => true)) as (tm & ex & E & _); [vm_compute; reflexivity | eauto].
Qed.

(** ** Constants of double precision *)
Lemma power_small u n : 0 <= u -> qz 4 * qnat n * u <= 1 -> (1 + u) ^ n <= 1 + qz 2 * qnat n * u.
Proof.
  intros U. assert (D2 : forall x, qz 2 * x = x + x) by (intro x; replace (qz 2) with (1 + 1) by (apply Qc_is_canon; reflexivity); ring).
  assert (D4 : forall x, qz 4 * x = x + x + x + x) by (intro x; replace (qz 4) with (1 + 1 + 1 + 1) by (apply Qc_is_canon; reflexivity); ring).
  rewrite <- !Qcmult_assoc, D2, D4. clear D2 D4. induction n as [|n IH]; intro H.
  - change (qnat 0) with 0. cbn [Qcpower]. rewrite Qcmult_0_l. qlra.
  - assert (E : qnat (Datatypes.S n) = qnat n + 1) by (unfold qnat; rewrite Nat2Z.inj_succ; unfold Z.succ; rewrite qz_plus, qz_1; reflexivity).
    rewrite E, Qcmult_plus_distr_l, Qcmult_1_l in *. assert (N0 : 0 <= qnat n) by (unfold qnat; rewrite <- qz_0; apply (proj1 (qz_le _ _)); lia).
    pose proof (qmult_nonneg _ _ N0 U) as P. set (v := qnat n * u) in *. clearbody v. clear E N0.
    specialize (IH ltac:(qlra)). cbn [Qcpower]. assert (U1 : 0 <= 1 + u) by qlra. pose proof (qmult_le_l _ _ _ U1 IH) as K.
    assert (L : (v + v) * u <= 1 * u) by (apply qmult_le_r; [exact U | qlra]).
    replace ((1 + u) * (1 + (v + v))) with (1 + u + (v + v) + (v + v) * u) in K by ring.
    set (w := (v + v) * u) in *. set (b := (1 + u) * (1 + u) ^ n) in *. clearbody w b. clear IH. rewrite Qcmult_1_l in L. qlra.
Qed.
Lemma f64_power n : (Z.of_nat n <= 10 ^ 15)%Z -> (1 + p2 (-53)) ^ n <= qf 3 2.
Proof.
  intro H. apply (proj1 (qz_le _ _)) in H. fold (qnat n) in H. pose proof (p2_pos (-53)) as P.
  pose proof (qmult_le_l _ _ _ (Qclt_le_weak _ _ P) H) as K.
  assert (C : qz 4 * (p2 (-53) * qz (10 ^ 15)) <= qf 1 2) by (apply qleb_le; vm_compute; reflexivity).
  pose proof (qmult_le_l (qz 4) _ _ ltac:(apply qleb_le; vm_compute; reflexivity) K) as K4.
  assert (D2 : qz 4 = qz 2 + qz 2) by (apply Qc_is_canon; reflexivity).
  assert (D3 : qf 3 2 = 1 + qf 1 2) by (apply Qc_is_canon; reflexivity).
  assert (D1 : 1 = qf 1 2 + qf 1 2) by (apply Qc_is_canon; reflexivity).
  assert (N0 : 0 <= qnat n) by (unfold qnat; rewrite <- qz_0; apply (proj1 (qz_le _ _)); lia).
  assert (Q : 0 <= p2 (-53) * qnat n) by (apply qmult_nonneg; qlra).
  assert (Q2 : 0 <= qz 2 * (p2 (-53) * qnat n)) by (apply qmult_nonneg; [apply qleb_le; vm_compute; reflexivity | exact Q]).
  rewrite D2, Qcmult_plus_distr_l in K4. rewrite <- D2 in K4.
  pose proof (power_small (p2 (-53)) n ltac:(qlra)) as B.
  replace (qz 4 * qnat n * p2 (-53)) with (qz 2 * (p2 (-53) * qnat n) + qz 2 * (p2 (-53) * qnat n)) in B by (rewrite D2; ring).
  replace (qz 2 * qnat n * p2 (-53)) with (qz 2 * (p2 (-53) * qnat n)) in B by ring.
  assert (half : 0 < qf 1 2) by (apply qltb_lt; vm_compute; reflexivity).
  set (w := qz 2 * (p2 (-53) * qnat n)) in *. set (c := qz 4 * (p2 (-53) * qz (10 ^ 15))) in *. set (b := (1 + p2 (-53)) ^ n) in *. set (h := qf 1 2) in *.
  clearbody w c b h. rewrite D3. assert (b <= 1 + w) by (apply B; qlra). qlra.
Qed.
Lemma f64_small x : x <= qz (10 ^ 10) -> small_price (p2 (-53)) 5 x.
Proof.
  intro H. unfold small_price. change (pow10 5) with (qz (10 ^ 5)). assert (P : 0 <= qz 6 * p2 (-53) * qz (10 ^ 5)) by (apply qleb_le; vm_compute; reflexivity).
  pose proof (qmult_le_l _ _ _ P H) as K.
  assert (C : qz 6 * p2 (-53) * qz (10 ^ 5) * qz (10 ^ 10) < 1 - p2 (-53)) by (apply qltb_lt; vm_compute; reflexivity).
  change (Z.of_nat 5) with 5%Z. replace (qz 6 * p2 (-53) * x * qz (10 ^ 5)) with (qz 6 * p2 (-53) * qz (10 ^ 5) * x) by ring.
  eapply Qcle_lt_trans; eassumption.
Qed.
