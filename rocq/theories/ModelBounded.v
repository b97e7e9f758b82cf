(** The rounding of IEEE 754 binary64 to nearest, ties to even, with the exponents it really has: below
    [2^-1022] the numbers are the multiples of [2^-1074] (gradual underflow), and no number is larger than
    [big = (2^53 - 1) 2^971].  This is the arithmetic of python floats and numpy.

    Simplification: where IEEE arithmetic overflows to infinity this rounding returns [big] or [-big]; so it is
    that of the machine as long as no result is as large as that.  No signed zero. *)
From Verif Require Import QcTac ModelMerge MergeFacts ModelRound ModelFloat.

Definition big : Qc := qz (2 ^ 53 - 1) * p2 971.
Definition tiny : Qc := p2 (-1074).
Definition normal : Qc := p2 (-1022).

Definition b64_pos (x : Qc) : Qc :=
  if qltb x normal then qz (rint (x / tiny)) * tiny
  else if qleb (f64_pos x) big then f64_pos x else big.
Definition b64_round (x : Qc) : Qc :=
  if qltb 0 x then b64_pos x else if qltb x 0 then - b64_pos (- x) else 0.

Lemma tiny_pos : 0 < tiny.
Proof. apply p2_pos. Qed.
Lemma tiny_nz : tiny <> 0.
Proof. apply p2_nz. Qed.
Lemma normal_tiny : qz (2 ^ 52) * tiny = normal.
Proof. unfold tiny, normal. rewrite <- p2_nonneg_int by lia. rewrite <- p2_plus. reflexivity. Qed.
Lemma big_pos : 0 < big.
Proof. unfold big. apply qmult_pos; [rewrite <- qz_0; apply (proj1 (qz_lt _ _)); lia | apply p2_pos]. Qed.
Lemma big_p2 e : (e <= 1023)%Z -> p2 e <= big.
Proof.
  intro H. apply Qcle_trans with (p2 1023); [apply p2_le, H|]. unfold big. replace 1023%Z with (52 + 971)%Z by lia.
  rewrite p2_plus, (p2_nonneg_int 52) by lia. apply qmult_le_r; [pose proof (p2_pos 971); qlra|]. apply (proj1 (qz_le _ _)). lia.
Qed.
Lemma big_f64 : f64_pos big = big.
Proof. apply (f64_pos_grid big (2 ^ 53 - 1) 1023); [reflexivity | lia]. Qed.
Lemma big_expo : expo big = 1023%Z.
Proof.
  apply expo_unique; [apply big_p2; lia|]. unfold big. replace (1023 + 1)%Z with (53 + 971)%Z by lia. rewrite p2_plus, (p2_nonneg_int 53) by lia.
  assert (L : qz (2 ^ 53 - 1) < qz (2 ^ 53)) by (apply (proj1 (qz_lt _ _)); lia). apply Qcmult_lt_compat_r; [apply p2_pos | exact L].
Qed.

Lemma sub_range x : 0 <= x -> x < normal -> (0 <= rint (x / tiny) <= 2 ^ 52)%Z.
Proof.
  intros P L. pose proof tiny_pos as U. split.
  - apply rint_ge_int. rewrite qz_0. apply (mul_cancel_le _ _ tiny U). rewrite div_mul by apply tiny_nz. rewrite Qcmult_0_l. exact P.
  - apply rint_le_int. apply (mul_cancel_le _ _ tiny U). rewrite div_mul by apply tiny_nz. rewrite normal_tiny. qlra.
Qed.
Lemma sub_bounds x : 0 <= x -> x < normal -> 0 <= qz (rint (x / tiny)) * tiny /\ qz (rint (x / tiny)) * tiny <= normal.
Proof.
  intros P L. destruct (sub_range x P L) as [A B]. pose proof tiny_pos as U. apply (proj1 (qz_le _ _)) in A, B. rewrite qz_0 in A. split.
  - apply qmult_nonneg; qlra.
  - rewrite <- normal_tiny. apply qmult_le_r; [qlra | exact B].
Qed.
Lemma f64_normal x : normal <= x -> normal <= f64_pos x.
Proof.
  intro L. assert (P : 0 < x) by (pose proof (p2_pos (-1022)); unfold normal in L; qlra). destruct (f64_pos_range x P) as [A _].
  assert (E : expo normal = (-1022)%Z) by (apply expo_unique; [apply Qcle_refl | unfold normal; rewrite p2_succ; pose proof (p2_pos (-1022)); qlra]).
  pose proof (expo_mono normal x (p2_pos _) L) as M. rewrite E in M. apply p2_le in M. unfold normal. qlra.
Qed.
Lemma b64_pos_nonneg x : 0 < x -> 0 <= b64_pos x.
Proof.
  intro P. unfold b64_pos. destruct (qlt_spec x normal) as [L|L]; [apply sub_bounds; [qlra | exact L]|].
  pose proof big_pos. pose proof (f64_pos_pos x P). destruct (qle_spec (f64_pos x) big); qlra.
Qed.
Lemma b64_pos_big x : 0 < x -> b64_pos x <= big.
Proof.
  intro P. unfold b64_pos. destruct (qlt_spec x normal) as [L|L].
  - destruct (sub_bounds x ltac:(qlra) L) as [_ B]. pose proof (big_p2 (-1022) ltac:(lia)) as K. fold normal in K. qlra.
  - destruct (qle_spec (f64_pos x) big); [assumption | apply Qcle_refl].
Qed.
Lemma b64_pos_mono x y : 0 < x -> x <= y -> b64_pos x <= b64_pos y.
Proof.
  intros P L. pose proof tiny_pos as U. unfold b64_pos. destruct (qlt_spec x normal) as [Lx|Lx].
  - destruct (sub_bounds x ltac:(qlra) Lx) as [_ B]. destruct (qlt_spec y normal) as [Ly|Ly].
    + apply qmult_le_r; [qlra|]. apply (proj1 (qz_le _ _)), rint_mono. apply (mul_cancel_le _ _ tiny U). rewrite !div_mul by apply tiny_nz. exact L.
    + pose proof (f64_normal y Ly) as K. pose proof (big_p2 (-1022) ltac:(lia)) as J. fold normal in J. destruct (qle_spec (f64_pos y) big); qlra.
  - destruct (qlt_spec y normal) as [Ly|Ly]; [exfalso; qlra|]. pose proof (f64_pos_mono x y P L) as M.
    destruct (qle_spec (f64_pos x) big), (qle_spec (f64_pos y) big); qlra.
Qed.
Lemma f64_sub z : (0 < z <= 2 ^ 52)%Z -> f64_pos (qz z * tiny) = qz z * tiny.
Proof.
  intros [Z1 Z2]. set (k := Z.log2 z). destruct (Z.log2_spec z Z1) as [K1 K2]. fold k in K1, K2. pose proof (Z.log2_nonneg z) as K0. fold k in K0.
  assert (Kk : (k <= 52)%Z) by (apply (Z.log2_le_mono z (2 ^ 52)) in Z2; rewrite Z.log2_pow2 in Z2 by lia; exact Z2).
  apply (f64_pos_grid _ (z * 2 ^ (52 - k)) (k - 1074)).
  - unfold tiny. rewrite qz_mult, <- (p2_nonneg_int (52 - k)) by lia. rewrite <- Qcmult_assoc, <- p2_plus. f_equal. f_equal. lia.
  - replace (2 ^ 52)%Z with (2 ^ k * 2 ^ (52 - k))%Z by (rewrite <- Z.pow_add_r by lia; f_equal; lia).
    replace (2 ^ 53)%Z with (2 ^ Z.succ k * 2 ^ (52 - k))%Z by (rewrite <- Z.pow_add_r by lia; f_equal; lia).
    pose proof (Z.pow_pos_nonneg 2 (52 - k) ltac:(lia) ltac:(lia)). split; apply Z.mul_le_mono_nonneg_r; lia.
Qed.
Lemma b64_pos_sub z : (0 < z <= 2 ^ 52)%Z -> b64_pos (qz z * tiny) = qz z * tiny.
Proof.
  intros Hz. unfold b64_pos. destruct (qlt_spec (qz z * tiny) normal) as [L|L].
  - replace (qz z * tiny / tiny) with (qz z) by (field; apply tiny_nz). rewrite rint_int. reflexivity.
  - rewrite (f64_sub z Hz). assert (M : (z <= 2 ^ 52)%Z) by lia. apply (proj1 (qz_le _ _)) in M. pose proof tiny_pos as U.
    pose proof (qmult_le_r tiny _ _ (Qclt_le_weak _ _ U) M) as K. rewrite normal_tiny in K.
    pose proof (big_p2 (-1022) ltac:(lia)) as J. fold normal in J. destruct (qle_spec (qz z * tiny) big); [reflexivity|]. exfalso; qlra.
Qed.
Lemma b64_pos_idem x : 0 < x -> b64_pos x = 0 \/ (0 < b64_pos x /\ b64_pos (b64_pos x) = b64_pos x).
Proof.
  intro P. unfold b64_pos at 1 2 4 5. destruct (qlt_spec x normal) as [L|L].
  - destruct (sub_range x ltac:(qlra) L) as [A B]. destruct (Z.eq_dec (rint (x / tiny)) 0) as [->|N]; [left; rewrite qz_0; apply Qcmult_0_l|].
    right. split; [apply qmult_pos; [rewrite <- qz_0; apply (proj1 (qz_lt _ _)); lia | apply tiny_pos] | apply b64_pos_sub; lia].
  - right. pose proof (f64_normal x L) as K. pose proof (f64_pos_pos x P) as Pf. pose proof big_pos as Pb. pose proof (big_p2 (-1022) ltac:(lia)) as J. fold normal in J.
    destruct (qle_spec (f64_pos x) big) as [H|H].
    + split; [exact Pf|]. unfold b64_pos. rewrite (proj2 (qltb_ge _ _) K). rewrite (f64_pos_idem x P). rewrite (proj2 (qleb_le _ _) H). reflexivity.
    + split; [exact Pb|]. unfold b64_pos. rewrite (proj2 (qltb_ge _ _) J). rewrite big_f64. rewrite (proj2 (qleb_le _ _) (Qcle_refl big)). reflexivity.
Qed.

Lemma b64_mono x y : x <= y -> b64_round x <= b64_round y.
Proof.
  intro L. unfold b64_round. destruct (qlt_spec 0 x) as [X|X].
  - destruct (qlt_spec 0 y); [|exfalso; qlra]. apply b64_pos_mono; assumption.
  - destruct (qlt_spec 0 y) as [Y|Y].
    + pose proof (b64_pos_nonneg y Y). destruct (qlt_spec x 0); [|qlra]. pose proof (b64_pos_nonneg (- x) ltac:(qlra)). qlra.
    + destruct (qlt_spec x 0) as [X'|X'].
      * pose proof (b64_pos_nonneg (- x) ltac:(qlra)). destruct (qlt_spec y 0); [|qlra].
        pose proof (b64_pos_mono (- y) (- x) ltac:(qlra) ltac:(qlra)). qlra.
      * destruct (qlt_spec y 0); [exfalso; qlra | qlra].
Qed.
Lemma b64_opp x : b64_round (- x) = - b64_round x.
Proof.
  unfold b64_round. destruct (qlt_spec 0 x).
  - destruct (qlt_spec 0 (- x)); [exfalso; qlra|]. destruct (qlt_spec (- x) 0); [|exfalso; qlra]. f_equal. f_equal. ring.
  - destruct (qlt_spec x 0).
    + destruct (qlt_spec 0 (- x)); [|exfalso; qlra]. ring.
    + destruct (qlt_spec 0 (- x)); [exfalso; qlra|]. destruct (qlt_spec (- x) 0); [exfalso; qlra|]. ring.
Qed.
Lemma b64_round_pos x : 0 < x -> b64_round x = b64_pos x.
Proof. intro P. unfold b64_round. rewrite (proj2 (qltb_lt _ _) P). reflexivity. Qed.
Lemma b64_round_0 : b64_round 0 = 0.
Proof. reflexivity. Qed.
Lemma b64_idem_pos x : 0 < x -> b64_round (b64_round x) = b64_round x.
Proof.
  intro P. rewrite (b64_round_pos x P). destruct (b64_pos_idem x P) as [->|[Q E]]; [reflexivity|]. rewrite b64_round_pos by exact Q. exact E.
Qed.
Lemma b64_idem x : b64_round (b64_round x) = b64_round x.
Proof.
  destruct (qlt_spec 0 x) as [P|P]; [apply b64_idem_pos, P|]. destruct (qlt_spec x 0) as [N|N].
  - pose proof (b64_idem_pos (- x) ltac:(qlra)) as H. rewrite (b64_opp x), b64_opp in H.
    set (a := b64_round (b64_round x)) in *. set (c := b64_round x) in *. clearbody a c. assert (K : - - a = - - c) by (rewrite H; reflexivity).
    replace (- - a) with a in K by ring. replace (- - c) with c in K by ring. exact K.
  - replace x with 0 by qlra. reflexivity.
Qed.
(** double precision with bounded exponents *)
Definition binary64 : rounding := mkRounding b64_round b64_mono b64_idem b64_opp.
