(** Sums, differences, products, quotients and comparisons of [Floats.SpecFloat]. *)
From Coq Require Import Floats.SpecFloat.
From Verif Require Import QcTac ModelMerge MergeFacts ModelRound ModelFloat RoundFacts SpecGrid GridFacts SpecDouble BoundFacts ModelBounded DoubleFacts SpecIeee IeeeRound.

(** ** Proper floats *)
Lemma proper_finite s m e : proper (S754_finite s m e) ->
  (-1074 <= e <= 971)%Z /\ (Z.pos m < 2 ^ 53)%Z /\ ((-1074 < e)%Z -> (2 ^ 52 <= Z.pos m)%Z) /\ fexp 53 1024 (Z.pos (digits2_pos m) + e) = e.
Proof.
  intros [V _]. unfold valid_binary, SpecFloat.bounded, canonical_mantissa in V. apply andb_prop in V. destruct V as [C L].
  apply Zeq_bool_eq in C. apply Zle_bool_imp_le in L. change (1024 - 53)%Z with 971%Z in L. assert (C' := C). rewrite fexp_def, digits_log2 in C'. split; [lia|]. split; [|split; [|exact C]].
  - apply Z.log2_lt_pow2; lia.
  - intro H. apply Z.log2_le_pow2; lia.
Qed.
Lemma qz_pos p : 0 < qz (Z.pos p).
Proof. rewrite <- qz_0. apply (proj1 (qz_lt _ _)). lia. Qed.
Lemma proper_number x : proper x -> number SpecDouble.bounded (fval x).
Proof.
  destruct x as [s|s| |s m e]; intro H; try (destruct H as [_ []]; fail).
  - exists 0%Z, 0%Z. split; [split; lia|]. split; [reflexivity|]. rewrite qz_0. cbn [fval]. ring.
  - apply proper_finite in H. destruct H as (A & B & _). exists (if s then Z.neg m else Z.pos m), e. split; [exact A|]. split; [|reflexivity]. destruct s; simpl Z.abs; exact B.
Qed.
Lemma proper_float x : proper x -> float_of (fval x) x.
Proof.
  intro H. assert (N := proper_number x H). assert (B := number_big _ N). split.
  - intros _. split; [exact H|]. symmetry. apply (proj2 (rounds_machine _ _ binary64_rounds _)), N.
  - intro L. exfalso. pose proof overflow_big as O. apply (Qclt_not_le _ _ O). apply Qcle_trans with (qabs (fval x)); assumption.
Qed.
Lemma zero_float s : float_of 0 (S754_zero s).
Proof. apply (proper_float (S754_zero s)). split; [reflexivity | exact I]. Qed.

(** ** Integers times powers of two *)
Lemma align_ok m e e' : (e' <= e)%Z -> Z.pos (fst (shl_align m e e')) = (Z.pos m * 2 ^ (e - e'))%Z /\ snd (shl_align m e e') = e'.
Proof.
  intro H. unfold shl_align. destruct (e' - e)%Z as [|d|d] eqn:D; [| exfalso; lia |]; cbn [fst snd].
  - split; [|lia]. replace (e - e')%Z with 0%Z by lia. change (2 ^ 0)%Z with 1%Z. lia.
  - split; [|reflexivity]. rewrite shift_pos_correct, Zpower_pos_nat. replace (e - e')%Z with (Z.pos d) by lia. rewrite Zpower_nat_Z, positive_nat_Z. lia.
Qed.
Lemma align_val m e e' : (e' <= e)%Z -> qz (Z.pos (fst (shl_align m e e'))) * p2 e' = qz (Z.pos m) * p2 e.
Proof.
  intro H. destruct (align_ok m e e' H) as [-> _]. rewrite qz_mult, <- p2_nonneg_int by lia. rewrite <- Qcmult_assoc, <- p2_plus. f_equal. f_equal. lia.
Qed.
Lemma round_ok s m e : float_of (signed s (qz (Z.pos m) * p2 e)) (binary_round 53 1024 s m e).
Proof.
  unfold binary_round. set (f := fexp 53 1024 (Z.pos (digits2_pos m) + e)). destruct (Z.le_gt_cases f e) as [L|L].
  - pose proof (align_ok m e f L) as [A B]. pose proof (align_val m e f L) as V. destruct (shl_align m e f) as [mz ez]. cbn [fst snd] in *. subst ez. rewrite <- V. apply aux_exact.
    rewrite digits_log2, A. rewrite Z.log2_mul_pow2 by lia. replace (e - f + Z.log2 (Z.pos m) + 1 + f)%Z with (Z.pos (digits2_pos m) + e)%Z by (rewrite digits_log2; lia). fold f. lia.
  - unfold shl_align. destruct (f - e)%Z eqn:D; try (exfalso; lia). apply aux_exact. fold f. lia.
Qed.
Lemma normalize_ok M e b : float_of (qz M * p2 e) (binary_normalize 53 1024 M e b).
Proof.
  destruct M as [|m|m]; cbn [binary_normalize].
  - rewrite qz_0, Qcmult_0_l. apply zero_float.
  - apply (round_ok false).
  - change (qz (Z.neg m)) with (qz (if true then Z.neg m else Z.pos m)). rewrite signed_qz. replace (signed true (qz (Z.pos m)) * p2 e) with (signed true (qz (Z.pos m) * p2 e)) by (cbn [signed]; ring). apply round_ok.
Qed.

(** ** Sums and differences *)
Lemma cond_opp s m : cond_Zopp s (Z.pos m) = if s then Z.neg m else Z.pos m.
Proof. destruct s; reflexivity. Qed.
Lemma add_ok x y : proper x -> proper y -> float_of (fval x + fval y) (SFadd 53 1024 x y).
Proof.
  intros Hx Hy. destruct x as [s|s| |s m e]; try (destruct Hx as [_ []]; fail); destruct y as [s'|s'| |s' m' e']; try (destruct Hy as [_ []]; fail); cbn [SFadd].
  - cbn [fval]. replace (0 + 0) with 0 by ring. destruct (Bool.eqb s s'); apply zero_float.
  - replace (fval (S754_zero s) + fval (S754_finite s' m' e')) with (fval (S754_finite s' m' e')) by (cbn [fval]; ring). apply proper_float, Hy.
  - replace (fval (S754_finite s m e) + fval (S754_zero s')) with (fval (S754_finite s m e)) by (cbn [fval]; ring). apply proper_float, Hx.
  - set (z := Z.min e e').
    assert (E : fval (S754_finite s m e) + fval (S754_finite s' m' e') = qz (cond_Zopp s (Z.pos (fst (shl_align m e z))) + cond_Zopp s' (Z.pos (fst (shl_align m' e' z)))) * p2 z).
    { rewrite qz_plus, !cond_opp, !signed_qz, !fval_finite. rewrite <- (align_val m e z), <- (align_val m' e' z) by (unfold z; lia). destruct s, s'; cbn [signed]; ring. }
    rewrite E. apply normalize_ok.
Qed.
Lemma sub_add x y : SFsub 53 1024 x y = SFadd 53 1024 x (SFopp y).
Proof.
  destruct x as [s|s| |s m e], y as [s'|s'| |s' m' e']; try reflexivity. cbn [SFsub SFadd SFopp]. f_equal. rewrite !cond_opp. destruct s'; simpl negb; cbv iota; lia.
Qed.
Lemma opp_proper x : proper x -> proper (SFopp x).
Proof. destruct x; intros [A B]; split; assumption. Qed.
Lemma opp_val x : fval (SFopp x) = - fval x.
Proof. destruct x as [s|s| |s m e]; try (cbn [fval SFopp]; ring). change (SFopp (S754_finite s m e)) with (S754_finite (negb s) m e). rewrite !fval_finite. destruct s; cbn [signed negb]; ring. Qed.
Lemma sub_ok x y : proper x -> proper y -> float_of (fval x - fval y) (SFsub 53 1024 x y).
Proof. intros Hx Hy. rewrite sub_add. unfold Qcminus. rewrite <- opp_val. apply add_ok; [exact Hx | apply opp_proper, Hy]. Qed.

(** ** Products *)
Lemma signed_mult s s' a b : signed s a * signed s' b = signed (xorb s s') (a * b).
Proof. destruct s, s'; cbn [signed xorb]; ring. Qed.
Lemma mul_ok x y : proper x -> proper y -> float_of (fval x * fval y) (SFmul 53 1024 x y).
Proof.
  intros Hx Hy. destruct x as [s|s| |s m e]; try (destruct Hx as [_ []]; fail); destruct y as [s'|s'| |s' m' e']; try (destruct Hy as [_ []]; fail); cbn [SFmul].
  - cbn [fval]. replace (0 * 0) with 0 by ring. apply zero_float.
  - replace (fval (S754_zero s) * fval (S754_finite s' m' e')) with 0 by (cbn [fval]; ring). apply zero_float.
  - replace (fval (S754_finite s m e) * fval (S754_zero s')) with 0 by (cbn [fval]; ring). apply zero_float.
  - rewrite !fval_finite, signed_mult. replace (qz (Z.pos m) * p2 e * (qz (Z.pos m') * p2 e')) with (qz (Z.pos (m * m')) * p2 (e + e')) by (rewrite Pos2Z.inj_mul, qz_mult, p2_plus; ring).
    apply aux_exact. destruct (proper_finite _ _ _ Hx) as (A & B & C & _), (proper_finite _ _ _ Hy) as (A' & B' & C' & _).
    rewrite fexp_def, digits_log2, Pos2Z.inj_mul. pose proof (Z.log2_mul_below (Z.pos m) (Z.pos m') ltac:(lia) ltac:(lia)) as M.
    pose proof (Z.log2_nonneg (Z.pos m)). pose proof (Z.log2_nonneg (Z.pos m')).
    assert (D : (-1074 < e)%Z -> (52 <= Z.log2 (Z.pos m))%Z) by (intro; apply Z.log2_le_pow2; [lia | apply C; assumption]).
    assert (D' : (-1074 < e')%Z -> (52 <= Z.log2 (Z.pos m'))%Z) by (intro; apply Z.log2_le_pow2; [lia | apply C'; assumption]).
    destruct (Z.eq_dec e (-1074)), (Z.eq_dec e' (-1074)); lia.
Qed.

(** ** Quotients *)
Lemma location_ok n r q : (0 < n)%Z -> (0 <= r < n)%Z -> (0 <= q)%Z -> stands (qz q + qz r / qz n) (shr_record_of_loc q (new_location n r)).
Proof.
  intros Hn [R0 R1] Hq. assert (Qn : 0 < qz n) by (rewrite <- qz_0; apply (proj1 (qz_lt _ _)), Hn). assert (Nn : qz n <> 0) by (intro E; rewrite E in Qn; revert Qn; apply Qcle_not_lt, Qcle_refl).
  set (t := qz r / qz n). assert (Et : t * qz n = qz r) by (apply div_mul, Nn).
  assert (T0 : 0 <= t) by (apply (mul_cancel_le _ _ (qz n) Qn); rewrite Qcmult_0_l, Et, <- qz_0; apply (proj1 (qz_le _ _)), R0).
  assert (T1 : t < 1) by (apply (mul_cancel_lt _ _ (qz n) Qn); rewrite Qcmult_1_l, Et; apply (proj1 (qz_lt _ _)), R1).
  assert (Ett : (t + t) * qz n = qz (2 * r)) by (rewrite qz_mult; replace (qz 2) with (1 + 1) by (apply Qc_is_canon; reflexivity); rewrite <- Et; ring).
  assert (Lt : (2 * r < n)%Z -> t + t < 1) by (intro H; apply (mul_cancel_lt _ _ (qz n) Qn); rewrite Qcmult_1_l, Ett; apply (proj1 (qz_lt _ _)), H).
  assert (Gt : (n < 2 * r)%Z -> 1 < t + t) by (intro H; apply (mul_cancel_lt _ _ (qz n) Qn); rewrite Qcmult_1_l, Ett; apply (proj1 (qz_lt _ _)), H).
  assert (Eq : (n = 2 * r)%Z -> t + t = 1) by (intro H; rewrite <- H in Ett; apply (f_equal (fun z => z / qz n)) in Ett; revert Ett; unfold Qcdiv; rewrite <- Qcmult_assoc, Qcmult_inv_r by exact Nn; rewrite Qcmult_1_r; auto).
  assert (Nz : r <> 0%Z -> t <> 0) by (intros H E; apply H; apply qz_inj; rewrite qz_0, <- Et, E; ring).
  assert (G : new_location n r = if Z.eqb r 0 then loc_Exact else loc_Inexact (2 * r ?= n)%Z).
  { unfold new_location, new_location_even, new_location_odd. destruct (Z.even n) eqn:Ev.
    - destruct (Z.eqb_spec r 0) as [->|N]; [reflexivity|]. destruct (Zeq_bool r 0) eqn:Z0; [apply Zeq_bool_eq in Z0; contradiction | reflexivity].
    - destruct (Z.eqb_spec r 0) as [->|N]; [reflexivity|]. destruct (Zeq_bool r 0) eqn:Z0; [apply Zeq_bool_eq in Z0; contradiction|]. f_equal.
      assert (Odd : (2 * r <> n)%Z) by (intro E; rewrite <- E, Z.even_mul in Ev; discriminate).
      destruct (Z.compare_spec (2 * r + 1) n), (Z.compare_spec (2 * r) n); try reflexivity; lia. }
  rewrite G. destruct (Z.eqb_spec r 0) as [->|N].
  - assert (t = 0) as -> by (unfold t; rewrite qz_0; unfold Qcdiv; ring). replace (qz q + 0) with (qz q) by ring. apply stands_exact, Hq.
  - specialize (Nz N). destruct (Z.compare_spec (2 * r) n) as [E|L|L]; cbn [shr_record_of_loc].
    + exists 0. cbn [shr_m shr_r shr_s]. specialize (Eq (eq_sym E)). split; [discriminate|]. split; [reflexivity|]. split; [reflexivity|]. split; [exact Hq|]. clear - Eq. generalize (qz q). intros; qlra.
    + exists (t + t). cbn [shr_m shr_r shr_s]. specialize (Lt L). clear - T0 Lt Nz Hq. split; [qlra|]. split; [exact Lt|]. split; [|split; [exact Hq | ring]].
      destruct (qeq_spec (t + t) 0) as [E|E]; [|reflexivity]. exfalso. apply Nz. clear Nz. qlra.
    + exists (t + t - 1). cbn [shr_m shr_r shr_s]. specialize (Gt L). clear - T1 Gt Hq. split; [qlra|]. split; [qlra|]. split; [|split; [exact Hq | ring]].
      destruct (qeq_spec (t + t - 1) 0) as [E|E]; [|reflexivity]. exfalso. qlra.
Qed.
Lemma signed_div s s' a b : b <> 0 -> signed s a / signed s' b = signed (xorb s s') (a / b).
Proof. intro N. assert (N' : - b <> 0) by (intro E; apply N; apply opp_inj; rewrite E; ring). destruct s, s'; cbn [signed xorb]; field; auto. Qed.
Lemma div_ok x y : proper x -> proper y -> fval y <> 0 -> float_of (fval x / fval y) (SFdiv 53 1024 x y).
Proof.
  intros Hx Hy Nz. destruct x as [s|s| |s m e]; try (destruct Hx as [_ []]; fail); destruct y as [s'|s'| |s' m' e']; try (destruct Hy as [_ []]; fail); try (exfalso; apply Nz; reflexivity).
  - replace (fval (S754_zero s) / fval (S754_finite s' m' e')) with 0 by (cbn [fval]; unfold Qcdiv; ring). apply zero_float.
  - cbn [SFdiv]. unfold SFdiv_core_binary. cbn [Zdigits2]. rewrite !digits_log2.
    set (D := (Z.log2 (Z.pos m) + 1 + e - (Z.log2 (Z.pos m') + 1 + e'))%Z). set (f := Z.min (fexp 53 1024 D) (e - e')).
    assert (Ms : match (e - e' - f)%Z with Z.pos _ => Z.shiftl (Z.pos m) (e - e' - f) | 0%Z => Z.pos m | Z.neg _ => 0%Z end = (Z.pos m * 2 ^ (e - e' - f))%Z).
    { assert (0 <= e - e' - f)%Z by (unfold f; lia). destruct (e - e' - f)%Z eqn:Ed; [change (2 ^ 0)%Z with 1%Z; lia | apply Z.shiftl_mul_pow2; lia | exfalso; lia]. }
    rewrite Ms. set (M := (Z.pos m * 2 ^ (e - e' - f))%Z). assert (Fs : (0 <= e - e' - f)%Z) by (unfold f; lia).
    assert (PM : (0 < M)%Z) by (unfold M; pose proof (Z.pow_pos_nonneg 2 (e - e' - f) ltac:(lia) Fs); lia).
    pose proof (Z_div_mod M (Z.pos m') ltac:(lia)) as DM. destruct (Z.div_eucl M (Z.pos m')) as [q r]. destruct DM as [EM Hr].
    assert (Hq : (0 <= q)%Z) by (destruct (Z.le_gt_cases 0 q); [assumption | exfalso; nia]).
    assert (Qm : 0 < qz (Z.pos m')) by apply qz_pos. assert (Nm : qz (Z.pos m') <> 0) by (intro E; rewrite E in Qm; revert Qm; apply Qcle_not_lt, Qcle_refl).
    assert (Ey : qz q + qz r / qz (Z.pos m') = qz M / qz (Z.pos m')) by (rewrite EM, qz_plus, qz_mult; field; exact Nm).
    assert (Ev : fval (S754_finite s m e) / fval (S754_finite s' m' e') = signed (xorb s s') ((qz q + qz r / qz (Z.pos m')) * p2 f)).
    { rewrite !fval_finite, signed_div by (intro E; apply Qcmult_integral in E; destruct E as [E|E]; [apply Nm, E | apply (p2_nz _ E)]). f_equal. rewrite Ey. unfold M. rewrite qz_mult, <- p2_nonneg_int by exact Fs.
      replace (p2 e) with (p2 (e - e' - f) * p2 f * p2 e') by (rewrite <- !p2_plus; f_equal; lia). field. split; [exact Nm | apply p2_nz]. }
    rewrite Ev. assert (LM : Z.log2 M = (e - e' - f + Z.log2 (Z.pos m))%Z) by (unfold M; apply Z.log2_mul_pow2; lia).
    destruct (Z.log2_spec M PM) as [M1 M2]. destruct (Z.log2_spec (Z.pos m') ltac:(lia)) as [N1 N2]. pose proof (Z.log2_nonneg (Z.pos m')) as N0. pose proof (Z.log2_nonneg M) as M0.
    assert (Big : (Z.log2 (Z.pos m') < Z.log2 M)%Z -> (Z.log2 M - Z.log2 (Z.pos m') - 1 <= Z.log2 q)%Z /\ (0 < q)%Z).
    { intro H. assert (P : (2 ^ (Z.log2 M - Z.log2 (Z.pos m') - 1) <= q)%Z).
      { assert (K : (2 ^ (Z.log2 M - Z.log2 (Z.pos m') - 1) * 2 ^ (Z.log2 (Z.pos m') + 1) <= M)%Z) by (rewrite <- Z.pow_add_r by lia; eapply Z.le_trans; [|exact M1]; apply Z.pow_le_mono_r; lia).
        pose proof (Z.pow_pos_nonneg 2 (Z.log2 M - Z.log2 (Z.pos m') - 1) ltac:(lia) ltac:(lia)) as Pa. change (Z.succ (Z.log2 (Z.pos m'))) with (Z.log2 (Z.pos m') + 1)%Z in N2. revert K Pa N2. generalize (2 ^ (Z.log2 M - Z.log2 (Z.pos m') - 1))%Z (2 ^ (Z.log2 (Z.pos m') + 1))%Z. intros a b K Pa N2. 
        assert (M < (q + 1) * Z.pos m')%Z by lia. destruct (Z.le_gt_cases a q); [assumption|]. exfalso. assert (Z.pos m' * a < b * a)%Z by (apply Z.mul_lt_mono_pos_r; assumption). assert ((q + 1) * Z.pos m' <= a * Z.pos m')%Z by (apply Z.mul_le_mono_nonneg_r; lia). lia. }
      assert (P0 : (0 < q)%Z) by (pose proof (Z.pow_pos_nonneg 2 (Z.log2 M - Z.log2 (Z.pos m') - 1) ltac:(lia) ltac:(lia)); lia). split; [|exact P0]. apply Z.log2_le_pow2; assumption. }
    apply aux_ok.
    + rewrite Ey. unfold Qcdiv. apply qmult_pos; [rewrite <- qz_0; apply (proj1 (qz_lt _ _)), PM|]. apply (mul_cancel_lt _ _ (qz (Z.pos m')) Qm). rewrite Qcmult_0_l, Qcmult_comm, Qcmult_inv_r by exact Nm. reflexivity.
    + apply location_ok; [lia | exact Hr | exact Hq].
    + rewrite fexp_def. unfold f in *. rewrite fexp_def in *. destruct q as [|q|q]; [| |exfalso; lia]; cbn [Zdigits2].
      * lia.
      * rewrite digits_log2. unfold D in *. lia.
    + intros ->. unfold f in *. rewrite fexp_def in *. unfold D in *. lia.
Qed.

(** ** Comparisons *)
Definition qcmp (a b : Qc) : comparison := if qltb a b then Lt else if qltb b a then Gt else Eq.
Lemma qcmp_lt a b : a < b -> qcmp a b = Lt.
Proof. intro H. unfold qcmp. rewrite (proj2 (qltb_lt _ _) H). reflexivity. Qed.
Lemma qcmp_gt a b : b < a -> qcmp a b = Gt.
Proof. intro H. unfold qcmp. rewrite (proj2 (qltb_ge _ _) (Qclt_le_weak _ _ H)), (proj2 (qltb_lt _ _) H). reflexivity. Qed.
Lemma qcmp_refl a : qcmp a a = Eq.
Proof. unfold qcmp. rewrite (proj2 (qltb_ge _ _) (Qcle_refl a)). reflexivity. Qed.
Lemma qcmp_opp a b : qcmp (- a) (- b) = CompOpp (qcmp a b).
Proof.
  destruct (qlt_spec a b) as [L|L]; [rewrite (qcmp_lt a b L); apply qcmp_gt; qlra|]. destruct (qlt_spec b a) as [L'|L']; [rewrite (qcmp_gt a b L'); apply qcmp_lt; qlra|].
  assert (a = b) as -> by qlra. rewrite !qcmp_refl. reflexivity.
Qed.
Lemma exp_lt m e m' e' : proper (S754_finite false m e) -> proper (S754_finite false m' e') -> (e < e')%Z -> qz (Z.pos m) * p2 e < qz (Z.pos m') * p2 e'.
Proof.
  intros H H' L. destruct (proper_finite _ _ _ H) as (A & B & _). destruct (proper_finite _ _ _ H') as (A' & _ & C' & _). specialize (C' ltac:(lia)).
  apply Qclt_le_trans with (qz (2 ^ 53) * p2 e).
  - apply Qcmult_lt_compat_r; [apply p2_pos | apply (proj1 (qz_lt _ _)), B].
  - apply Qcle_trans with (qz (2 ^ 52) * p2 e').
    + rewrite <- !p2_nonneg_int by lia. rewrite <- !p2_plus. apply p2_le. lia.
    + apply qmult_le_r; [apply Qclt_le_weak, p2_pos | apply (proj1 (qz_le _ _)), C'].
Qed.
Lemma pos_cmp m e m' e' : proper (S754_finite false m e) -> proper (S754_finite false m' e') ->
  match Z.compare e e' with Lt => Lt | Gt => Gt | Eq => Pos.compare_cont Eq m m' end = qcmp (qz (Z.pos m) * p2 e) (qz (Z.pos m') * p2 e').
Proof.
  intros H H'. destruct (Z.compare_spec e e') as [<-|L|L].
  - change (Pos.compare_cont Eq m m') with (Pos.compare m m'). destruct (Pos.compare_spec m m') as [->|L|L].
    + rewrite qcmp_refl. reflexivity.
    + rewrite qcmp_lt; [reflexivity|]. apply Qcmult_lt_compat_r; [apply p2_pos | apply (proj1 (qz_lt _ _)); lia].
    + rewrite qcmp_gt; [reflexivity|]. apply Qcmult_lt_compat_r; [apply p2_pos | apply (proj1 (qz_lt _ _)); lia].
  - rewrite qcmp_lt; [reflexivity|]. apply exp_lt; assumption.
  - rewrite qcmp_gt; [reflexivity|]. apply exp_lt; assumption.
Qed.
Lemma compare_ok x y : proper x -> proper y -> SFcompare x y = Some (qcmp (fval x) (fval y)).
Proof.
  intros Hx Hy. destruct x as [s|s| |s m e]; try (destruct Hx as [_ []]; fail); destruct y as [s'|s'| |s' m' e']; try (destruct Hy as [_ []]; fail); cbn [SFcompare]; rewrite ?fval_finite; cbn [fval]; f_equal.
  - assert (P : 0 < qz (Z.pos m') * p2 e') by (apply qmult_pos; [apply qz_pos | apply p2_pos]). destruct s'; cbn [signed]; symmetry; [apply qcmp_gt; qlra | apply qcmp_lt, P].
  - assert (P : 0 < qz (Z.pos m) * p2 e) by (apply qmult_pos; [apply qz_pos | apply p2_pos]). destruct s; cbn [signed]; symmetry; [apply qcmp_lt; qlra | apply qcmp_gt, P].
  - assert (P : 0 < qz (Z.pos m) * p2 e) by (apply qmult_pos; [apply qz_pos | apply p2_pos]). assert (P' : 0 < qz (Z.pos m') * p2 e') by (apply qmult_pos; [apply qz_pos | apply p2_pos]).
    assert (Gx : proper (S754_finite false m e)) by exact Hx. assert (Gy : proper (S754_finite false m' e')) by exact Hy. pose proof (pos_cmp m e m' e' Gx Gy) as C.
    destruct s, s'; cbn [signed].
    + rewrite qcmp_opp, <- C. destruct (Z.compare e e'); reflexivity.
    + symmetry. apply qcmp_lt. qlra.
    + symmetry. apply qcmp_gt. qlra.
    + exact C.
Qed.
Lemma ltb_ok x y : proper x -> proper y -> SFltb x y = qltb (fval x) (fval y).
Proof.
  intros Hx Hy. unfold SFltb. rewrite (compare_ok x y Hx Hy). unfold qcmp. destruct (qltb (fval x) (fval y)); [reflexivity|]. destruct (qltb (fval y) (fval x)); reflexivity.
Qed.
Lemma leb_ok x y : proper x -> proper y -> SFleb x y = qleb (fval x) (fval y).
Proof.
  intros Hx Hy. unfold SFleb. rewrite (compare_ok x y Hx Hy). unfold qcmp. destruct (qlt_spec (fval x) (fval y)), (qlt_spec (fval y) (fval x)), (qle_spec (fval x) (fval y)); try reflexivity; exfalso; qlra.
Qed.
Lemma eqb_ok x y : proper x -> proper y -> SFeqb x y = qeqb (fval x) (fval y).
Proof.
  intros Hx Hy. unfold SFeqb. rewrite (compare_ok x y Hx Hy). unfold qcmp. destruct (qlt_spec (fval x) (fval y)), (qlt_spec (fval y) (fval x)), (qeq_spec (fval x) (fval y)) as [E|N]; try reflexivity; exfalso; try (rewrite E in *; qlra). apply N. qlra.
Qed.
