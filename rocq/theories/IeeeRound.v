(** The rounding of [Floats.SpecFloat] is [binary64]. *)
From Coq Require Import QArith.Qround Floats.SpecFloat.
From Verif Require Import QcTac ModelMerge MergeFacts ModelRound ModelFloat RoundFacts SpecGrid GridFacts SpecDouble BoundFacts ModelBounded DoubleFacts SpecIeee.

(** ** Shifting with two extra bits *)
(** the record stands for [y]: its integer part, the next bit, and whether anything follows *)
Definition stands (y : Qc) (k : shr_record) : Prop :=
  exists w, 0 <= w /\ w < 1 /\ shr_s k = negb (qeqb w 0) /\ (0 <= shr_m k)%Z /\
    y + y = qz (shr_m k) + qz (shr_m k) + (if shr_r k then 1 else 0) + w.
Definition half := qf 1 2.
Lemma half2 : half + half = 1.
Proof. apply Qc_is_canon. reflexivity. Qed.
Lemma p2_m1 : p2 (-1) = half.
Proof. apply Qc_is_canon. reflexivity. Qed.
Lemma double_inj (a b : Qc) : a + a = b + b -> a = b.
Proof. intro H. qlra. Qed.
Lemma qz_pos_O p : qz (Z.pos p~0) = qz (Z.pos p) + qz (Z.pos p).
Proof. rewrite <- qz_plus. f_equal. lia. Qed.
Lemma qz_pos_I p : qz (Z.pos p~1) = qz (Z.pos p) + qz (Z.pos p) + 1.
Proof. rewrite <- qz_1 , <- !qz_plus. f_equal. lia. Qed.

Lemma stands_bit (m m' : Z) (r b s : bool) (y w : Qc) : 0 <= w -> w < 1 -> s = negb (qeqb w 0) -> (0 <= m')%Z ->
  y + y = qz m + qz m + (if r then 1 else 0) + w -> qz m = qz m' + qz m' + (if b then 1 else 0) ->
  stands (y * half) (Build_shr_record m' b (r || s)).
Proof.
  intros W0 W1 Hs Hm E Em. pose proof half2 as H2. assert (Hp : 0 < half) by reflexivity. exists (((if r then 1 else 0) + w) * half). cbn [shr_m shr_r shr_s].
  assert (X : 0 <= (if r then 1 else 0) + w /\ (if r then 1 else 0) + w < 1 + 1) by (destruct r; split; qlra).
  set (t := (if r then 1 else 0) + w) in *. destruct X as [X0 X1].
  assert (Y0 : 0 <= t * half) by (apply qmult_nonneg; qlra).
  assert (Y1 : t * half + t * half = t) by (replace (t * half + t * half) with (t * (half + half)) by ring; rewrite H2; ring).
  assert (Y2 : y * half + y * half = y) by (replace (y * half + y * half) with (y * (half + half)) by ring; rewrite H2; ring).
  split; [exact Y0|]. split; [qlra|]. split; [|split; [exact Hm|]].
  - rewrite Hs. destruct (qeq_spec w 0) as [Ew|Ew], (qeq_spec (t * half) 0) as [Et|Et], r; try reflexivity; exfalso; unfold t in *; try (apply Ew; qlra); try (apply Et; rewrite Ew; apply Qc_is_canon; reflexivity); qlra.
  - rewrite Y2. apply double_inj. unfold t in *. rewrite Em in E. destruct b, r; qlra.
Qed.
Lemma stands_step y k : stands y k -> stands (y * p2 (-1)) (shr_1 k).
Proof.
  intros (w & W0 & W1 & Hs & Hm & E). destruct k as [m r s]. cbn [shr_m shr_r shr_s] in *. rewrite p2_m1. unfold shr_1.
  destruct m as [|[p|p|]|p].
  - apply (stands_bit 0 0 r false s y w); try lia; try assumption. rewrite qz_0. ring.
  - apply (stands_bit (Z.pos p~1) (Z.pos p) r true s y w); try lia; try assumption. apply qz_pos_I.
  - apply (stands_bit (Z.pos p~0) (Z.pos p) r false s y w); try lia; try assumption. rewrite qz_pos_O. ring.
  - apply (stands_bit 1 0 r true s y w); try lia; try assumption. rewrite qz_0, qz_1. ring.
  - exfalso. lia.
Qed.
Lemma stands_iter p : forall y k, stands y k -> stands (y * p2 (- Z.pos p)) (SpecFloat.iter_pos shr_1 p k).
Proof.
  induction p as [p IH|p IH|]; intros y k H; cbn [SpecFloat.iter_pos].
  - replace (y * p2 (- Z.pos p~1)) with (y * p2 (-1) * p2 (- Z.pos p) * p2 (- Z.pos p)) by (rewrite <- !Qcmult_assoc, <- !p2_plus; f_equal; f_equal; lia).
    apply IH, IH, stands_step, H.
  - replace (y * p2 (- Z.pos p~0)) with (y * p2 (- Z.pos p) * p2 (- Z.pos p)) by (rewrite <- !Qcmult_assoc, <- !p2_plus; f_equal; f_equal; lia).
    apply IH, IH, H.
  - apply stands_step, H.
Qed.
Lemma floor_unique x n : qz n <= x -> x < qz n + 1 -> Qfloor (this x) = n.
Proof.
  intros A B. destruct (floor_bounds x) as [C D]. rewrite <- qz_1, <- qz_plus in B, D.
  assert (X : qz (Qfloor (this x)) < qz (n + 1)) by qlra. assert (Y : qz n < qz (Qfloor (this x) + 1)) by qlra.
  apply (proj2 (qz_lt _ _)) in X, Y. lia.
Qed.
Lemma stands_round y k : stands y k -> round_nearest_even (shr_m k) (loc_of_shr_record k) = rint y.
Proof.
  intros (w & W0 & W1 & Hs & Hm & E). destruct k as [m r s]. cbn [shr_m shr_r shr_s] in *. pose proof half2 as H2.
  assert (F : Qfloor (this y) = m) by (apply floor_unique; destruct r; qlra).
  unfold rint. rewrite F. change (qf 1 2) with half. subst s. destruct r; cbn [loc_of_shr_record].
  - destruct (qlt_spec (y - qz m) half) as [L|L]; [exfalso; qlra|]. destruct (qeq_spec w 0) as [Ew|Ew]; cbn [negb round_nearest_even].
    + destruct (qlt_spec half (y - qz m)) as [L'|L']; [exfalso; qlra | reflexivity].
    + destruct (qlt_spec half (y - qz m)) as [L'|L']; [reflexivity|]. exfalso. apply Ew. qlra.
  - destruct (qlt_spec (y - qz m) half) as [L|L]; [|exfalso; qlra]. destruct (qeq_spec w 0); reflexivity.
Qed.

(** ** Digits *)
Lemma digits_log2 p : Z.pos (digits2_pos p) = (Z.log2 (Z.pos p) + 1)%Z.
Proof.
  induction p as [p IH|p IH|]; cbn [digits2_pos]; [| |reflexivity]; rewrite Pos2Z.inj_succ, IH.
  - change (Z.pos p~1) with (2 * Z.pos p + 1)%Z. rewrite Z.log2_succ_double by lia. lia.
  - change (Z.pos p~0) with (2 * Z.pos p)%Z. rewrite Z.log2_double by lia. lia.
Qed.
Lemma digits_expo y p e : qz (Z.pos p) <= y -> y < qz (Z.pos p) + 1 -> expo (y * p2 e) = (Z.pos (digits2_pos p) + e - 1)%Z.
Proof.
  intros A B. rewrite digits_log2. destruct (Z.log2_spec (Z.pos p) ltac:(lia)) as [C D]. pose proof (Z.log2_nonneg (Z.pos p)) as N.
  set (k := Z.log2 (Z.pos p)) in *. replace (k + 1 + e - 1)%Z with (k + e)%Z by lia. assert (D' : (Z.pos p + 1 <= 2 ^ (k + 1))%Z) by lia. apply (proj1 (qz_le _ _)) in C, D'. rewrite qz_plus, qz_1 in D'.
  rewrite <- p2_nonneg_int in C by lia. rewrite <- p2_nonneg_int in D' by lia. apply expo_unique.
  - rewrite p2_plus. apply qmult_le_r; [pose proof (p2_pos e); qlra|]. qlra.
  - replace (k + e + 1)%Z with (k + 1 + e)%Z by lia. rewrite (p2_plus (k + 1)). apply Qcmult_lt_compat_r; [apply p2_pos|]. qlra.
Qed.

(** ** Rounding a positive number *)
Definition bexp (x : Qc) : Z := Z.max (expo x - 52) (-1074).
Definition bint (x : Qc) : Z := rint (x / p2 (bexp x)).
Lemma bexp_sub x : 0 < x -> x < normal -> bexp x = (-1074)%Z.
Proof.
  intros P L. unfold bexp. destruct (expo_spec x P) as [A _]. assert (H : p2 (expo x) < p2 (-1022)) by (fold normal; qlra). apply p2_lt_inv in H. lia.
Qed.
Lemma bexp_normal x : normal <= x -> bexp x = (expo x - 52)%Z.
Proof.
  intro L. assert (P : 0 < x) by (pose proof (p2_pos (-1022)); unfold normal in L; qlra). unfold bexp. destruct (expo_spec x P) as [_ A].
  assert (H : p2 (-1022) < p2 (expo x + 1)) by (fold normal; qlra). apply p2_lt_inv in H. lia.
Qed.
Lemma bint_range x : 0 < x -> (0 <= bint x <= 2 ^ 53)%Z /\ ((-1074 < bexp x)%Z -> (2 ^ 52 <= bint x)%Z).
Proof.
  intro P. unfold bint. destruct (qlt_spec x normal) as [L|L].
  - rewrite (bexp_sub x P L). destruct (sub_range x ltac:(qlra) L) as [A B]. unfold tiny in A, B. lia.
  - rewrite (bexp_normal x L). destruct (signif x P) as [A B]. lia.
Qed.
Definition bval (x : Qc) : Qc := qz (bint x) * p2 (bexp x).
Lemma bval_b64 x : 0 < x -> bval x <= big -> b64_pos x = bval x.
Proof.
  intros P H. unfold b64_pos, bval, bint in *. destruct (qlt_spec x normal) as [L|L].
  - rewrite (bexp_sub x P L) in *. reflexivity.
  - rewrite (bexp_normal x L) in *. change (qz (rint (x / p2 (expo x - 52))) * p2 (expo x - 52)) with (f64_pos x) in *. rewrite (proj2 (qleb_le _ _) H). reflexivity.
Qed.

(** ** Overflow *)
Lemma overflow_p2 : overflow = (qz (2 ^ 53) - half) * p2 971.
Proof.
  unfold overflow. rewrite !pow2_p2. replace (p2 1024) with (qz (2 ^ 53) * p2 971) by (rewrite <- p2_nonneg_int by lia; rewrite <- p2_plus; f_equal; lia).
  replace (p2 970) with (half * p2 971) by (rewrite <- p2_m1, <- p2_plus; f_equal; lia). ring.
Qed.
Lemma big53 : big = (qz (2 ^ 53) - 1) * p2 971.
Proof. unfold big. replace (2 ^ 53 - 1)%Z with (2 ^ 53 + -1)%Z by lia. rewrite qz_plus. f_equal. Qed.
Lemma one_le_53 : 1 + 1 <= qz (2 ^ 53).
Proof. vm_compute. discriminate. Qed.
Lemma overflow_big : big < overflow.
Proof.
  rewrite overflow_p2, big53. apply Qcmult_lt_compat_r; [apply p2_pos|]. pose proof half2. assert (0 < half) by reflexivity. generalize (qz (2 ^ 53)). intros; qlra.
Qed.
Lemma overflow_lt : overflow < p2 1024.
Proof. unfold overflow. rewrite !pow2_p2. pose proof (p2_pos 970). generalize (p2 1024), (p2 970), H. clear. intros; qlra. Qed.
Lemma no_overflow x : 0 < x -> x < overflow -> (bint x <= 2 ^ 53 - 1 /\ bexp x <= 971 \/ bint x <= 2 ^ 53 /\ bexp x <= 970)%Z.
Proof.
  intros P L. destruct (bint_range x P) as [[A B] _]. assert (E : (expo x < 1024)%Z).
  { destruct (expo_spec x P) as [C _]. pose proof overflow_lt as O. apply p2_lt_inv. apply Qcle_lt_trans with x; [exact C|]. apply Qclt_trans with overflow; assumption. }
  destruct (Z.le_gt_cases (bexp x) 970) as [X|X]; [right; lia|]. assert (X' : bexp x = 971%Z) by (unfold bexp in *; lia). left. split; [|lia].
  unfold bint. rewrite X'. destruct (rint_near (x / p2 971)) as [_ N]. change (qf 1 2) with half in N.
  assert (Y : x / p2 971 < qz (2 ^ 53) - half) by (apply (mul_cancel_lt _ _ (p2 971) (p2_pos _)); rewrite div_mul by apply p2_nz; rewrite <- overflow_p2; exact L).
  assert (Z0 : qz (rint (x / p2 971)) < qz (2 ^ 53)) by (revert N Y; generalize (qz (2 ^ 53)), (x / p2 971), (qz (rint (x / p2 971))); intros; qlra).
  apply (proj2 (qz_lt _ _)) in Z0. lia.
Qed.
Lemma yes_overflow x : overflow <= x -> (2 ^ 53 <= bint x /\ bexp x = 971 \/ 2 ^ 52 <= bint x /\ 971 < bexp x)%Z.
Proof.
  intro L. assert (Lb : big < x) by (pose proof overflow_big; apply Qclt_le_trans with overflow; assumption).
  assert (P : 0 < x) by (apply Qclt_trans with big; [apply big_pos | exact Lb]).
  assert (E : (1023 <= expo x)%Z) by (rewrite <- big_expo; apply expo_mono; [apply big_pos | apply Qclt_le_weak, Lb]).
  destruct (bint_range x P) as [_ B]. destruct (Z.eq_dec (bexp x) 971) as [X|X]; [left; split; [|exact X] | right; split; [apply B|]; unfold bexp in *; lia].
  unfold bint. rewrite X. assert (Y : qz (2 ^ 53) - half <= x / p2 971) by (apply (mul_cancel_le _ _ (p2 971) (p2_pos _)); rewrite div_mul by apply p2_nz; rewrite <- overflow_p2; exact L).
  apply Z.le_trans with (rint (qz (2 ^ 53) - half)); [vm_compute; discriminate|]. apply rint_mono, Y.
Qed.
Lemma bval_big x : 0 < x -> x < overflow -> bval x <= big.
Proof.
  intros P L. unfold bval. destruct (bint_range x P) as [[A _] _]. destruct (no_overflow x P L) as [[B E]|[B E]].
  - unfold big. apply Qcle_trans with (qz (2 ^ 53 - 1) * p2 (bexp x)).
    + apply qmult_le_r; [pose proof (p2_pos (bexp x)) as U; apply Qclt_le_weak, U | apply (proj1 (qz_le _ _)), B].
    + apply qmult_le_l; [vm_compute; discriminate | apply p2_le, E].
  - apply Qcle_trans with (qz (2 ^ 53) * p2 970).
    + apply Qcle_trans with (qz (2 ^ 53) * p2 (bexp x)).
      * apply qmult_le_r; [pose proof (p2_pos (bexp x)) as U; apply Qclt_le_weak, U | apply (proj1 (qz_le _ _)), B].
      * apply qmult_le_l; [vm_compute; discriminate | apply p2_le, E].
    + rewrite <- p2_nonneg_int by lia. rewrite <- p2_plus. apply big_p2. lia.
Qed.

(** ** [binary_round_aux] *)
Definition signed (s : bool) (x : Qc) : Qc := if s then - x else x.
Lemma signed_qz (s : bool) p : qz (if s then Z.neg p else Z.pos p) = signed s (qz (Z.pos p)).
Proof. destruct s; [|reflexivity]. change (Z.neg p) with (- Z.pos p)%Z. replace (- Z.pos p)%Z with (-1 * Z.pos p)%Z by lia. rewrite qz_mult. change (qz (-1)) with (- (1)). cbn [signed]. ring. Qed.
Lemma fval_finite s m e : fval (S754_finite s m e) = signed s (qz (Z.pos m) * p2 e).
Proof. cbn [fval]. rewrite signed_qz, pow2_p2. destruct s; cbn [signed]; ring. Qed.
Lemma signed_b64 s x : binary64 (signed s x) = signed s (binary64 x).
Proof. destruct s; [|reflexivity]. apply b64_opp. Qed.
Lemma signed_abs s x : 0 <= x -> qabs (signed s x) = x.
Proof. intro H. destruct s; cbn [signed]; [rewrite abs_opp|]; apply qabs_pos, H. Qed.
Lemma signed_sign s x : 0 < x -> qltb (signed s x) 0 = s.
Proof. intro H. destruct s; cbn [signed]; [apply qltb_lt; qlra | apply qltb_ge; qlra]. Qed.

Lemma fexp_def e : fexp 53 1024 e = Z.max (e - 53) (-1074).
Proof. reflexivity. Qed.
(** the second half: the rounded mantissa *)
Definition finish (s : bool) (M e : Z) : spec_float :=
  let '(k, e') := shr_fexp 53 1024 M e loc_Exact in
  match shr_m k with
  | Z0 => S754_zero s
  | Zpos m => if Zle_bool e' (1024 - 53) then S754_finite s m e' else S754_infinity s
  | _ => S754_nan
  end.
Lemma finish_ok s M e x : 0 < x -> M = bint x -> e = bexp x -> float_of (signed s x) (finish s M e).
Proof.
  intros P EM Ee. destruct (bint_range x P) as [[A B] C]. rewrite <- EM, <- Ee in *.
  assert (Emin : (-1074 <= e)%Z) by (rewrite Ee; unfold bexp; lia).
  assert (V : qabs (signed s x) = x) by (apply signed_abs, Qclt_le_weak, P).
  assert (Sg : qltb (signed s x) 0 = s) by (apply signed_sign, P).
  unfold float_of. rewrite V, Sg, signed_b64. change (binary64 x) with (b64_round x). rewrite (b64_round_pos x P).
  assert (Bv : x < overflow -> b64_pos x = qz M * p2 e).
  { intro L. rewrite (bval_b64 x P (bval_big x P L)). unfold bval. rewrite <- EM, <- Ee. reflexivity. }
  assert (No := no_overflow x P). assert (Yes := yes_overflow x). rewrite <- EM, <- Ee in No, Yes. clear EM Ee.
  unfold finish, shr_fexp, shr_record_of_loc. destruct M as [|m|m]; [| |exfalso; lia].
  - cbn [Zdigits2]. rewrite fexp_def. destruct (Z.max (0 + e - 53) (-1074) - e)%Z eqn:D; [| exfalso; lia |]; cbn [shr shr_m].
    + split; [intro L; split; [split; [reflexivity | exact I]|] | intro L; exfalso; specialize (Yes L); lia]. rewrite (Bv L), qz_0, Qcmult_0_l. destruct s; reflexivity.
    + split; [intro L; split; [split; [reflexivity | exact I]|] | intro L; exfalso; specialize (Yes L); lia]. rewrite (Bv L), qz_0, Qcmult_0_l. destruct s; reflexivity.
  - cbn [Zdigits2]. rewrite fexp_def. assert (Dg := digits_log2 m). destruct (Z.eq_dec (Z.pos m) (2 ^ 53)) as [Em|Nm].
    + assert (m = 9007199254740992%positive) as -> by lia. replace (Z.max (Z.pos (digits2_pos 9007199254740992) + e - 53) (-1074) - e)%Z with 1%Z by (cbn [digits2_pos Pos.succ]; lia).
      cbn [shr SpecFloat.iter_pos shr_1 shr_m]. destruct (Zle_bool (e + 1) (1024 - 53)) eqn:Le.
      * apply Zle_bool_imp_le in Le. split; [|intro L; exfalso; specialize (Yes L); lia]. intro L. split.
        -- split; [|exact I]. unfold valid_binary, SpecFloat.bounded, canonical_mantissa. rewrite fexp_def. apply andb_true_intro. split; [|apply Zle_imp_le_bool; lia].
           apply Zeq_is_eq_bool. cbn [digits2_pos Pos.succ]. lia.
        -- rewrite (Bv L), fval_finite. f_equal. rewrite p2_plus, p2_1. replace (qz 9007199254740992) with (qz 4503599627370496 * qz 2) by (rewrite <- qz_mult; reflexivity). ring.
      * split; [|reflexivity]. intro L. exfalso. specialize (No L). assert (e + 1 <= 971)%Z by lia. apply Zle_imp_le_bool in H. change (1024 - 53)%Z with 971%Z in Le. congruence.
    + assert (Lm : (Z.log2 (Z.pos m) < 53)%Z) by (apply Z.log2_lt_pow2; lia).
      assert (Sh : shr {| shr_m := Z.pos m; shr_r := false; shr_s := false |} e (Z.max (Z.pos (digits2_pos m) + e - 53) (-1074) - e) = ({| shr_m := Z.pos m; shr_r := false; shr_s := false |}, e)).
      { destruct (Z.max (Z.pos (digits2_pos m) + e - 53) (-1074) - e)%Z eqn:D; [reflexivity | exfalso; lia | reflexivity]. }
      rewrite Sh. cbn [shr_m]. destruct (Zle_bool e (1024 - 53)) eqn:Le.
      * apply Zle_bool_imp_le in Le. split; [|intro L; exfalso; specialize (Yes L); lia]. intro L. split.
        -- split; [|exact I]. unfold valid_binary, SpecFloat.bounded, canonical_mantissa. rewrite fexp_def. apply andb_true_intro. split; [|apply Zle_imp_le_bool; lia].
           apply Zeq_is_eq_bool. destruct (Z.eq_dec e (-1074)) as [->|Ne]; [lia|]. specialize (C ltac:(lia)).
           assert (52 <= Z.log2 (Z.pos m))%Z by (apply Z.log2_le_pow2; lia). lia.
        -- rewrite (Bv L), fval_finite. reflexivity.
      * split; [|reflexivity]. intro L. exfalso. specialize (No L). assert (e <= 971)%Z by lia. apply Zle_imp_le_bool in H. change (1024 - 53)%Z with 971%Z in Le. congruence.
Qed.
(** [y 2^e] is rounded correctly if [m] and [l] stand for [y] *)
Lemma aux_ok s m e l y : 0 < y -> stands y (shr_record_of_loc m l) -> (e <= fexp 53 1024 (Zdigits2 m + e))%Z ->
  (m = 0%Z -> (e <= -1074)%Z) -> float_of (signed s (y * p2 e)) (binary_round_aux 53 1024 s m e l).
Proof.
  intros P H He H0. set (x := y * p2 e). assert (Px : 0 < x) by (apply qmult_pos; [exact P | apply p2_pos]).
  assert (Hm : shr_m (shr_record_of_loc m l) = m) by (destruct l as [|[]]; reflexivity).
  assert (Fl : qz m <= y /\ y < qz m + 1 /\ (0 <= m)%Z).
  { destruct H as (w & W0 & W1 & _ & Mm & E). rewrite Hm in *. split; [|split; [|exact Mm]]; destruct (shr_r (shr_record_of_loc m l)); qlra. }
  destruct Fl as (F1 & F2 & F3).
  assert (Eb : fexp 53 1024 (Zdigits2 m + e) = bexp x).
  { rewrite fexp_def in *. destruct m as [|m|m]; [| |exfalso; lia].
    - specialize (H0 eq_refl). cbn [Zdigits2]. rewrite qz_0 in F2. assert (Lx : x < p2 e).
      { unfold x. replace (p2 e) with (1 * p2 e) at 2 by ring. apply Qcmult_lt_compat_r; [apply p2_pos | qlra]. }
      assert (Lt : x < normal) by (apply Qclt_le_trans with (p2 e); [exact Lx | apply p2_le; lia]). rewrite (bexp_sub x Px Lt). lia.
    - cbn [Zdigits2]. unfold bexp, x. rewrite (digits_expo y m e F1 F2). f_equal. lia. }
  unfold binary_round_aux. unfold shr_fexp at 1. rewrite Eb in *.
  assert (Sh : exists k, shr (shr_record_of_loc m l) e (bexp x - e) = (k, bexp x) /\ stands (x / p2 (bexp x)) k).
  { assert (Ey : forall n, (n = bexp x - e)%Z -> x / p2 (bexp x) = y * p2 (- n)).
    { intros n En. generalize (bexp x) En. intros b Eb'. unfold x. assert (E2 : p2 e = p2 b * p2 (- n)) by (rewrite <- p2_plus; f_equal; lia). rewrite E2. field. apply p2_nz. }
    destruct (bexp x - e)%Z as [|n|n] eqn:D; [| |exfalso; lia]; cbn [shr].
    - exists (shr_record_of_loc m l). split; [f_equal; lia|]. rewrite (Ey 0%Z eq_refl). change (- 0)%Z with 0%Z. rewrite p2_0, Qcmult_1_r. exact H.
    - eexists. split; [f_equal; lia|]. rewrite (Ey (Z.pos n) eq_refl). apply stands_iter, H. }
  destruct Sh as (k & -> & Hk). apply finish_ok; [exact Px| |reflexivity]. apply stands_round, Hk.
Qed.
Lemma stands_exact m : (0 <= m)%Z -> stands (qz m) (shr_record_of_loc m loc_Exact).
Proof. intro H. exists 0. cbn. split; [discriminate|]. split; [reflexivity|]. split; [reflexivity|]. split; [exact H|]. ring. Qed.
Lemma aux_exact s m e : (e <= fexp 53 1024 (Z.pos (digits2_pos m) + e))%Z -> float_of (signed s (qz (Z.pos m) * p2 e)) (binary_round_aux 53 1024 s (Z.pos m) e loc_Exact).
Proof.
  intro H. apply aux_ok; [|apply stands_exact; lia | exact H | discriminate]. rewrite <- qz_0. apply (proj1 (qz_lt _ _)). lia.
Qed.
