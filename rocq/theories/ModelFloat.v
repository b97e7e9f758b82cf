(** The rounding of IEEE 754 binary64 to nearest, ties to even, with an unbounded exponent: the
    arithmetic of python floats and numpy as long as no result overflows or is subnormal. *)
From Coq Require Import QArith.Qround QArith.Qpower.
From Verif Require Import QcTac ModelMerge MergeFacts ModelRound.

(** [2^z] *)
Definition p2 (z : Z) : Qc := Q2Qc (Qpower (2 # 1) z).

(** for [0 < x]: the exponent [e] with [2^e <= x < 2^(e+1)] *)
Definition expo (x : Qc) : Z :=
  let e := (Z.log2 (Qnum (this x)) - Z.log2 (Z.pos (Qden (this x))))%Z in
  if qltb x (p2 e) then (e - 1)%Z else e.

(** 53 significant bits *)
Definition f64_pos (x : Qc) : Qc := let u := p2 (expo x - 52) in qz (rint (x / u)) * u.
Definition f64_round (x : Qc) : Qc :=
  if qltb 0 x then f64_pos x else if qltb x 0 then - f64_pos (- x) else 0.

Lemma this_p2 z : (this (p2 z) == Qpower (2 # 1) z)%Q.
Proof. apply this_Q2Qc. Qed.
Lemma p2_pos z : 0 < p2 z.
Proof.
  unfold Qclt. rewrite this_p2. change (this 0) with 0%Q. apply Qpower_0_lt. reflexivity.
Qed.
Lemma p2_nz z : p2 z <> 0.
Proof. pose proof (p2_pos z) as H. intro E. rewrite E in H. qlra. Qed.
Lemma p2_plus a b : p2 (a + b) = p2 a * p2 b.
Proof. apply Qc_is_canon. rewrite this_mult, !this_p2. apply Qpower_plus. discriminate. Qed.
Lemma p2_nonneg_int z : (0 <= z)%Z -> p2 z = qz (2 ^ z).
Proof.
  intro H. apply Qc_is_canon. rewrite this_p2, this_qz. rewrite (Zpower_Qpower 2 z H). reflexivity.
Qed.
Lemma p2_0 : p2 0 = 1.
Proof. apply Qc_is_canon. reflexivity. Qed.
Lemma p2_1 : p2 1 = qz 2.
Proof. apply Qc_is_canon. reflexivity. Qed.
Lemma p2_succ z : p2 (z + 1) = p2 z + p2 z.
Proof. rewrite p2_plus, p2_1. replace (qz 2) with (1 + 1) by (apply Qc_is_canon; reflexivity). ring. Qed.
Lemma p2_le a b : (a <= b)%Z -> p2 a <= p2 b.
Proof.
  intro H. replace b with (a + (b - a))%Z by lia. rewrite p2_plus, (p2_nonneg_int (b - a)) by lia.
  assert (L : qz 1 <= qz (2 ^ (b - a))).
  { apply (proj1 (qz_le _ _)). pose proof (Z.pow_pos_nonneg 2 (b - a) ltac:(lia) ltac:(lia)). lia. }
  rewrite qz_1 in L. pose proof (p2_pos a). 
  pose proof (qmult_le_l (p2 a) 1 _ (Qclt_le_weak _ _ H0) L) as K. rewrite Qcmult_1_r in K. exact K.
Qed.
Lemma p2_lt_inv a b : p2 a < p2 b -> (a < b)%Z.
Proof. intro H. destruct (Z.lt_ge_cases a b) as [L|L]; [exact L|]. apply p2_le in L. exfalso; qlra. Qed.

Lemma div_mul x u : u <> 0 -> x / u * u = x.
Proof. intro H. field. exact H. Qed.
Lemma mul_cancel_le a b u : 0 < u -> a * u <= b * u -> a <= b.
Proof.
  intros U H. destruct (Qclt_le_dec b a) as [L|L]; [|exact L]. exfalso.
  assert (0 < (a - b) * u) by (apply qmult_pos; qlra).
  replace ((a - b) * u) with (a * u - b * u) in H0 by ring. qlra.
Qed.
Lemma mul_cancel_lt a b u : 0 < u -> a * u < b * u -> a < b.
Proof.
  intros U H. destruct (Qclt_le_dec a b) as [L|L]; [exact L|]. exfalso.
  pose proof (qmult_le_r u b a (Qclt_le_weak _ _ U) L). qlra.
Qed.

Lemma expo_spec x : 0 < x -> p2 (expo x) <= x /\ x < p2 (expo x + 1).
Proof.
  intro P. unfold expo. set (n := Qnum (this x)). set (d := Qden (this x)).
  assert (Ex : (this x == n # d)%Q) by (unfold n, d; destruct (this x); reflexivity).
  assert (Pn : (0 < n)%Z).
  { unfold Qclt in P. change (this 0) with 0%Q in P. unfold Qlt in P. simpl in P. unfold n. lia. }
  destruct (Z.log2_spec n Pn) as [N1 N2]. destruct (Z.log2_spec (Z.pos d) ltac:(lia)) as [D1 D2].
  set (a := Z.log2 n) in *. set (b := Z.log2 (Z.pos d)) in *.
  pose proof (Z.log2_nonneg n). pose proof (Z.log2_nonneg (Z.pos d)). fold a in H. fold b in H0.
  assert (Em : x * qz (Z.pos d) = qz n).
  { apply Qc_is_canon. rewrite this_mult, !this_qz, Ex. unfold Qeq, Qmult, inject_Z. simpl. lia. }
  assert (Q1 : p2 a <= qz n) by (rewrite p2_nonneg_int by exact H; apply (proj1 (qz_le _ _)), N1).
  assert (Q2 : qz n < p2 (a + 1)) by (rewrite p2_nonneg_int by lia; apply (proj1 (qz_lt _ _)); exact N2).
  assert (Q3 : p2 b <= qz (Z.pos d)) by (rewrite p2_nonneg_int by exact H0; apply (proj1 (qz_le _ _)), D1).
  assert (Q4 : qz (Z.pos d) < p2 (b + 1)) by (rewrite p2_nonneg_int by lia; apply (proj1 (qz_lt _ _)); exact D2).
  assert (Up : x < p2 (a - b + 1)).
  { apply (mul_cancel_lt _ _ (p2 b) (p2_pos b)). rewrite <- p2_plus. replace (a - b + 1 + b)%Z with (a + 1)%Z by lia.
    pose proof (qmult_le_l x _ _ (Qclt_le_weak _ _ P) Q3). qlra. }
  assert (Lo : p2 (a - b - 1) < x).
  { apply (mul_cancel_lt _ _ (p2 (b + 1)) (p2_pos _)). rewrite <- p2_plus. replace (a - b - 1 + (b + 1))%Z with a by lia.
    assert (0 < x * (p2 (b + 1) - qz (Z.pos d))) by (apply qmult_pos; qlra).
    replace (x * (p2 (b + 1) - qz (Z.pos d))) with (x * p2 (b + 1) - x * qz (Z.pos d)) in H1 by ring. qlra. }
  destruct (qlt_spec x (p2 (a - b))) as [L|L].
  - replace (a - b - 1 + 1)%Z with (a - b)%Z by lia. split; [qlra | exact L].
  - split; [exact L | exact Up].
Qed.
Lemma expo_unique x e : p2 e <= x -> x < p2 (e + 1) -> expo x = e.
Proof.
  intros A B. assert (P : 0 < x) by (pose proof (p2_pos e); qlra).
  destruct (expo_spec x P) as [C D].
  assert (L1 : p2 e < p2 (expo x + 1)) by qlra. assert (L2 : p2 (expo x) < p2 (e + 1)) by qlra.
  apply p2_lt_inv in L1, L2. lia.
Qed.
Lemma expo_mono x y : 0 < x -> x <= y -> (expo x <= expo y)%Z.
Proof.
  intros P L. destruct (expo_spec x P) as [A _]. destruct (expo_spec y ltac:(qlra)) as [_ B].
  assert (C : p2 (expo x) < p2 (expo y + 1)) by qlra. apply p2_lt_inv in C. lia.
Qed.

Lemma rint_mono x y : x <= y -> (rint x <= rint y)%Z.
Proof.
  intro L. destruct (Z.le_gt_cases (rint x) (rint y)) as [H|H]; [exact H|]. exfalso.
  destruct (rint_near x) as [A B]. destruct (rint_near y) as [C D].
  assert (H' : (rint y + 1 <= rint x)%Z) by lia. apply (proj1 (qz_le _ _)) in H'. rewrite qz_plus, qz_1 in H'.
  assert (Hh : qf 1 2 + qf 1 2 = 1) by (apply Qc_is_canon; reflexivity).
  assert (E : x = y) by qlra. subst y. lia.
Qed.
Lemma rint_le_int x n : x <= qz n -> (rint x <= n)%Z.
Proof. intro H. rewrite <- (rint_int n). apply rint_mono, H. Qed.
Lemma rint_ge_int x n : qz n <= x -> (n <= rint x)%Z.
Proof. intro H. rewrite <- (rint_int n). apply rint_mono, H. Qed.

(** the significand *)
Lemma signif x : 0 < x -> let u := p2 (expo x - 52) in
  (2 ^ 52 <= rint (x / u) <= 2 ^ 53)%Z.
Proof.
  intros P u. destruct (expo_spec x P) as [A B]. split.
  - apply rint_ge_int. rewrite <- p2_nonneg_int by lia. apply (mul_cancel_le _ _ u (p2_pos _)).
    rewrite div_mul by apply p2_nz. unfold u. rewrite <- p2_plus. replace (52 + (expo x - 52))%Z with (expo x) by lia. exact A.
  - apply rint_le_int. rewrite <- p2_nonneg_int by lia. apply (mul_cancel_le _ _ u (p2_pos _)).
    rewrite div_mul by apply p2_nz. unfold u. rewrite <- p2_plus. replace (53 + (expo x - 52))%Z with (expo x + 1)%Z by lia. qlra.
Qed.
Lemma f64_pos_range x : 0 < x -> p2 (expo x) <= f64_pos x /\ f64_pos x <= p2 (expo x + 1).
Proof.
  intro P. destruct (signif x P) as [A B]. unfold f64_pos. set (u := p2 (expo x - 52)) in *. pose proof (p2_pos (expo x - 52)) as U. fold u in U.
  apply (proj1 (qz_le _ _)) in A, B. apply Qclt_le_weak in U.
  pose proof (qmult_le_r u _ _ U A) as C. pose proof (qmult_le_r u _ _ U B) as D. cbv zeta.
  rewrite <- p2_nonneg_int in C, D by lia. unfold u in C at 1, D at 3. rewrite <- p2_plus in C, D.
  replace (52 + (expo x - 52))%Z with (expo x) in C by lia.
  replace (53 + (expo x - 52))%Z with (expo x + 1)%Z in D by lia. split; assumption.
Qed.
Lemma f64_pos_mono x y : 0 < x -> x <= y -> f64_pos x <= f64_pos y.
Proof.
  intros P L. pose proof (expo_mono x y P L) as E.
  destruct (Z.eq_dec (expo x) (expo y)) as [Ee|Ne].
  - unfold f64_pos. rewrite <- Ee. cbv zeta. pose proof (p2_pos (expo x - 52)) as U. apply qmult_le_r; [qlra|].
    apply (proj1 (qz_le _ _)). apply rint_mono. apply (mul_cancel_le _ _ (p2 (expo x - 52)) U). rewrite !div_mul by apply p2_nz. exact L.
  - destruct (f64_pos_range x P) as [_ A]. destruct (f64_pos_range y ltac:(qlra)) as [B _].
    assert (C : p2 (expo x + 1) <= p2 (expo y)) by (apply p2_le; lia). qlra.
Qed.
Lemma f64_pos_pos x : 0 < x -> 0 < f64_pos x.
Proof. intro P. destruct (f64_pos_range x P) as [A _]. pose proof (p2_pos (expo x)). qlra. Qed.
Lemma f64_pos_grid x m e : x = qz m * p2 (e - 52) -> (2 ^ 52 <= m <= 2 ^ 53)%Z -> f64_pos x = x.
Proof.
  intros E [M1 M2]. destruct (Z.eq_dec m (2 ^ 53)) as [->|Nm].
  - assert (Ex : expo x = (e + 1)%Z).
    { rewrite <- p2_nonneg_int in E by lia. rewrite <- p2_plus in E. replace (53 + (e - 52))%Z with (e + 1)%Z in E by lia.
      apply expo_unique; rewrite E; [qlra|]. rewrite (p2_succ (e + 1)). pose proof (p2_pos (e + 1)). qlra. }
    unfold f64_pos. rewrite Ex. cbv zeta.
    assert (D : x / p2 (e + 1 - 52) = qz (2 ^ 52)).
    { rewrite E. replace (e + 1 - 52)%Z with (e - 52 + 1)%Z by lia. rewrite p2_plus, p2_1.
      replace (qz (2 ^ 53)) with (qz (2 ^ 52) * qz 2) by (rewrite <- qz_mult; reflexivity).
      field. split; [intro Z0; apply (f_equal this) in Z0; discriminate | apply p2_nz]. }
    rewrite D, rint_int. rewrite <- D. apply div_mul, p2_nz.
  - assert (Ex : expo x = e).
    { apply expo_unique; rewrite E.
      - replace e with (52 + (e - 52))%Z at 1 by lia. rewrite p2_plus. apply qmult_le_r; [pose proof (p2_pos (e - 52)); qlra|].
        rewrite p2_nonneg_int by lia. apply (proj1 (qz_le _ _)), M1.
      - replace (e + 1)%Z with (53 + (e - 52))%Z by lia. rewrite (p2_plus 53). rewrite (p2_nonneg_int 53) by lia.
        assert (L : (m + 1 <= 2 ^ 53)%Z) by lia. apply (proj1 (qz_le _ _)) in L. rewrite qz_plus, qz_1 in L.
        pose proof (p2_pos (e - 52)) as U. pose proof (qmult_le_r (p2 (e - 52)) _ _ (Qclt_le_weak _ _ U) L) as K.
        replace ((qz m + 1) * p2 (e - 52)) with (qz m * p2 (e - 52) + p2 (e - 52)) in K by ring. qlra. }
    unfold f64_pos. rewrite Ex. cbv zeta.
    assert (D : x / p2 (e - 52) = qz m) by (rewrite E; field; apply p2_nz).
    rewrite D, rint_int. symmetry. exact E.
Qed.
Lemma f64_pos_idem x : 0 < x -> f64_pos (f64_pos x) = f64_pos x.
Proof. intro P. apply (f64_pos_grid _ (rint (x / p2 (expo x - 52))) (expo x)); [reflexivity | apply signif, P]. Qed.
(** relative error of one rounding *)
Lemma f64_pos_err x : 0 < x -> qabs (f64_pos x - x) <= x * p2 (-53).
Proof.
  intro P. destruct (expo_spec x P) as [A _]. unfold f64_pos. cbv zeta. set (u := p2 (expo x - 52)).
  pose proof (p2_pos (expo x - 52)) as U. fold u in U.
  destruct (rint_near (x / u)) as [B C]. set (m := qz (rint (x / u))) in *.
  assert (Eu : u * qf 1 2 = p2 (expo x - 53)).
  { unfold u. replace (expo x - 52)%Z with (expo x - 53 + 1)%Z by lia. rewrite p2_plus, p2_1.
    replace (qf 1 2) with (/ qz 2) by (apply Qc_is_canon; reflexivity). field. intro Z0. apply (f_equal this) in Z0. discriminate. }
  assert (Le : p2 (expo x - 53) <= x * p2 (-53)).
  { replace (expo x - 53)%Z with (expo x + -53)%Z by lia. rewrite p2_plus. apply qmult_le_r; [pose proof (p2_pos (-53)); qlra | exact A]. }
  assert (E1 : m * u - x = (m - x / u) * u) by (replace x with (x / u * u) at 1 by (apply div_mul, p2_nz); ring).
  rewrite E1. apply Qcle_trans with (u * qf 1 2); [|rewrite Eu; exact Le].
  unfold qabs. destruct (qle_spec 0 ((m - x / u) * u)) as [L|L].
  - rewrite Qcmult_comm. apply qmult_le_l; [qlra | exact C].
  - replace (- ((m - x / u) * u)) with (u * (- (m - x / u))) by ring. apply qmult_le_l; qlra.
Qed.

Lemma f64_mono x y : x <= y -> f64_round x <= f64_round y.
Proof.
  intro L. unfold f64_round. destruct (qlt_spec 0 x).
  - destruct (qlt_spec 0 y); [|exfalso; qlra]. apply f64_pos_mono; assumption.
  - destruct (qlt_spec 0 y).
    + pose proof (f64_pos_pos y H0). destruct (qlt_spec x 0); [|qlra]. pose proof (f64_pos_pos (- x) ltac:(qlra)). qlra.
    + destruct (qlt_spec x 0).
      * pose proof (f64_pos_pos (- x) ltac:(qlra)). destruct (qlt_spec y 0); [|qlra].
        pose proof (f64_pos_mono (- y) (- x) ltac:(qlra) ltac:(qlra)). qlra.
      * destruct (qlt_spec y 0); [exfalso; qlra | qlra].
Qed.
Lemma f64_idem x : f64_round (f64_round x) = f64_round x.
Proof.
  unfold f64_round at 2 3. destruct (qlt_spec 0 x) as [P|P].
  - unfold f64_round. pose proof (f64_pos_pos x P). destruct (qlt_spec 0 (f64_pos x)); [|exfalso; qlra]. apply f64_pos_idem, P.
  - destruct (qlt_spec x 0) as [N|N].
    + assert (P' : 0 < - x) by qlra. pose proof (f64_pos_pos (- x) P'). unfold f64_round.
      destruct (qlt_spec 0 (- f64_pos (- x))); [exfalso; qlra|]. destruct (qlt_spec (- f64_pos (- x)) 0); [|exfalso; qlra].
      replace (- - f64_pos (- x)) with (f64_pos (- x)) by ring. rewrite f64_pos_idem by exact P'. reflexivity.
    + reflexivity.
Qed.
Lemma f64_opp x : f64_round (- x) = - f64_round x.
Proof.
  unfold f64_round. destruct (qlt_spec 0 x).
  - destruct (qlt_spec 0 (- x)); [exfalso; qlra|]. destruct (qlt_spec (- x) 0); [|exfalso; qlra]. f_equal. f_equal. ring.
  - destruct (qlt_spec x 0).
    + destruct (qlt_spec 0 (- x)); [|exfalso; qlra]. ring.
    + destruct (qlt_spec 0 (- x)); [exfalso; qlra|]. destruct (qlt_spec (- x) 0); [exfalso; qlra|]. ring.
Qed.
Definition f64 : rounding := mkRounding f64_round f64_mono f64_idem f64_opp.

Lemma f64_err x : qabs (f64 x - x) <= qabs x * p2 (-53).
Proof.
  change (f64 x) with (f64_round x). unfold f64_round. destruct (qlt_spec 0 x).
  - rewrite (qabs_pos x) by qlra. apply f64_pos_err. assumption.
  - destruct (qlt_spec x 0).
    + rewrite (qabs_neg x) by qlra. pose proof (f64_pos_err (- x) ltac:(qlra)) as H1.
      replace (qabs (- f64_pos (- x) - x)) with (qabs (f64_pos (- x) - - x)); [exact H1|].
      replace (- f64_pos (- x) - x) with (- (f64_pos (- x) - - x)) by ring. unfold qabs. repeat qcase; qlra.
    + replace x with 0 by qlra. vm_compute. discriminate.
Qed.
(** halves of machine numbers are machine numbers *)
Lemma f64_half x : machine f64 x -> machine f64 (x * qf 1 2).
Proof.
  unfold machine. change (f64 x) with (f64_round x). change (f64 (x * qf 1 2)) with (f64_round (x * qf 1 2)).
  assert (H2 : qf 1 2 = p2 (-1)) by (apply Qc_is_canon; reflexivity).
  assert (Hp : forall y, 0 < y -> f64_pos y = y -> f64_pos (y * qf 1 2) = y * qf 1 2).
  { intros y P E. unfold f64_pos in E. cbv zeta in E.
    apply (f64_pos_grid _ (rint (y / p2 (expo y - 52))) (expo y - 1)); [|apply signif, P].
    rewrite <- E at 1. rewrite H2, <- Qcmult_assoc, <- p2_plus. f_equal. f_equal. lia. }
  pose proof (p2_pos (-1)) as Ph. rewrite <- H2 in Ph.
  unfold f64_round. destruct (qlt_spec 0 x) as [P|P].
  - intro E. pose proof (qmult_pos x _ P Ph) as K. destruct (qlt_spec 0 (x * qf 1 2)) as [K3|K3]; [|exfalso; apply (Qclt_not_le _ _ K K3)]. apply Hp; assumption.
  - destruct (qlt_spec x 0) as [N|N].
    + intro E. assert (P' : 0 < - x) by qlra. pose proof (qmult_pos (- x) _ P' Ph) as K.
      assert (K2 : x * qf 1 2 < 0) by (replace (x * qf 1 2) with (- (- x * qf 1 2)) by ring; revert K; generalize (- x * qf 1 2); intros; qlra).
      destruct (qlt_spec 0 (x * qf 1 2)) as [K3|K3]; [exfalso; apply (Qclt_not_le _ _ K2), Qclt_le_weak, K3|].
      destruct (qlt_spec (x * qf 1 2) 0) as [K4|K4]; [|exfalso; apply (Qclt_not_le _ _ K2 K4)].
      replace (- (x * qf 1 2)) with (- x * qf 1 2) by ring. rewrite Hp; [ring | exact P' | qlra].
    + intro E. assert (x = 0) by qlra. subst x. rewrite Qcmult_0_l. reflexivity.
Qed.
