(** Operations on doubles are rounded operations while the values stay below a bound. *)
From Coq Require Import Floats.SpecFloat.
From Verif Require Import QcTac Num ModelMerge MergeFacts ModelBase ModelCurves ModelHuang ModelMuda ModelMarket ModelUniform ModelRound ModelRoundUniform ModelFloat ModelBounded
  SpecGrid SpecDouble SpecIeee SpecIeeeRun RoundFacts BoundFacts DoubleFacts IeeeRound IeeeOps IeeeAny ModelOps.

(** ** With rounded operations: the rounded model *)
Section Rounding.
  Variable R : rounding.
  Lemma mix_rounded gv fv k : mix_o (rounded R) gv fv k = mix_r R gv fv k.
  Proof.
    unfold mix_o, mix_r.
    assert (E : forall x y, nmul_o (rounded R) x y = nround R (nmul x y)).
    { intros x y. unfold nmul_o, nround. destruct x, y; try reflexivity; unfold nmul, ninf_times; repeat (match goal with |- context [if ?b then _ else _] => destruct b end); reflexivity. }
    rewrite !E. change (o_sub (rounded R) 1 k) with (R (1 - k)). generalize (nround R (nmul gv (Fin k))). generalize (nround R (nmul (Fin (R (1 - k))) fv)). intros x y.
    unfold nadd_o, nround. destruct x, y; reflexivity.
  Qed.
  Lemma intersect_rounded f g k : intersect_stepwise_o (rounded R) f g k = intersect_stepwise_r R f g k.
  Proof.
    unfold intersect_stepwise_o, intersect_stepwise_r. destruct (col_max f); simpl; [|reflexivity]. destruct (col_max g); simpl; [|reflexivity].
    destruct (scan _ None) as [x|]; simpl; [|reflexivity]. destruct (piece_value _ _ g) as [[gv|]|]; simpl; [| |reflexivity].
    - destruct (piece_value _ _ f) as [[fv|]|]; simpl; [rewrite mix_rounded; reflexivity | reflexivity | reflexivity].
    - destruct (piece_value _ _ f) as [[fv|]|]; reflexivity.
  Qed.
  Theorem huang_rounded (A : adder R) S d : huang_auction_o (rounded R) A S d = huang_auction_r R A S d.
  Proof. unfold huang_auction_o, huang_auction_r. rewrite intersect_rounded. reflexivity. Qed.
  Theorem muda_rounded (A : adder R) S d fl : muda_o (rounded R) A S d fl = muda_r R A S d fl.
  Proof. unfold muda_o, muda_r, find_competitive_price_o, find_competitive_price_r. rewrite !intersect_rounded. reflexivity. Qed.
  Theorem uniform_rounded (A : adder R) S d : uniform_run_o (rounded R) A S d = uniform_run_r R A S d.
  Proof.
    assert (E : forall b, uniform_price_mechanism_o (rounded R) A S b = uniform_price_mechanism_r R A S b) by (intro b; unfold uniform_price_mechanism_o, uniform_price_mechanism_r; rewrite intersect_rounded; reflexivity).
    unfold uniform_run_o, uniform_run_r, mechanism, mech_run0. rewrite E. reflexivity.
  Qed.
  Theorem np_sum_rounded l : np_sum_o (rounded R) l = np_sum R l.
  Proof.
    assert (E : forall k m, np_pair_o (rounded R) k m = np_pair R k m) by (induction k as [|k IH]; intro m; [reflexivity | simpl; rewrite !IH; reflexivity]).
    apply E.
  Qed.
End Rounding.

(** ** Doubles *)
Lemma to_double_ok x : binary64 x = x -> proper (to_double x) /\ fval (to_double x) = x.
Proof.
  intro M. destruct (machine_grid x M) as [[k K] B].
  assert (E : (Qnum (this x) * 2 ^ 1074 / Z.pos (Qden (this x)))%Z = k).
  { symmetry. apply Z.div_unique_exact; [discriminate|].
    assert (Q : x * p2 1074 = qz k).
    { rewrite K. unfold tiny. rewrite <- Qcmult_assoc, <- p2_plus. change (-1074 + 1074)%Z with 0%Z. rewrite p2_0. ring. }
    rewrite (p2_nonneg_int 1074) in Q by lia. apply (f_equal this) in Q.
    assert (Q' : (this x * inject_Z (2 ^ 1074) == inject_Z k)%Q) by (rewrite <- (this_qz (2 ^ 1074)), <- (this_qz k), <- this_mult, Q; reflexivity).
    clear - Q'. destruct (this x) as [n d]. unfold Qeq, Qmult, inject_Z in Q'. cbn [Qnum Qden] in *. rewrite Pos.mul_1_r, Z.mul_1_r in Q'. rewrite Q'. ring. }
  unfold to_double. rewrite E. pose proof (normalize_ok k (-1074) false) as F.
  assert (V : qz k * p2 (-1074) = x) by (rewrite K; reflexivity). rewrite V in F. destruct F as [F _].
  destruct (F (Qcle_lt_trans _ _ _ B overflow_big)) as [F1 F2]. rewrite M in F2. split; assumption.
Qed.

Section Doubles.
  Variable j : Qc.
  Notation D := (doubles j).

  Lemma of_double_ok v z : float_of v z -> qabs v <= p2 1023 -> of_double j z = binary64 v.
  Proof.
    intros F L. destruct F as [F _]. destruct (F (below_overflow _ L)) as [[_ P] V]. destruct z; try (destruct P; fail); exact V.
  Qed.
  Lemma d_add x y : binary64 x = x -> binary64 y = y -> qabs (x + y) <= p2 1023 -> o_add D x y = binary64 (x + y).
  Proof.
    intros X Y L. destruct (to_double_ok x X) as [X1 X2]. destruct (to_double_ok y Y) as [Y1 Y2]. apply (of_double_ok (x + y)); [|exact L].
    rewrite <- X2 at 1. rewrite <- Y2 at 1. apply add_ok; assumption.
  Qed.
  Lemma d_sub x y : binary64 x = x -> binary64 y = y -> qabs (x - y) <= p2 1023 -> o_sub D x y = binary64 (x - y).
  Proof.
    intros X Y L. destruct (to_double_ok x X) as [X1 X2]. destruct (to_double_ok y Y) as [Y1 Y2]. apply (of_double_ok (x - y)); [|exact L].
    rewrite <- X2 at 1. rewrite <- Y2 at 1. apply sub_ok; assumption.
  Qed.
  Lemma d_mul x y : binary64 x = x -> binary64 y = y -> qabs (x * y) <= p2 1023 -> o_mul D x y = binary64 (x * y).
  Proof.
    intros X Y L. destruct (to_double_ok x X) as [X1 X2]. destruct (to_double_ok y Y) as [Y1 Y2]. apply (of_double_ok (x * y)); [|exact L].
    rewrite <- X2 at 1. rewrite <- Y2 at 1. apply mul_ok; assumption.
  Qed.
  Lemma d_div x y : binary64 x = x -> binary64 y = y -> y <> 0 -> qabs (x / y) <= p2 1023 -> o_div D x y = binary64 (x / y).
  Proof.
    intros X Y N L. destruct (to_double_ok x X) as [X1 X2]. destruct (to_double_ok y Y) as [Y1 Y2]. apply (of_double_ok (x / y)); [|exact L].
    rewrite <- X2 at 1. rewrite <- Y2 at 1. apply div_ok; [assumption | assumption | rewrite Y2; exact N].
  Qed.
End Doubles.

(** ** A double of at most [m] times [2^e] *)
Definition inb (e m : Z) (x : Qc) : Prop := binary64 x = x /\ qabs x <= qz m * p2 e.
Definition okE (e : Z) : Prop := (-1000 <= e <= 970)%Z.

Lemma grid_machine e m : okE e -> (0 <= m <= 2 ^ 53)%Z -> binary64 (qz m * p2 e) = qz m * p2 e.
Proof.
  intros E M. apply (b64_free e ltac:(unfold okE in E; lia)); [exists m; reflexivity|].
  assert (M0 : qz 0 <= qz m) by (apply (proj1 (qz_le _ _)); lia). rewrite qz_0 in M0. pose proof (p2_pos e) as P.
  rewrite qabs_pos by (apply qmult_nonneg; qlra). replace (e + 53)%Z with (53 + e)%Z by lia. rewrite p2_plus, (p2_nonneg_int 53) by lia.
  apply qmult_le_r; [qlra|]. apply (proj1 (qz_le _ _)). lia.
Qed.
Lemma grid_below e m : okE e -> (0 <= m <= 2 ^ 53)%Z -> qz m * p2 e <= p2 1023.
Proof.
  intros E M. pose proof (p2_pos e) as P. apply Qcle_trans with (qz (2 ^ 53) * p2 e).
  - apply qmult_le_r; [qlra|]. apply (proj1 (qz_le _ _)). lia.
  - rewrite <- p2_nonneg_int by lia. rewrite <- p2_plus. apply p2_le. unfold okE in E. lia.
Qed.
Lemma inb_round e m v : okE e -> (0 <= m <= 2 ^ 53)%Z -> qabs v <= qz m * p2 e -> inb e m (binary64 v) /\ qabs v <= p2 1023.
Proof.
  intros E M L. split; [split; [apply (rnd_idem binary64)|]|].
  - apply round_abs; [apply grid_machine; assumption | exact L].
  - apply Qcle_trans with (qz m * p2 e); [exact L | apply grid_below; assumption].
Qed.
Lemma inb_weak e m e' m' x : inb e m x -> qz m * p2 e <= qz m' * p2 e' -> inb e' m' x.
Proof. intros [A B] H. split; [exact A | exact (Qcle_trans _ _ _ B H)]. Qed.
Lemma inb_m e m m' x : inb e m x -> (m <= m')%Z -> inb e m' x.
Proof. intros H L. apply (inb_weak e m); [exact H|]. apply qmult_le_r; [pose proof (p2_pos e); qlra | apply (proj1 (qz_le _ _)), L]. Qed.
(** [m 2^e] is at most [2^(e+k)] *)
Lemma inb_up e m k x : inb e m x -> (0 <= k)%Z -> (m <= 2 ^ k)%Z -> inb (e + k) 1 x.
Proof.
  intros H K L. apply (inb_weak e m); [exact H|]. rewrite qz_1, Qcmult_1_l. replace (e + k)%Z with (k + e)%Z by lia. rewrite p2_plus, (p2_nonneg_int k) by exact K.
  apply qmult_le_r; [pose proof (p2_pos e); qlra | apply (proj1 (qz_le _ _)), L].
Qed.
Lemma inb_e e e' x : inb e 1 x -> (e <= e')%Z -> inb e' 1 x.
Proof. intros H L. apply (inb_weak e 1); [exact H|]. rewrite qz_1, !Qcmult_1_l. apply p2_le, L. Qed.
Lemma inb_0 e : inb e 0 0.
Proof. split; [reflexivity|]. rewrite qz_0, Qcmult_0_l. discriminate. Qed.
Lemma inb_opp e m x : inb e m x -> inb e m (- x).
Proof. intros [A B]. split; [change (binary64 (- x)) with (b64_round (- x)); rewrite b64_opp; change (b64_round x) with (binary64 x); rewrite A; reflexivity | rewrite abs_opp; exact B]. Qed.
Lemma inb_pos e m x : inb e m x -> (0 <= m)%Z \/ False.
Proof.
  intros [_ B]. left. destruct (Z.le_gt_cases 0 m) as [L|L]; [exact L|]. exfalso. apply (proj1 (qz_lt _ _)) in L. rewrite qz_0 in L.
  pose proof (p2_pos e). assert (0 < (- qz m) * p2 e) by (apply qmult_pos; qlra). replace (- qz m * p2 e) with (- (qz m * p2 e)) in H0 by ring.
  assert (0 <= qabs x) by (unfold qabs; destruct (qle_spec 0 x); qlra). qlra.
Qed.

Lemma sum_bound e m n x y : inb e m x -> inb e n y -> qabs (x + y) <= qz (m + n) * p2 e.
Proof. intros [_ X] [_ Y]. rewrite qz_plus, Qcmult_plus_distr_l. apply abs_plus_le; assumption. Qed.
Lemma mul_bound e f m n x y : inb e m x -> inb f n y -> qabs (x * y) <= qz (m * n) * p2 (e + f).
Proof.
  intros [_ X] [_ Y]. assert (E : qabs (x * y) = qabs x * qabs y).
  { unfold qabs. destruct (qle_spec 0 x) as [Hx|Hx], (qle_spec 0 y) as [Hy|Hy].
    - pose proof (qmult_nonneg x y Hx Hy). destruct (qle_spec 0 (x * y)); [reflexivity | exfalso; qlra].
    - pose proof (qmult_nonneg x (- y) Hx ltac:(qlra)) as P. replace (x * - y) with (- (x * y)) in * by ring. destruct (qle_spec 0 (x * y)); [|reflexivity].
      assert (x * y = 0) as -> by qlra. ring.
    - pose proof (qmult_nonneg (- x) y ltac:(qlra) Hy) as P. replace (- x * y) with (- (x * y)) in * by ring. destruct (qle_spec 0 (x * y)); [|reflexivity].
      assert (x * y = 0) as -> by qlra. ring.
    - pose proof (qmult_nonneg (- x) (- y) ltac:(qlra) ltac:(qlra)) as P. replace (- x * - y) with (x * y) in * by ring. destruct (qle_spec 0 (x * y)); [reflexivity | exfalso; qlra]. }
  rewrite E, qz_mult, p2_plus. assert (0 <= qabs x) by (unfold qabs; destruct (qle_spec 0 x); qlra). assert (0 <= qabs y) by (unfold qabs; destruct (qle_spec 0 y); qlra).
  replace (qz m * qz n * (p2 e * p2 f)) with (qz m * p2 e * (qz n * p2 f)) by ring.
  apply Qcle_trans with (qabs x * (qz n * p2 f)); [apply qmult_le_l; assumption|]. apply qmult_le_r; [qlra | exact X].
Qed.
Lemma div_bound e m x N : inb e m x -> (0 < N)%nat -> qabs (x / qnat N) <= qz m * p2 e.
Proof.
  intros [_ X] HN. assert (P : 1 <= qnat N) by (rewrite <- qz_1; apply (proj1 (qz_le _ _)); lia).
  assert (E : qabs (x / qnat N) * qnat N = qabs x).
  { assert (Ex : x = x / qnat N * qnat N) by (rewrite div_mul; [reflexivity | intro Z; rewrite Z in P; apply P; reflexivity]). rewrite Ex at 2.
    set (t := x / qnat N). clearbody t. unfold qabs. destruct (qle_spec 0 t) as [T|T].
    - pose proof (qmult_nonneg t (qnat N) T ltac:(qlra)). destruct (qle_spec 0 (t * qnat N)); [reflexivity | exfalso; qlra].
    - pose proof (qmult_pos (- t) (qnat N) ltac:(qlra) ltac:(qlra)) as Q. replace (- t * qnat N) with (- (t * qnat N)) in * by ring. destruct (qle_spec 0 (t * qnat N)); [exfalso; qlra | reflexivity]. }
  assert (0 <= qabs (x / qnat N)) as H0 by (unfold qabs; destruct (qle_spec 0 (x / qnat N)); qlra).
  pose proof (qmult_le_l _ _ _ H0 P) as K. rewrite Qcmult_1_r in K. rewrite E in K. exact (Qcle_trans _ _ _ K X).
Qed.
Lemma nat_machine N : (Z.of_nat N <= 2 ^ 53)%Z -> binary64 (qnat N) = qnat N.
Proof.
  intro H. assert (E : qnat N = qz (Z.of_nat N) * p2 0) by (rewrite p2_0; unfold qnat; ring). rewrite E. apply grid_machine; [split; lia | lia].
Qed.

Section Ops.
  Variable j : Qc.
  Notation D := (doubles j).
  Variable e : Z.
  Hypothesis He : okE e.
  Lemma o_add_in m n x y : inb e m x -> inb e n y -> (0 <= m)%Z -> (0 <= n)%Z -> (m + n <= 2 ^ 53)%Z ->
    o_add D x y = binary64 (x + y) /\ inb e (m + n) (binary64 (x + y)).
  Proof. intros X Y M N L. destruct (inb_round e (m + n) (x + y) He ltac:(lia) (sum_bound e m n x y X Y)) as [A B]. split; [apply d_add; [apply X | apply Y | exact B] | exact A]. Qed.
  Lemma o_sub_in m n x y : inb e m x -> inb e n y -> (0 <= m)%Z -> (0 <= n)%Z -> (m + n <= 2 ^ 53)%Z ->
    o_sub D x y = binary64 (x - y) /\ inb e (m + n) (binary64 (x - y)).
  Proof.
    intros X Y M N L. pose proof (sum_bound e m n x (- y) X (inb_opp _ _ _ Y)) as S. change (x + - y) with (x - y) in S.
    destruct (inb_round e (m + n) (x - y) He ltac:(lia) S) as [A B]. split; [apply d_sub; [apply X | apply Y | exact B] | exact A].
  Qed.
  Lemma o_div_in m x N : inb e m x -> (0 <= m <= 2 ^ 53)%Z -> (0 < N)%nat -> (Z.of_nat N <= 2 ^ 53)%Z ->
    o_div D x (qnat N) = binary64 (x / qnat N) /\ inb e m (binary64 (x / qnat N)).
  Proof.
    intros X M N0 N1. destruct (inb_round e m (x / qnat N) He M (div_bound e m x N X N0)) as [A B]. split; [|exact A].
    apply d_div; [apply X | apply nat_machine, N1 | | exact B]. intro Z. assert (P : 1 <= qnat N) by (rewrite <- qz_1; apply (proj1 (qz_le _ _)); lia). rewrite Z in P. apply P. reflexivity.
  Qed.
End Ops.
Lemma o_mul_in j e f m n x y : okE (e + f) -> inb e m x -> inb f n y -> (0 <= m)%Z -> (0 <= n)%Z -> (m * n <= 2 ^ 53)%Z ->
  o_mul (doubles j) x y = binary64 (x * y) /\ inb (e + f) (m * n) (binary64 (x * y)).
Proof.
  intros E X Y M N L. destruct (inb_round (e + f) (m * n) (x * y) E ltac:(nia) (mul_bound e f m n x y X Y)) as [A B].
  split; [apply d_mul; [apply X | apply Y | exact B] | exact A].
Qed.
