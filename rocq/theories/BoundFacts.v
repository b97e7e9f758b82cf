(** Double precision with bounded exponents: where it is that with unbounded exponents, and the mechanisms in it. *)
From Verif Require Import QcTac Num NumFacts ModelMerge ModelBase ModelCurves ModelHuang ModelMuda ModelP2P ModelMarket ModelStats ModelUniform ModelRound ModelRoundStats ModelRoundUniform ModelFloat
  ListFacts MergeFacts Spec SpecRound Sorter P2PFacts RoundFacts RoundTop SpecGrid GridFacts GridMuda GridP2P GridHuang GridStats GridTop ModelBounded.

Ltac zq := repeat match goal with H : Z.le _ _ |- _ => clear H | H : Z.lt _ _ |- _ => clear H | H : _ /\ _ |- _ => clear H end; qlra.
Lemma opp_inj (x y : Qc) : - x = - y -> x = y.
Proof. intro H. assert (K : - - x = - - y) by (rewrite H; reflexivity). replace (- - x) with x in K by ring. replace (- - y) with y in K by ring. exact K. Qed.
Lemma b64_cases x (Q : Qc -> Prop) : (forall y, 0 < y -> Q y) -> (forall y, Q y -> Q (- y)) -> Q 0 -> Q x.
Proof.
  intros Hp Ho H0. destruct (qlt_spec 0 x) as [P|P]; [apply Hp, P|]. destruct (qlt_spec x 0) as [N|N]; [|replace x with 0 by qlra; exact H0].
  replace x with (- - x) by ring. apply Ho, Hp. qlra.
Qed.
Lemma abs_opp (x : Qc) : qabs (- x) = qabs x.
Proof. unfold qabs. destruct (qle_spec 0 (- x)), (qle_spec 0 x); qlra. Qed.
Lemma grid_step e e' x : (e' <= e)%Z -> on_grid (p2 e) x -> on_grid (p2 e') x.
Proof.
  intros L [z ->]. exists (z * 2 ^ (e - e'))%Z. rewrite qz_mult, <- (p2_nonneg_int (e - e')) by lia. rewrite <- Qcmult_assoc, <- p2_plus. f_equal. f_equal. lia.
Qed.
Lemma f64_grid x : 0 < x -> normal <= x -> on_grid tiny (f64_pos x).
Proof.
  intros P L. assert (E : expo normal = (-1022)%Z) by (apply expo_unique; [apply Qcle_refl | unfold normal; rewrite p2_succ; pose proof (p2_pos (-1022)); qlra]).
  pose proof (expo_mono normal x (p2_pos _) L) as M. rewrite E in M.
  apply (grid_step (expo x - 52)); [lia|]. exists (rint (x / p2 (expo x - 52))). reflexivity.
Qed.
(** the numbers of the machine are multiples of the smallest one, and not larger than the largest *)
Lemma b64_grid x : on_grid tiny (binary64 x) /\ qabs (binary64 x) <= big.
Proof.
  apply (b64_cases x (fun x => on_grid tiny (binary64 x) /\ qabs (binary64 x) <= big)).
  - intros y P. change (binary64 y) with (b64_round y). rewrite b64_round_pos by exact P. pose proof (b64_pos_nonneg y P). pose proof (b64_pos_big y P). rewrite qabs_pos by assumption.
    split; [|assumption]. unfold b64_pos. destruct (qlt_spec y normal) as [L|L]; [eexists; reflexivity|].
    destruct (qle_spec (f64_pos y) big); [apply f64_grid; assumption|]. apply (grid_step 971); [lia|]. exists (2 ^ 53 - 1)%Z. reflexivity.
  - intros y [G B]. rewrite rnd_opp. split; [apply grid_opp, G | rewrite abs_opp; exact B].
  - rewrite rnd_zero. split; [apply grid_0|]. rewrite qabs_pos by qlra. pose proof big_pos. qlra.
Qed.
Lemma machine_grid x : machine binary64 x -> on_grid tiny x /\ qabs x <= big.
Proof. unfold machine. intro H. rewrite <- H. apply b64_grid. Qed.
Theorem b64_agrees x : qabs x <= big -> normal <= qabs x \/ on_grid tiny x -> binary64 x = f64 x.
Proof.
  apply (b64_cases x (fun x => qabs x <= big -> normal <= qabs x \/ on_grid tiny x -> binary64 x = f64 x)).
  - intros y P B H. rewrite qabs_pos in B, H by qlra. change (b64_round y = f64_round y). rewrite b64_round_pos by exact P. unfold f64_round. rewrite (proj2 (qltb_lt _ _) P).
    unfold b64_pos. destruct (qlt_spec y normal) as [L|L].
    + destruct H as [H|[z Ez]]; [exfalso; qlra|]. pose proof tiny_pos as U.
      assert (Z1 : (0 < z)%Z) by (destruct (Z.lt_ge_cases 0 z) as [K|K]; [exact K|]; exfalso; apply (proj1 (qz_le _ _)) in K; rewrite qz_0 in K; pose proof (qmult_le_r tiny _ _ (Qclt_le_weak _ _ U) K) as M; rewrite Qcmult_0_l, <- Ez in M; qlra).
      assert (Z2 : (z <= 2 ^ 52)%Z).
      { rewrite Ez, <- normal_tiny in L. apply mul_cancel_lt in L; [|exact U]. apply (proj2 (qz_lt _ _)) in L. lia. }
      subst y. rewrite (f64_sub z) by lia. replace (qz z * tiny / tiny) with (qz z) by (field; apply tiny_nz). rewrite rint_int. reflexivity.
    + pose proof (f64_pos_mono y big P B) as M. rewrite big_f64 in M. rewrite (proj2 (qleb_le _ _) M). reflexivity.
  - intros y IH B H. rewrite !rnd_opp. f_equal. rewrite abs_opp in B, H. apply IH; [exact B|]. destruct H as [H|H]; [left; exact H | right].
    apply grid_opp in H. replace (- - y) with y in H by ring. exact H.
  - intros _ _. rewrite !rnd_zero. reflexivity.
Qed.
(** sums and differences of machine numbers do not underflow *)
Theorem b64_sums x y : machine binary64 x -> machine binary64 y -> qabs (x + y) <= big -> binary64 (x + y) = f64 (x + y).
Proof. intros X Y B. apply b64_agrees; [exact B|]. right. apply grid_add; apply machine_grid; assumption. Qed.
Lemma b64_machine_f64 x : machine binary64 x -> machine f64 x.
Proof. intro M. destruct (machine_grid x M) as [G B]. unfold machine. rewrite <- (b64_agrees x B (or_intror G)). exact M. Qed.
Theorem b64_error x : qabs x <= big -> qabs (binary64 x - x) <= qmax (qabs x * p2 (-53)) (p2 (-1075)).
Proof.
  intro B. destruct (qle_spec normal (qabs x)) as [L|L].
  - rewrite (b64_agrees x B (or_introl L)). pose proof (f64_err x). apply Qcle_trans with (1 := H). destruct (qmax_case (qabs x * p2 (-53)) (p2 (-1075))) as [[-> K]|[-> K]]; [apply Qcle_refl | exact K].
  - apply Qcle_trans with (p2 (-1075)); [|destruct (qmax_case (qabs x * p2 (-53)) (p2 (-1075))) as [[-> K]|[-> K]]; [exact K | apply Qcle_refl]].
    clear B. revert L. apply (b64_cases x (fun x => qabs x < normal -> qabs (binary64 x - x) <= p2 (-1075))).
    + intros y P L. rewrite qabs_pos in L by qlra. change (binary64 y) with (b64_round y). rewrite b64_round_pos by exact P. unfold b64_pos. rewrite (proj2 (qltb_lt _ _) L).
      pose proof tiny_pos as U. destruct (rint_near (y / tiny)) as [C D]. set (m := qz (rint (y / tiny))) in *.
      assert (E1 : m * tiny - y = (m - y / tiny) * tiny) by (replace y with (y / tiny * tiny) at 1 by (apply div_mul, tiny_nz); ring).
      assert (Eu : tiny * qf 1 2 = p2 (-1075)) by (unfold tiny; rewrite half_p2, <- p2_plus; reflexivity).
      rewrite E1, <- Eu. unfold qabs. destruct (qle_spec 0 ((m - y / tiny) * tiny)).
      * rewrite Qcmult_comm. apply qmult_le_l; [qlra | exact D].
      * replace (- ((m - y / tiny) * tiny)) with (tiny * (- (m - y / tiny))) by ring. apply qmult_le_l; qlra.
    + intros y IH L. rewrite rnd_opp. replace (- binary64 y - - y) with (- (binary64 y - y)) by ring. rewrite abs_opp in L |- *. apply IH, L.
    + intros _. rewrite rnd_zero. replace (0 - 0) with 0 by ring. rewrite qabs_pos by qlra. pose proof (p2_pos (-1075)). qlra.
Qed.
Lemma b64_free e : (-1074 <= e <= 970)%Z -> no_error binary64 (p2 e) (p2 (e + 53)).
Proof.
  intros He x G L. rewrite b64_agrees; [apply (f64_free e); assumption | | right; apply (grid_step e); [lia | exact G]].
  pose proof (big_p2 (e + 53) ltac:(lia)). zq.
Qed.
Lemma b64_below e B : (-1074 <= e <= 970)%Z -> B <= p2 (e + 53) -> no_error binary64 (p2 e) B.
Proof. intros He L. apply (no_error_less binary64 (p2 e) (p2 (e + 53))); [apply b64_free, He | exact L]. Qed.
Lemma b64_half : binary64 (qf 1 2) = qf 1 2.
Proof. rewrite half_p2. apply (b64_free (-1)); [lia | exists 1%Z; change (qz 1) with 1; ring|]. rewrite qabs_pos by (pose proof (p2_pos (-1)); zq). apply p2_le. lia. Qed.

Section Double.
  Variables (a b : Z) (T P : Qc) (A : adder binary64) (S : sorter) (d : df).
  Hypothesis F : gridded (p2 a) (p2 b) T P d.
  Hypothesis P0 : 0 <= P.
  Hypothesis Ha : (-1074 <= a <= 970)%Z.
  Theorem muda_bounded fl : (-1073 <= b <= 971)%Z -> (-1073 <= a + b <= 971)%Z -> labels_unique d -> T <= p2 (a + 53) -> P <= p2 (b + 51) -> P * T <= p2 (a + b + 51) -> muda_r binary64 A S d fl = muda S d fl.
  Proof.
    intros Hb Hab Hu LT LP LPT. apply (muda_free (p2 a) (p2 b) T P binary64 A); try assumption; [apply b64_below; assumption | | apply b64_half|].
    - rewrite half_p2, <- p2_plus. apply b64_below; [lia|]. replace (b + -1 + 53)%Z with (b + 51 + 1)%Z by lia. rewrite p2_succ. zq.
    - rewrite half_p2, <- !p2_plus. apply b64_below; [lia|]. replace (b + -1 + a + 53)%Z with (a + b + 51 + 1)%Z by lia. rewrite p2_succ. replace ((P + P) * T) with (P * T + P * T) by ring. zq.
  Qed.
  Theorem uniform_bounded : (-1073 <= b <= 971)%Z -> T <= p2 (a + 53) -> P <= p2 (b + 51) -> uniform_run_r binary64 A S d = uniform_run S d.
  Proof.
    intros Hb LT LP. assert (E : uniform_price_mechanism_r binary64 A S d = uniform_price_mechanism S d).
    { apply (uniform_free (p2 a) (p2 b) T P binary64 A); try assumption; [apply b64_below; assumption | | apply b64_half].
      rewrite half_p2, <- p2_plus. apply b64_below; [lia|]. replace (b + -1 + 53)%Z with (b + 51 + 1)%Z by lia. rewrite p2_succ. zq. }
    unfold uniform_run_r, uniform_run, mechanism, mech_run0. rewrite E. reflexivity.
  Qed.
  Theorem p2p_grid_bounded e c r : (-1074 <= b + e <= 970)%Z -> (-53 <= e <= 0)%Z -> on_grid (p2 e) c -> 0 <= c -> c <= 1 -> labels_unique d -> T <= p2 (a + 53) -> P <= p2 (b + e + 53) ->
    p2p_random_r binary64 A d c r = p2p_random d c r.
  Proof.
    intros Hb He Gc C0 C1 Hu LT LP. assert (G1 : on_grid (p2 e) 1) by (exists (2 ^ (- e))%Z; rewrite <- (p2_nonneg_int (- e)) by lia; rewrite <- p2_plus; replace (- e + e)%Z with 0%Z by lia; symmetry; apply p2_0).
    assert (G : on_grid (p2 e) (1 - c)) by (apply grid_sub; assumption).
    apply (p2p_free (p2 a) (p2 b) (p2 e) T P); try assumption; [apply b64_below; assumption | rewrite <- p2_plus; apply b64_below; assumption|].
    apply (b64_free e); [lia | exact G|]. rewrite qabs_pos by zq. apply Qcle_trans with (p2 0); [rewrite p2_0; zq | apply p2_le; lia].
  Qed.
  (** Huang's auction divides; the shares of the excess must not be below the normal numbers *)
  Theorem huang_bounded k : (-1022 <= a - k)%Z -> (0 <= k)%Z -> (Z.of_nat (length d) <= 2 ^ k)%Z -> T < p2 (a + 53) ->
    same_result (p2 (-53)) d (huang_auction_r binary64 A S d) (huang_auction S d).
  Proof.
    intros Hk K0 Ln LT. set (Dom := fun x : Qc => qabs x <= big /\ (normal <= qabs x \/ on_grid tiny x)).
    assert (Tb : T <= big) by (pose proof (big_p2 (a + 53) ltac:(lia)); zq).
    assert (Nq : no_error binary64 (p2 a) T) by (apply b64_below; [exact Ha | zq]).
    assert (Dv : div_in Dom (length d) (p2 a) T).
    { intros z N G Z0 ZT HN. assert (PN : 0 < qnat N) by (apply UpdateFacts.qnat_pos; lia). destruct (RoundHuang.div_le_self z N Z0 ltac:(lia)) as [D0 D1].
      unfold Dom. rewrite qabs_pos by exact D0. split; [zq|]. destruct (qlt_spec 0 z) as [Zp|Zn].
      - left. destruct G as [m Em]. apply (mul_cancel_le _ _ (qnat N) PN). replace (z / qnat N * qnat N) with z by (field; intro Z; rewrite Z in PN; zq).
        assert (M1 : (1 <= m)%Z). { destruct (Z.lt_ge_cases 0 m) as [M|M]; [lia|]. exfalso. apply (proj1 (qz_le _ _)) in M. rewrite qz_0 in M. pose proof (p2_pos a) as Pa. pose proof (qmult_le_r (p2 a) _ _ (Qclt_le_weak _ _ Pa) M) as J. rewrite Qcmult_0_l, <- Em in J. zq. }
        apply (proj1 (qz_le _ _)) in M1. change (qz 1) with 1 in M1. pose proof (p2_pos a) as Pa. pose proof (qmult_le_r (p2 a) _ _ (Qclt_le_weak _ _ Pa) M1) as J. rewrite Qcmult_1_l, <- Em in J.
        apply Qcle_trans with (p2 a); [|exact J]. apply Qcle_trans with (p2 (a - k) * p2 k); [|rewrite <- p2_plus; replace (a - k + k)%Z with a by lia; apply Qcle_refl].
        assert (Nk : qnat N <= p2 k) by (rewrite p2_nonneg_int by exact K0; apply (proj1 (qz_le _ _)); lia).
        pose proof (p2_le _ _ Hk) as Nn. fold normal in Nn. pose proof (p2_pos (-1022)) as Pn. fold normal in Pn.
        apply Qcle_trans with (normal * p2 k); [apply qmult_le_l; zq | apply qmult_le_r; [pose proof (p2_pos k); zq | exact Nn]].
      - right. replace z with 0 by zq. replace (0 / qnat N) with 0 by (unfold Qcdiv; ring). apply grid_0. }
    apply (huang_close (p2 a) (p2 b) T P (p2 (-53)) binary64 A) with (Dom := Dom) (n := length d); try assumption.
    - apply p2_pos.
    - split; [pose proof (p2_pos (-53)); zq|]. intros x [B H]. rewrite (b64_agrees x B H). apply f64_rel.
    - intros x z N Gx X0 XT Gz Z0 ZT HN. destruct (RoundHuang.div_le_self z N Z0 ltac:(lia)) as [D0 D1].
      assert (R0 : 0 <= binary64 (z / qnat N)) by (apply rnd_nonneg, D0).
      assert (R1 : binary64 (z / qnat N) <= T) by (pose proof (rnd_mono binary64 _ _ D1) as J; rewrite (Nq z Gz) in J by (rewrite qabs_pos; assumption); zq).
      unfold Dom. split; [|right; apply grid_sub; [apply (grid_step a); [lia | exact Gx] | apply b64_grid]].
      unfold qabs. destruct (qle_spec 0 (x - binary64 (z / qnat N))); zq.
    - replace (p2 a) with (p2 (a + 53) * p2 (-53)) by (rewrite <- p2_plus; f_equal; lia). apply Qcmult_lt_compat_r; [apply p2_pos | exact LT].
    - lia.
  Qed.
End Double.
