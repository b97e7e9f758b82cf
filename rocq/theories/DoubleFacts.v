(** The two roundings of the model are rounding to nearest, ties to even, and there is no other. *)
From Verif Require Import QcTac ModelMerge MergeFacts ModelRound ModelFloat RoundFacts SpecGrid GridFacts SpecDouble BoundFacts ModelBounded.

Lemma pow2_p2 e : pow2 e = p2 e.
Proof.
  unfold pow2. destruct (Z.leb_spec 0 e) as [H|H]; [symmetry; apply p2_nonneg_int, H|].
  rewrite <- p2_nonneg_int by lia. assert (E : p2 e * p2 (- e) = 1) by (rewrite <- p2_plus; replace (e + - e)%Z with 0%Z by lia; apply p2_0).
  rewrite <- E. field. apply p2_nz.
Qed.
Lemma number_opp E x : number E x -> number E (- x).
Proof. intros (m & e & He & Hm & ->). exists (- m)%Z, e. split; [exact He|]. split; [lia|]. replace (- m)%Z with (-1 * m)%Z by lia. rewrite qz_mult. change (qz (-1)) with (- (1)). ring. Qed.
Lemma even_opp E x : even_number E x -> even_number E (- x).
Proof.
  intros (m & e & He & Hm & Ev & ->). exists (- m)%Z, e. split; [exact He|]. split; [lia|]. split; [rewrite Z.even_opp; exact Ev|].
  replace (- m)%Z with (-1 * m)%Z by lia. rewrite qz_mult. change (qz (-1)) with (- (1)). ring.
Qed.

(** ** There is only one *)
Section Unique.
  Variable E : Z -> Prop.
  (** next to an even number there is another number *)
  Lemma gap (a b : Qc) m e n f : a = qz m * p2 e -> b = qz n * p2 f -> Z.even m = true -> Z.even n = true -> a < b -> (e <= f)%Z -> a < qz (m + 1) * p2 e /\ qz (m + 1) * p2 e < b.
  Proof.
    intros Ea Eb Em En L H. pose proof (p2_pos e) as U. assert (Eb' : b = qz (n * 2 ^ (f - e)) * p2 e).
    { rewrite Eb, qz_mult, <- (p2_nonneg_int (f - e)) by lia. rewrite <- Qcmult_assoc, <- p2_plus. f_equal. f_equal. lia. }
    rewrite Ea, Eb' in L. apply mul_cancel_lt in L; [|exact U]. apply (proj2 (qz_lt _ _)) in L.
    assert (K : (m + 2 <= n * 2 ^ (f - e))%Z).
    { apply Z.even_spec in Em, En. destruct Em as [k ->], En as [l ->]. destruct (Z.eq_dec f e) as [->|N]; [rewrite Z.sub_diag, Z.pow_0_r in *; lia|]. nia. }
    rewrite Ea, Eb'. split; (apply Qcmult_lt_compat_r; [exact U|]); apply (proj1 (qz_lt _ _)); lia.
  Qed.
  Lemma gap' (a b : Qc) m e n f : a = qz m * p2 e -> b = qz n * p2 f -> Z.even m = true -> Z.even n = true -> a < b -> (f <= e)%Z -> a < qz (n - 1) * p2 f /\ qz (n - 1) * p2 f < b.
  Proof.
    intros Ea Eb Em En L H. destruct (gap (- b) (- a) (- n) f (- m) e) as [G1 G2].
    - rewrite Eb. replace (- n)%Z with (-1 * n)%Z by lia. rewrite qz_mult. change (qz (-1)) with (- (1)). ring.
    - rewrite Ea. replace (- m)%Z with (-1 * m)%Z by lia. rewrite qz_mult. change (qz (-1)) with (- (1)). ring.
    - rewrite Z.even_opp. exact En.
    - rewrite Z.even_opp. exact Em.
    - qlra.
    - exact H.
    - assert (Q : qz (- n + 1) * p2 f = - (qz (n - 1) * p2 f)) by (replace (- n + 1)%Z with (-1 * (n - 1))%Z by lia; rewrite qz_mult; change (qz (-1)) with (- (1)); ring).
      rewrite Q in G1, G2. split; qlra.
  Qed.
  Lemma even_abs m : Z.even m = true -> (Z.abs m < 2 ^ 53)%Z -> (Z.abs m <= 2 ^ 53 - 2)%Z.
  Proof. intros Ev H. apply Z.even_spec in Ev. destruct Ev as [k ->]. change (2 ^ 53)%Z with (2 * 4503599627370496)%Z in *. lia. Qed.
  Lemma between (a b : Qc) : even_number E a -> even_number E b -> a < b -> exists y, number E y /\ a < y /\ y < b.
  Proof.
    intros (m & e & He & Hm & Em & Ea) (n & f & Hf & Hn & En & Eb) L. rewrite pow2_p2 in Ea, Eb. apply (even_abs m Em) in Hm. apply (even_abs n En) in Hn.
    destruct (Z.le_ge_cases e f) as [H|H].
    - exists (qz (m + 1) * p2 e). split; [|apply (gap a b m e n f); assumption]. exists (m + 1)%Z, e. rewrite pow2_p2. split; [exact He|]. split; [lia | reflexivity].
    - exists (qz (n - 1) * p2 f). split; [|apply (gap' a b m e n f); assumption]. exists (n - 1)%Z, f. rewrite pow2_p2. split; [exact Hf|]. split; [lia | reflexivity].
  Qed.
  Lemma mid (a b x y : Qc) : qabs (a - x) = qabs (b - x) -> a < y -> y < b -> qabs (y - x) < qabs (a - x).
  Proof. intros D L1 L2. revert D. unfold qabs. destruct (qle_spec 0 (a - x)), (qle_spec 0 (b - x)), (qle_spec 0 (y - x)); intro D; qlra. Qed.
  Theorem rounds_unique R R' : rounds E R -> rounds E R' -> forall x, R x = R' x.
  Proof.
    intros (N1 & B1 & T1) (N2 & B2 & T2) x. destruct (qeq_spec (R x) (R' x)) as [H|H]; [exact H|]. exfalso.
    assert (D : qabs (R x - x) = qabs (R' x - x)) by (pose proof (B1 x _ (N2 x)); pose proof (B2 x _ (N1 x)); apply Qcle_antisym; assumption).
    pose proof (T1 x (R' x) (N2 x) (fun K => H (eq_sym K)) (eq_sym D)) as Ev1. pose proof (T2 x (R x) (N1 x) H D) as Ev2.
    destruct (qlt_spec (R x) (R' x)) as [L|L].
    - destruct (between _ _ Ev1 Ev2 L) as (y & Ny & L1 & L2). pose proof (B1 x y Ny) as K. pose proof (mid _ _ _ _ D L1 L2). qlra.
    - assert (L' : R' x < R x) by (destruct (Qcle_lt_or_eq _ _ L) as [K|K]; [exact K | exfalso; apply H; symmetry; exact K]).
      destruct (between _ _ Ev2 Ev1 L') as (y & Ny & L1 & L2). pose proof (B2 x y Ny) as K. pose proof (mid _ _ _ _ (eq_sym D) L1 L2). qlra.
  Qed.
  (** what a rounding keeps are the numbers *)
  Theorem rounds_machine R : rounds E R -> forall x, R x = x <-> number E x.
  Proof.
    intros (N & B & _) x. split; [intros <-; apply N|]. intro H. pose proof (B x x H) as K. replace (x - x) with 0 in K by ring.
    rewrite (qabs_pos 0) in K by qlra. revert K. unfold qabs. destruct (qle_spec 0 (R x - x)); intro K; apply Qcle_antisym; qlra.
  Qed.
End Unique.

(** ** Rounding to a multiple of a step *)
Lemma rint_nearest x n : qabs (qz (rint x) - x) <= qabs (qz n - x).
Proof.
  destruct (rint_near x) as [A B]. destruct (Z.eq_dec n (rint x)) as [->|N]; [apply Qcle_refl|].
  assert (Hh : qf 1 2 + qf 1 2 = 1) by (apply Qc_is_canon; reflexivity).
  assert (K : (n <= rint x - 1 \/ rint x + 1 <= n)%Z) by lia. destruct K as [K|K]; apply (proj1 (qz_le _ _)) in K.
  - replace (rint x - 1)%Z with (rint x + -1)%Z in K by lia. rewrite qz_plus in K. change (qz (-1)) with (- (1)) in K. unfold qabs. destruct (qle_spec 0 (qz (rint x) - x)), (qle_spec 0 (qz n - x)); qlra.
  - rewrite qz_plus, qz_1 in K. unfold qabs. destruct (qle_spec 0 (qz (rint x) - x)), (qle_spec 0 (qz n - x)); qlra.
Qed.
Lemma rint_even x n : n <> rint x -> qabs (qz n - x) = qabs (qz (rint x) - x) -> Z.even (rint x) = true.
Proof.
  intros N D. destruct (rint_near x) as [A B]. assert (Hh : qf 1 2 + qf 1 2 = 1) by (apply Qc_is_canon; reflexivity).
  assert (K : (n <= rint x - 1 \/ rint x + 1 <= n)%Z) by lia. destruct K as [K|K]; apply (proj1 (qz_le _ _)) in K.
  - replace (rint x - 1)%Z with (rint x + -1)%Z in K by lia. rewrite qz_plus in K. change (qz (-1)) with (- (1)) in K.
    apply (rint_tie x (rint x - 1)). replace (rint x - 1)%Z with (rint x + -1)%Z by lia. rewrite qz_plus. change (qz (-1)) with (- (1)).
    revert D. unfold qabs. destruct (qle_spec 0 (qz (rint x) - x)), (qle_spec 0 (qz n - x)); intro D; qlra.
  - rewrite qz_plus, qz_1 in K. apply (rint_tie x (rint x)). revert D. unfold qabs. destruct (qle_spec 0 (qz (rint x) - x)), (qle_spec 0 (qz n - x)); intro D; qlra.
Qed.
Lemma abs_scale a u : 0 < u -> qabs (a * u) = qabs a * u.
Proof.
  intro U. unfold qabs. destruct (qle_spec 0 a) as [H|H].
  - pose proof (qmult_nonneg a u H (Qclt_le_weak _ _ U)). destruct (qle_spec 0 (a * u)); [reflexivity | exfalso; qlra].
  - assert (K : 0 < (- a) * u) by (apply qmult_pos; qlra). replace (- a * u) with (- (a * u)) in K by ring. destruct (qle_spec 0 (a * u)); [exfalso; qlra | ring].
Qed.
Section Step.
  Variables x u : Qc.
  Hypothesis U : 0 < u.
  Let r := qz (rint (x / u)) * u.
  Lemma step_dist n : qabs (qz n * u - x) = qabs (qz n - x / u) * u.
  Proof.
    rewrite <- (abs_scale _ _ U). f_equal. replace ((qz n - x / u) * u) with (qz n * u - x / u * u) by ring. rewrite div_mul; [reflexivity|]. intro H. rewrite H in U. qlra.
  Qed.
  Lemma step_nearest y : on_grid u y -> qabs (r - x) <= qabs (y - x).
  Proof. intros [n ->]. unfold r. rewrite !step_dist. apply qmult_le_r; [qlra | apply rint_nearest]. Qed.
  Lemma step_even y : on_grid u y -> y <> r -> qabs (y - x) = qabs (r - x) -> Z.even (rint (x / u)) = true.
  Proof.
    intros [n ->] N D. unfold r in *. rewrite !step_dist in D. apply (rint_even (x / u) n); [intros ->; apply N; reflexivity|].
    apply Qcle_antisym; apply (mul_cancel_le _ _ u U); rewrite D; apply Qcle_refl.
  Qed.
End Step.
(** a number is a multiple of the step of [x] or below the power of two of [x] *)
Lemma number_step E y k : number E y -> on_grid (p2 (k - 52)) y \/ qabs y < p2 k.
Proof.
  intros (m & e & _ & Hm & ->). rewrite pow2_p2. destruct (Z.le_gt_cases (k - 52) e) as [L|L].
  - left. apply (grid_step e); [exact L | exists m; reflexivity].
  - right. rewrite abs_scale by apply p2_pos. apply Qclt_le_trans with (p2 53 * p2 e).
    + apply Qcmult_lt_compat_r; [apply p2_pos|]. rewrite p2_nonneg_int by lia. unfold qabs. destruct (qle_spec 0 (qz m)).
      * apply (proj1 (qz_lt _ _)). lia.
      * replace (- qz m) with (qz (- m)) by (replace (- m)%Z with (-1 * m)%Z by lia; rewrite qz_mult; change (qz (-1)) with (- (1)); ring). apply (proj1 (qz_lt _ _)). lia.
    + rewrite <- p2_plus. apply p2_le. lia.
Qed.
Lemma p2_on_grid k : on_grid (p2 (k - 52)) (p2 k).
Proof. exists (2 ^ 52)%Z. rewrite <- p2_nonneg_int by lia. rewrite <- p2_plus. f_equal. lia. Qed.
(** the rounding with unbounded exponents on positive numbers *)
Lemma f64_pos_nearest E x y : 0 < x -> number E y -> qabs (f64_pos x - x) <= qabs (y - x).
Proof.
  intros P Ny. destruct (expo_spec x P) as [A _]. unfold f64_pos. cbv zeta. destruct (number_step E y (expo x) Ny) as [G|S].
  - apply step_nearest; [apply p2_pos | exact G].
  - apply Qcle_trans with (qabs (p2 (expo x) - x)); [apply step_nearest; [apply p2_pos | apply p2_on_grid]|].
    revert S. unfold qabs. destruct (qle_spec 0 y), (qle_spec 0 (p2 (expo x) - x)), (qle_spec 0 (y - x)); intro S; qlra.
Qed.
Lemma f64_pos_tie E x y : 0 < x -> number E y -> y <> f64_pos x -> qabs (y - x) = qabs (f64_pos x - x) -> Z.even (rint (x / p2 (expo x - 52))) = true.
Proof.
  intros P Ny N D. destruct (expo_spec x P) as [A _]. destruct (number_step E y (expo x) Ny) as [G|S].
  - apply (step_even x (p2 (expo x - 52)) (p2_pos _) y G N D).
  - exfalso. pose proof (step_nearest x (p2 (expo x - 52)) (p2_pos _) _ (p2_on_grid (expo x))) as K. fold (f64_pos x) in K. rewrite <- D in K.
    revert S K. unfold qabs. destruct (qle_spec 0 y), (qle_spec 0 (p2 (expo x) - x)), (qle_spec 0 (y - x)); intros S K; qlra.
Qed.
Lemma f64_pos_number (E : Z -> Prop) x : 0 < x -> E (expo x - 52)%Z -> (f64_pos x = p2 (expo x + 1) -> E (expo x + 1 - 52)%Z) -> number E (f64_pos x).
Proof.
  intros P E1 E2. destruct (signif x P) as [S1 S2]. destruct (Z.eq_dec (rint (x / p2 (expo x - 52))) (2 ^ 53)) as [Eq|N].
  - assert (V : f64_pos x = p2 (expo x + 1)) by (unfold f64_pos; cbv zeta; rewrite Eq, <- p2_nonneg_int by lia; rewrite <- p2_plus; f_equal; lia).
    exists (2 ^ 52)%Z, (expo x + 1 - 52)%Z. split; [apply E2, V|]. split; [lia|]. rewrite pow2_p2, V, <- p2_nonneg_int by lia. rewrite <- p2_plus. f_equal. lia.
  - exists (rint (x / p2 (expo x - 52))), (expo x - 52)%Z. split; [exact E1|]. split; [lia|]. rewrite pow2_p2. reflexivity.
Qed.
Lemma f64_pos_even (E : Z -> Prop) x : 0 < x -> E (expo x - 52)%Z -> (f64_pos x = p2 (expo x + 1) -> E (expo x + 1 - 52)%Z) -> Z.even (rint (x / p2 (expo x - 52))) = true -> even_number E (f64_pos x).
Proof.
  intros P E1 E2 Ev. destruct (signif x P) as [S1 S2]. destruct (Z.eq_dec (rint (x / p2 (expo x - 52))) (2 ^ 53)) as [Eq|N].
  - assert (V : f64_pos x = p2 (expo x + 1)) by (unfold f64_pos; cbv zeta; rewrite Eq, <- p2_nonneg_int by lia; rewrite <- p2_plus; f_equal; lia).
    exists (2 ^ 52)%Z, (expo x + 1 - 52)%Z. split; [apply E2, V|]. split; [lia|]. split; [reflexivity|]. rewrite pow2_p2, V, <- p2_nonneg_int by lia. rewrite <- p2_plus. f_equal. lia.
  - exists (rint (x / p2 (expo x - 52))), (expo x - 52)%Z. split; [exact E1|]. split; [lia|]. split; [exact Ev|]. rewrite pow2_p2. reflexivity.
Qed.
(** from positive numbers to all *)
Lemma rounds_sym E (R : rounding) : E (-1074)%Z \/ E 0%Z -> (forall x, 0 < x -> number E (R x) /\ (forall y, number E y -> qabs (R x - x) <= qabs (y - x)) /\
  (forall y, number E y -> y <> R x -> qabs (y - x) = qabs (R x - x) -> even_number E (R x))) -> rounds E R.
Proof.
  intros Hz H. assert (Z : number E 0 /\ even_number E 0).
  { assert (K : exists e, E e) by (destruct Hz; eexists; eassumption). destruct K as [e K]. split; exists 0%Z, e; rewrite qz_0, Qcmult_0_l; repeat split; (exact K || lia). }
  assert (G : forall x, number E (R x) /\ (forall y, number E y -> qabs (R x - x) <= qabs (y - x)) /\
    (forall y, number E y -> y <> R x -> qabs (y - x) = qabs (R x - x) -> even_number E (R x))).
  { intro x. apply (b64_cases x (fun x => number E (R x) /\ (forall y, number E y -> qabs (R x - x) <= qabs (y - x)) /\
      (forall y, number E y -> y <> R x -> qabs (y - x) = qabs (R x - x) -> even_number E (R x)))).
    - exact H.
    - intros y (N & B & T). rewrite rnd_opp. assert (F : forall a b : Qc, qabs (- a - - b) = qabs (a - b)) by (intros a b; replace (- a - - b) with (- (a - b)) by ring; apply abs_opp).
      assert (F' : forall a b : Qc, qabs (a - - b) = qabs (- a - b)) by (intros a b; rewrite <- (abs_opp (- a - b)); f_equal; ring).
      split; [apply number_opp, N|]. split.
      + intros z Nz. rewrite F, F'. apply B, number_opp, Nz.
      + intros z Nz Ne D. rewrite F, F' in D. apply even_opp, (T (- z)); [apply number_opp, Nz | | exact D]. intro K. apply Ne. rewrite <- K. ring.
    - rewrite rnd_zero. split; [apply Z|]. split; [|intros; apply Z]. intros y _. replace (0 - 0) with 0 by ring. rewrite (qabs_pos 0) by qlra. apply qabs_nonneg. }
  split; [intro x; apply G|]. split; intros x; apply G.
Qed.
Theorem f64_rounds : rounds free f64.
Proof.
  apply rounds_sym; [right; exact I|]. intros x P. change (f64 x) with (f64_round x). unfold f64_round. rewrite (proj2 (qltb_lt _ _) P).
  split; [apply f64_pos_number; [exact P | exact I | intros; exact I]|]. split.
  - intros y Ny. apply (f64_pos_nearest free); assumption.
  - intros y Ny N D. apply f64_pos_even; [exact P | exact I | intros; exact I|]. apply (f64_pos_tie free x y); assumption.
Qed.
Lemma number_big y : number bounded y -> qabs y <= big.
Proof.
  intros (m & e & [E1 E2] & Hm & ->). rewrite pow2_p2, abs_scale by apply p2_pos. unfold big. apply Qcle_trans with (qz (2 ^ 53 - 1) * p2 e).
  - apply qmult_le_r; [pose proof (p2_pos e); zq|]. unfold qabs. destruct (qle_spec 0 (qz m)).
    + apply (proj1 (qz_le _ _)). lia.
    + replace (- qz m) with (qz (- m)) by (replace (- m)%Z with (-1 * m)%Z by lia; rewrite qz_mult; change (qz (-1)) with (- (1)); ring). apply (proj1 (qz_le _ _)). lia.
  - apply qmult_le_l; [rewrite <- qz_0; apply (proj1 (qz_le _ _)); lia | apply p2_le, E2].
Qed.
Lemma number_tiny y : number bounded y -> on_grid tiny y.
Proof. intros (m & e & [E1 E2] & Hm & ->). rewrite pow2_p2. apply (grid_step e); [exact E1 | exists m; reflexivity]. Qed.
Lemma big_lt : big < p2 1024.
Proof.
  unfold big. replace 1024%Z with (53 + 971)%Z by lia. rewrite p2_plus, (p2_nonneg_int 53) by lia. apply Qcmult_lt_compat_r; [apply p2_pos|]. apply (proj1 (qz_lt _ _)). lia.
Qed.
Theorem binary64_rounds : rounds bounded binary64.
Proof.
  assert (Hb : forall e, (-1074 <= e <= 971)%Z -> bounded e) by (intros e He; exact He).
  apply rounds_sym; [left; apply Hb; lia|]. intros x P. change (binary64 x) with (b64_round x). rewrite b64_round_pos by exact P. unfold b64_pos. destruct (qlt_spec x normal) as [L|L].
  - destruct (sub_range x ltac:(qlra) L) as [A B]. split; [|split].
    + exists (rint (x / tiny)), (-1074)%Z. rewrite pow2_p2. split; [apply Hb; lia|]. split; [lia | reflexivity].
    + intros y Ny. apply step_nearest; [apply tiny_pos | apply number_tiny, Ny].
    + intros y Ny N D. exists (rint (x / tiny)), (-1074)%Z. rewrite pow2_p2. split; [apply Hb; lia|]. split; [lia|]. split; [|reflexivity].
      apply (step_even x tiny tiny_pos y); [apply number_tiny, Ny | exact N | exact D].
  - assert (En : expo normal = (-1022)%Z) by (apply expo_unique; [apply Qcle_refl | unfold normal; rewrite p2_succ; pose proof (p2_pos (-1022)); qlra]).
    pose proof (expo_mono normal x (p2_pos _) L) as M. rewrite En in M. destruct (qle_spec (f64_pos x) big) as [H|H].
    + destruct (f64_pos_range x P) as [F _]. assert (Mx : (expo x < 1024)%Z) by (apply p2_lt_inv; pose proof big_lt; zq).
      assert (E1 : bounded (expo x - 52)) by (apply Hb; lia).
      assert (E2 : f64_pos x = p2 (expo x + 1) -> bounded (expo x + 1 - 52)).
      { intro V. apply Hb. rewrite V in H. assert (expo x + 1 < 1024)%Z by (apply p2_lt_inv; pose proof big_lt; clear - H H0; qlra). lia. }
      split; [apply f64_pos_number; assumption|]. split; [intros y Ny; apply (f64_pos_nearest bounded); assumption|].
      intros y Ny N D. apply f64_pos_even; try assumption. apply (f64_pos_tie bounded x y); assumption.
    + assert (Lx : big < x).
      { destruct (qlt_spec big x) as [K|K]; [exact K|]. exfalso. pose proof (f64_pos_mono x big P K) as Q. rewrite big_f64 in Q. zq. }
      assert (Far : forall y, number bounded y -> y <= big) by (intros y Ny; apply number_big in Ny; revert Ny; unfold qabs; destruct (qle_spec 0 y); intro; pose proof big_pos; zq).
      split; [|split].
      * exists (2 ^ 53 - 1)%Z, 971%Z. rewrite pow2_p2. split; [apply Hb; lia|]. split; [lia | reflexivity].
      * intros y Ny. apply Far in Ny. unfold qabs. destruct (qle_spec 0 (big - x)), (qle_spec 0 (y - x)); zq.
      * intros y Ny N D. apply Far in Ny. exfalso. apply N. revert D. unfold qabs. destruct (qle_spec 0 (big - x)), (qle_spec 0 (y - x)); intro D; zq.
Qed.
