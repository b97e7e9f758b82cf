(** Facts about the generator of random bids in rounded arithmetic. *)
From Coq Require Import QArith.Qround.
From Verif Require Import QcTac Num ModelBase ModelHuang ModelDatasets ModelRound ModelRoundDatasets ListFacts UpdateFacts AllocFacts RoundFacts DatasetFacts Spec SpecRound SpecRoundGen.

Lemma abs_le x a : qabs x <= a -> x <= a /\ - x <= a.
Proof. intro H. destruct (qle_spec 0 x) as [P|P]; [rewrite qabs_pos in H by exact P | rewrite qabs_neg in H by qlra]; split; qlra. Qed.
Lemma tri a b : qabs (a + b) <= qabs a + qabs b.
Proof.
  pose proof (qabs_nonneg a) as A0. pose proof (qabs_nonneg b) as B0. destruct (abs_le a (qabs a) (Qcle_refl _)). destruct (abs_le b (qabs b) (Qcle_refl _)).
  destruct (qle_spec 0 (a + b)) as [P|P]; [rewrite (qabs_pos (a + b)) by exact P | rewrite (qabs_neg (a + b)) by qlra]; qlra.
Qed.

Section Gen.
  Variable R : rounding.
  (** *** The grid *)
  Lemma len_ge eps n : qnat n <= R (1 / eps) -> (n <= arange_len_r R eps)%nat.
  Proof.
    intros H. unfold arange_len_r. assert (Z.of_nat n <= Qceiling (this (R (1 / eps)%Qc)))%Z; [|lia].
    rewrite <- (Qceiling_Z (Z.of_nat n)). apply Qceiling_resp_le. unfold qnat, Qcle in H. rewrite this_qz in H. exact H.
  Qed.
  Lemma pos_lt eps i : (i < arange_len_r R eps)%nat -> qnat i < R (1 / eps).
  Proof.
    intro Hi. unfold arange_len_r in Hi. unfold Qclt, qnat. rewrite this_qz. set (x := this (R (1 / eps))) in *.
    destruct (Qlt_le_dec (inject_Z (Z.of_nat i)) x) as [|N]; [assumption|]. exfalso. apply Qceiling_resp_le in N. rewrite Qceiling_Z in N. lia.
  Qed.
  (** a position of the rounded grid is one of the exact grid, or the point 1 *)
  Lemma pos_le eps i : 0 < eps -> machine R (qnat i) -> (i < arange_len_r R eps)%nat -> qnat i * eps <= 1.
  Proof.
    intros He Hi L. apply pos_lt in L. destruct (qlt_spec 1 (qnat i * eps)) as [G|G]; [|exact G]. exfalso.
    assert (N : eps <> 0) by (intro Z; rewrite Z in He; revert He; apply Qcle_not_lt, Qcle_refl).
    assert (E : 1 / eps <= qnat i).
    { destruct (qlt_spec (qnat i) (1 / eps)) as [K|K]; [|exact K]. exfalso.
      assert (X : qnat i * eps < 1 / eps * eps) by (apply Qcmult_lt_compat_r; assumption). replace (1 / eps * eps) with (1:Qc) in X by (field; exact N). qlra. }
    apply (rnd_mono R) in E. rewrite Hi in E. qlra.
  Qed.
  Lemma at_bounds eps i : 0 < eps -> machine R 1 -> machine R (qnat i) -> (i < arange_len_r R eps)%nat -> 0 <= arange_at_r R eps i /\ arange_at_r R eps i <= 1.
  Proof.
    intros He H1 Hi L. unfold arange_at_r. split.
    - apply rnd_nonneg. exact (arange_nonneg eps i He).
    - rewrite <- H1. apply rnd_mono. exact (pos_le eps i He Hi L).
  Qed.

  (** *** The step: no position is missing *)
  Lemma step_ok u mx eps : rel_error R u -> u <= qf 1 4 -> machine R (qnat mx) -> 0 < eps -> 0 < grid_step R mx eps /\ (mx <= arange_len_r R (grid_step R mx eps))%nat.
  Proof.
    intros [U0 Ru] U4 Hm He. unfold grid_step. destruct (qlt_spec (R (1 / eps)) (qnat mx)) as [L|L]; [|split; [exact He | apply len_ge, L]].
    assert (P : 0 < qnat mx).
    { refine (Qcle_lt_trans _ _ _ _ L). apply rnd_nonneg. unfold Qcdiv. rewrite Qcmult_1_l. apply Qclt_le_weak, qinv_pos, He. }
    assert (N : qnat mx <> 0) by (intro Z; rewrite Z in P; revert P; apply Qcle_not_lt, Qcle_refl).
    assert (near : forall x, 0 < x -> qf 3 4 * x <= R x /\ R x <= qf 5 4 * x).
    { intros x Px. specialize (Ru x). assert (Ex : qabs x = x) by (apply qabs_pos, Qclt_le_weak, Px). rewrite Ex in Ru.
      apply abs_le in Ru. destruct Ru as [R1 R2].
      assert (M : 0 <= (qf 1 4 - u) * x) by (apply qmult_nonneg; qlra).
      assert (E3 : qf 3 4 = 1 - qf 1 4) by (apply Qc_is_canon; reflexivity). assert (E5 : qf 5 4 = 1 + qf 1 4) by (apply Qc_is_canon; reflexivity). rewrite E3, E5.
      generalize dependent (qf 1 4). intros v. intros. split; qnra. }
    pose proof (qinv_pos _ P) as Pi. set (a := 1 / qnat mx). assert (Pa : 0 < a) by (unfold a, Qcdiv; rewrite Qcmult_1_l; exact Pi).
    destruct (near a Pa) as [A1 A2]. set (b := R a) in *.
    assert (Pb : 0 < b) by (refine (Qclt_le_trans _ _ _ _ A1); apply qmult_pos; [reflexivity | exact Pa]).
    assert (Eh : b / qz 2 = qf 1 2 * b) by (replace (qf 1 2) with (/ qz 2) by (apply Qc_is_canon; reflexivity); unfold Qcdiv; ring).
    assert (Ph : 0 < b / qz 2) by (rewrite Eh; apply qmult_pos; [reflexivity | exact Pb]).
    destruct (near (b / qz 2) Ph) as [B1 B2]. set (s := R (b / qz 2)) in *.
    assert (Ps : 0 < s) by (refine (Qclt_le_trans _ _ _ _ B1); apply qmult_pos; [reflexivity | exact Ph]).
    split; [exact Ps|]. apply len_ge. rewrite <- Hm at 1. apply rnd_mono.
    assert (S1 : s <= a).
    { rewrite Eh in B2. assert (B3 : s <= qf 25 32 * a).
      { refine (Qcle_trans _ _ _ B2 _). assert (M : 0 <= (qf 5 4 * a - b) * qf 5 8) by (apply qmult_nonneg; [qlra | discriminate]).
        replace (qf 5 4 * (qf 1 2 * b)) with (b * qf 5 8) by (replace (qf 5 8) with (qf 5 4 * qf 1 2) by (apply Qc_is_canon; reflexivity); ring).
        replace (qf 25 32 * a) with (qf 5 4 * a * qf 5 8) by (replace (qf 25 32) with (qf 5 4 * qf 5 8) by (apply Qc_is_canon; reflexivity); ring). 
        replace ((qf 5 4 * a - b) * qf 5 8) with (qf 5 4 * a * qf 5 8 - b * qf 5 8) in M by ring. qlra. }
      assert (M : 0 <= (1 - qf 25 32) * a) by (apply qmult_nonneg; [discriminate | apply Qclt_le_weak, Pa]).
      replace ((1 - qf 25 32) * a) with (a - qf 25 32 * a) in M by ring. qlra. }
    assert (Ns : s <> 0) by (intro Z; rewrite Z in Ps; revert Ps; apply Qcle_not_lt, Qcle_refl).
    destruct (qlt_spec (1 / s) (qnat mx)) as [K|K]; [|exact K]. exfalso.
    assert (X : 1 / s * s < qnat mx * s) by (apply Qcmult_lt_compat_r; assumption). replace (1 / s * s) with (1:Qc) in X by (field; exact Ns).
    assert (Y : qnat mx * s <= qnat mx * a).
    { assert (0 <= (a - s) * qnat mx) by (apply qmult_nonneg; [qlra | apply Qclt_le_weak, P]). qnra. }
    replace (qnat mx * a) with (1:Qc) in Y by (unfold a; field; exact N). qlra.
  Qed.

  (** *** Different points *)
  Lemma at_apart u eps i j : rel_error R u -> 0 < eps -> qnat i * eps <= 1 -> qnat j * eps <= 1 -> (i < j)%nat ->
    arange_at_r R eps i + (eps - (u + u)) <= arange_at_r R eps j.
  Proof.
    intros [U0 Ru] He Hi Hj L. unfold arange_at_r. pose proof (arange_nonneg eps i He) as Pi. pose proof (arange_nonneg eps j He) as Pj. unfold arange_at in Pi, Pj.
    assert (D : qnat i * eps + eps <= qnat j * eps).
    { assert (Q : qnat i + 1 <= qnat j).
      { replace (qnat i + 1) with (qnat (S i)). 2:{ unfold qnat. apply Qc_is_canon. rewrite this_plus, !this_qz. change (this 1) with (inject_Z 1). rewrite <- inject_Z_plus. replace (Z.of_nat (S i)) with (Z.of_nat i + 1)%Z by lia. reflexivity. }
        apply qnat_le. lia. }
      assert (0 <= (qnat j - (qnat i + 1)) * eps) by (apply qmult_nonneg; [qlra | apply Qclt_le_weak, He]). qnra. }
    assert (near : forall x, 0 <= x -> x <= 1 -> R x <= x + u /\ x - u <= R x).
    { intros x P0 P1. specialize (Ru x). rewrite (qabs_pos x P0) in Ru. apply abs_le in Ru. destruct Ru as [R1 R2].
      assert (0 <= u * (1 - x)) by (apply qmult_nonneg; qlra). split; qnra. }
    destruct (near _ Pi Hi) as [A _]. destruct (near _ Pj Hj) as [_ B]. qlra.
  Qed.
  Lemma price_apart u eps o i j : rel_error R u -> 0 < eps -> qnat i * eps <= 1 -> qnat j * eps <= 1 -> (i < j)%nat -> machine R 1 ->
    (u + u) * (qz 2 + qabs o) < eps -> R (arange_at_r R eps i + o) < R (arange_at_r R eps j + o).
  Proof.
    intros RE He Hi Hj L H1 S. pose proof (at_apart u eps i j RE He Hi Hj L) as D. destruct RE as [U0 Ru].
    assert (B : forall k, qnat k * eps <= 1 -> 0 <= arange_at_r R eps k /\ arange_at_r R eps k <= 1).
    { intros k Hk. unfold arange_at_r. split; [apply rnd_nonneg; exact (arange_nonneg eps k He) | rewrite <- H1; apply rnd_mono, Hk]. }
    destruct (B i Hi) as [I0 I1]. destruct (B j Hj) as [J0 J1].
    assert (near : forall x, 0 <= x -> x <= 1 -> R (x + o) <= x + o + u * (1 + qabs o) /\ x + o - u * (1 + qabs o) <= R (x + o)).
    { intros x P0 P1. specialize (Ru (x + o)). apply abs_le in Ru. destruct Ru as [R1 R2].
      assert (Q : qabs (x + o) <= 1 + qabs o) by (pose proof (tri x o) as T; rewrite (qabs_pos x P0) in T; qlra).
      assert (0 <= u * (1 + qabs o - qabs (x + o))) by (apply qmult_nonneg; qlra). split; qnra. }
    destruct (near _ I0 I1) as [A _]. destruct (near _ J0 J1) as [_ C].
    replace (qz 2) with (1 + 1) in S by (apply Qc_is_canon; reflexivity). generalize dependent (qabs o). intros v S _ A C. 
    replace ((u + u) * (1 + 1 + v)) with (u * (1 + v) + u * (1 + v) + (u + u)) in S by ring. set (w := u * (1 + v)) in *. qlra.
  Qed.
End Gen.
