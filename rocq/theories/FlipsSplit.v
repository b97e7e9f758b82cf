(** The chance that both sides of a table are split between the halves, and the draw of numpy. *)
From Verif Require Import QcTac Num ModelBase ListFacts AllocFacts MergeFacts SpecChance ChanceFacts SpecFlips FlipsFacts.

Lemma rand_share h : (0 < h)%nat ->
  mean (fun k => if qltb (qf 1 2) (num_of k / num_of (2 * h)) then 1 else 0) (seq 0 (2 * h)) = (num_of h - 1) / num_of (2 * h).
Proof.
  intro H. unfold mean. rewrite seq_length. f_equal. assert (P : 0 < num_of (2 * h)) by (apply num_of_pos; lia).
  rewrite (qsumf_ext _ (fun k => if Nat.ltb h k then 1 else 0)).
  - rewrite <- qsumf_filter, qsumf_const, count_above. replace (Nat.min (2 * h) (0 + 2 * h - Nat.max 0 (S h))) with (h - 1)%nat by lia.
    replace (num_of h) with (num_of (h - 1) + 1) by (rewrite <- num_of_1, <- num_of_add; f_equal; lia). ring.
  - intros k _. assert (E : qltb (qf 1 2) (num_of k / num_of (2 * h)) = Nat.ltb h k); [|rewrite E; reflexivity].
    assert (X : num_of h = qf 1 2 * num_of (2 * h)).
    { rewrite num_of_mul. replace (num_of 2) with (qz 2) by reflexivity. rewrite Qcmult_assoc. replace (qf 1 2 * qz 2) with (1 : Qc) by (apply Qc_is_canon; reflexivity). ring. }
    assert (Y : num_of k / num_of (2 * h) * num_of (2 * h) = num_of k) by (field; apply num_of_neq; lia).
    set (y := num_of k / num_of (2 * h)) in *.
    destruct (Nat.ltb_spec h k) as [L|L].
    + apply qltb_lt. assert (L2 : num_of h < num_of k) by (unfold num_of; apply (proj1 (qz_lt _ _)); lia). destruct (qlt_spec (qf 1 2) y) as [|G]; [assumption|].
      exfalso. pose proof (qmult_le_r (num_of (2 * h)) _ _ (Qclt_le_weak _ _ P) G). qlra.
    + apply qltb_ge. assert (L2 : num_of k <= num_of h) by (unfold num_of; apply (proj1 (qz_le _ _)); lia). destruct (qle_spec y (qf 1 2)) as [|G]; [assumption|].
      exfalso. pose proof (scale_lt (num_of (2 * h)) _ _ P G). qlra.
Qed.
Theorem rand_exact : mean (fun k => if qltb (qf 1 2) (num_of k / num_of (2 ^ 53)) then 1 else 0) (seq 0 (2 ^ 53)) = rand_half.
Proof.
  rewrite (Nat.pow_succ_r' 2 52). rewrite (rand_share (2 ^ 52)) by (apply Nat.neq_0_lt_0, Nat.pow_nonzero; discriminate).
  unfold rand_half. rewrite num_of_mul. unfold num_of at 1 3. rewrite Nat2Z.inj_pow. reflexivity.
Qed.

(** ** Products over the rows *)
Section Rows.
  Variable p : Qc.
  Definition over (g : row -> bool -> Qc) (d : df) (fl : list bool) : Qc := each (map g d) fl.
  Lemma expect_over g d : expect p (length d) (over g d) = qprod (map (fun r => p * g r true + (1 - p) * g r false) d).
  Proof. unfold over. rewrite <- (map_length g d), expect_each, map_map. reflexivity. Qed.
  Lemma over_mult g h d fl : over g d fl * over h d fl = over (fun r b => g r b * h r b) d fl.
  Proof.
    unfold over. revert fl. induction d as [|r d IH]; intro fl; [cbn [map each]; ring|]. destruct fl as [|b fl]; cbn [map each]; [ring|]. rewrite <- IH. ring.
  Qed.
  Lemma expect_indep g h d : (forall r, (forall b, g r b = 1) \/ (forall b, h r b = 1)) ->
    expect p (length d) (fun fl => over g d fl * over h d fl) = expect p (length d) (over g d) * expect p (length d) (over h d).
  Proof.
    intro H. rewrite (expect_ext _ _ _ (over (fun r b => g r b * h r b) d)) by (intros; apply over_mult). rewrite !expect_over.
    induction d as [|r d IH]; cbn [map qprod]; [ring|]. rewrite IH. destruct (H r) as [E|E]; rewrite !E; ring.
  Qed.
End Rows.

Definition none_left (sel : row -> bool) (r : row) (b : bool) : Qc := if sel r && b then 0 else 1.
Definition none_right (sel : row -> bool) (r : row) (b : bool) : Qc := if sel r && negb b then 0 else 1.
Lemma over_left sel d fl : length fl = length d -> (if existsb (fun x => sel (fst x) && snd x) (combine d fl) then 1 else 0) = 1 - over (none_left sel) d fl.
Proof.
  unfold over. revert fl. induction d as [|r d IH]; intros [|b fl] L; try discriminate; [cbn [combine existsb map each]; ring|].
  cbn [combine existsb map each fst snd]. unfold none_left at 1. destruct (sel r && b); cbn [orb]; [ring|]. rewrite IH by (cbn [length] in L; congruence). ring.
Qed.
Lemma over_right sel d fl : length fl = length d -> (if existsb (fun x => sel (fst x) && negb (snd x)) (combine d fl) then 1 else 0) = 1 - over (none_right sel) d fl.
Proof.
  unfold over. revert fl. induction d as [|r d IH]; intros [|b fl] L; try discriminate; [cbn [combine existsb map each]; ring|].
  cbn [combine existsb map each fst snd]. unfold none_right at 1. destruct (sel r && negb b); cbn [orb]; [ring|]. rewrite IH by (cbn [length] in L; congruence). ring.
Qed.
Definition none (sel : row -> bool) (d : df) : Qc := if existsb sel d then 0 else 1.
Lemma over_none sel d fl : length fl = length d -> over (none_left sel) d fl * over (none_right sel) d fl = none sel d.
Proof.
  unfold over, none. revert fl. induction d as [|r d IH]; intros [|b fl] L; try discriminate; [cbn [map each existsb]; ring|].
  specialize (IH fl ltac:(cbn [length] in L; congruence)). cbn [map each existsb]. unfold none_left at 1, none_right at 1. destruct (sel r), b; cbn [orb andb negb]; try ring; rewrite <- IH; ring.
Qed.
Lemma both_value sel d fl : length fl = length d -> (if on_both sel d fl then 1 else 0) = 1 + none sel d - over (none_left sel) d fl - over (none_right sel) d fl.
Proof.
  intro L. unfold on_both. rewrite <- (over_none sel d fl L). pose proof (over_left sel d fl L) as A. pose proof (over_right sel d fl L) as B.
  assert (X : (if existsb (fun x => sel (fst x) && snd x) (combine d fl) && existsb (fun x => sel (fst x) && negb (snd x)) (combine d fl) then 1 else 0) =
    (if existsb (fun x => sel (fst x) && snd x) (combine d fl) then 1 else 0) * (if existsb (fun x => sel (fst x) && negb (snd x)) (combine d fl) then 1 else 0)).
  { destruct (existsb _ _), (existsb _ _); cbn [andb]; ring. }
  rewrite X, A, B. ring.
Qed.
Lemma expect_none_left p sel d : expect p (length d) (over (none_left sel) d) = qpow (1 - p) (length (filter sel d)).
Proof.
  rewrite expect_over. induction d as [|r d IH]; [reflexivity|]. cbn [map qprod filter]. unfold none_left at 1 2. rewrite IH. destruct (sel r); cbn [andb length qpow]; ring.
Qed.
Lemma expect_none_right p sel d : expect p (length d) (over (none_right sel) d) = qpow p (length (filter sel d)).
Proof.
  rewrite expect_over. induction d as [|r d IH]; [reflexivity|]. cbn [map qprod filter]. unfold none_right at 1 2. rewrite IH. destruct (sel r); cbn [andb negb length qpow]; ring.
Qed.
Lemma mixed_value p sel d : mixed_chance p (length (filter sel d)) = 1 + none sel d - qpow (1 - p) (length (filter sel d)) - qpow p (length (filter sel d)).
Proof.
  assert (N : none sel d = match length (filter sel d) with O => 1 | _ => 0 end).
  { unfold none. induction d as [|r d IH]; [reflexivity|]. cbn [existsb filter]. destruct (sel r); cbn [orb length]; [reflexivity | exact IH]. }
  rewrite N. unfold mixed_chance. destruct (length (filter sel d)); cbn [qpow]; ring.
Qed.
Theorem both_chance p sel d : chance p (length d) (on_both sel d) = mixed_chance p (length (filter sel d)).
Proof.
  unfold chance. rewrite (expect_ext _ _ _ (fun fl => (1 + none sel d) + (- (1) * over (none_left sel) d fl + - (1) * over (none_right sel) d fl))).
  2: { intros fl L. rewrite both_value by exact L. ring. }
  rewrite !expect_plus, !expect_scale, !expect_const, expect_none_left, expect_none_right, mixed_value. ring.
Qed.
(** two disjoint groups of rows *)
Theorem both_both p s1 s2 d : (forall r, s1 r = true -> s2 r = true -> False) ->
  chance p (length d) (fun fl => on_both s1 d fl && on_both s2 d fl) = mixed_chance p (length (filter s1 d)) * mixed_chance p (length (filter s2 d)).
Proof.
  intro Dis. unfold chance.
  assert (I : forall g h, (g = none_left s1 \/ g = none_right s1) -> (h = none_left s2 \/ h = none_right s2) ->
    expect p (length d) (fun fl => over g d fl * over h d fl) = expect p (length d) (over g d) * expect p (length d) (over h d)).
  { intros g h Hg Hh. apply expect_indep. intro r. destruct (s1 r) eqn:E1; [right|left]; intro b.
    - destruct (s2 r) eqn:E2; [exfalso; apply (Dis r); assumption|]. destruct Hh as [->| ->]; unfold none_left, none_right; rewrite E2; reflexivity.
    - destruct Hg as [->| ->]; unfold none_left, none_right; rewrite E1; reflexivity. }
  rewrite (expect_ext _ _ _ (fun fl =>
    (1 + none s1 d) * (1 + none s2 d) +
    (((- (1 + none s1 d)) * over (none_left s2) d fl + (- (1 + none s1 d)) * over (none_right s2) d fl) +
    (((- (1 + none s2 d)) * over (none_left s1) d fl + (- (1 + none s2 d)) * over (none_right s1) d fl) +
    ((over (none_left s1) d fl * over (none_left s2) d fl + over (none_left s1) d fl * over (none_right s2) d fl) +
     (over (none_right s1) d fl * over (none_left s2) d fl + over (none_right s1) d fl * over (none_right s2) d fl)))))).
  2: { intros fl L. pose proof (both_value s1 d fl L) as A. pose proof (both_value s2 d fl L) as B.
       assert (X : (if on_both s1 d fl && on_both s2 d fl then 1 else 0) = (if on_both s1 d fl then 1 else 0) * (if on_both s2 d fl then 1 else 0)) by (destruct (on_both s1 d fl), (on_both s2 d fl); cbn [andb]; ring).
       rewrite X, A, B. ring. }
  rewrite !expect_plus, !expect_scale, !expect_const, !I by auto. rewrite !expect_none_left, !expect_none_right, !mixed_value. ring.
Qed.
