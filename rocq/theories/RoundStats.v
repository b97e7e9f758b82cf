(** The statistics in rounded arithmetic: errors and signs. *)
From Verif Require Import QcTac Num ModelBase ModelMuda ModelStats ModelRound ModelRoundStats Spec SpecTrade SpecMuda SpecStats SpecRound SpecRoundStats
  ListFacts TradeFacts P2PTrades MudaHalf StatsFacts StatsTop RoundFacts RoundError.

(** ** Without rounding *)
Lemma player_profits_exact (G : adder exact) d ts val : player_profits_r exact G d ts val = player_profits d ts val.
Proof. unfold player_profits_r, player_profits. apply map_ext. intro u. rewrite asum_exact. reflexivity. Qed.
Lemma market_profit_exact (A : adder exact) d ts fees : market_profit_r exact A d ts fees = market_profit d ts fees.
Proof. unfold market_profit_r, market_profit. rewrite !asum_exact. reflexivity. Qed.
Lemma profits_r_ok R (A G : adder R) d ts rp fees p rp' : calculate_profits_r R A G d ts rp fees = (Ok p, rp') ->
  p = mkProfits (player_profits_r R G d ts price)
    (player_profits_r R G d ts (fun r => match dict_get (dict_fill (match rp with Some m => m | None => [] end) d) (lbl r) with Some v => v | None => price r end))
    (market_profit_r R A d ts (match fees with Some f => f | None => repeat 0 (length (uniqueZ (map user d))) end)).
Proof. unfold calculate_profits_r. cbv zeta. destruct (join ts d); [discriminate|]. intros [= <- _]. reflexivity. Qed.
Lemma profits_exact (A G : adder exact) d ts rp fees : calculate_profits_r exact A G d ts rp fees = calculate_profits d ts rp fees.
Proof. unfold calculate_profits_r, calculate_profits. rewrite !player_profits_exact, market_profit_exact. reflexivity. Qed.
Lemma traded_exact (A : adder exact) sv d ts obj vs : maximum_traded_volume sv d = Ok (Some (obj, vs)) ->
  percentage_traded sv d ts = Ok (percentage_traded_r exact A obj ts).
Proof.
  intro E. unfold percentage_traded. rewrite E. cbn [bind ratio]. unfold percentage_traded_r, ratio_r. rewrite asum_exact.
  destruct (qltb 0 obj); reflexivity.
Qed.
Lemma welfare_exact (A : adder exact) sv d ts rp obj vs m : maximum_aggregated_utility sv d None = Ok (Some (obj, vs), m) ->
  percentage_welfare sv d ts rp = Ok (percentage_welfare_r exact A obj d ts).
Proof.
  intro E. unfold percentage_welfare. rewrite E. cbn [bind ratio]. unfold percentage_welfare_r, ratio_r. rewrite !asum_exact.
  destruct (qltb 0 obj); reflexivity.
Qed.

(** ** Absolute values *)
Lemma qabs_mult a b : qabs (a * b) = qabs a * qabs b.
Proof.
  destruct (Qclt_le_dec a 0) as [La|La]; destruct (Qclt_le_dec b 0) as [Lb|Lb].
  - rewrite (qabs_neg a), (qabs_neg b) by qlra. rewrite qabs_pos; [ring|].
    replace (a * b) with ((- a) * (- b)) by ring. apply qmult_nonneg; qlra.
  - rewrite (qabs_neg a), (qabs_pos b) by qlra. rewrite qabs_neg; [ring|].
    assert (0 <= (- a) * b) by (apply qmult_nonneg; qlra). replace (a * b) with (- ((- a) * b)) by ring. qlra.
  - rewrite (qabs_pos a), (qabs_neg b) by qlra. rewrite qabs_neg; [ring|].
    assert (0 <= a * (- b)) by (apply qmult_nonneg; qlra). replace (a * b) with (- (a * (- b))) by ring. qlra.
  - rewrite !qabs_pos by (try apply qmult_nonneg; assumption). reflexivity.
Qed.
Lemma qabs_opp a : qabs (- a) = qabs a.
Proof. unfold qabs. destruct (qle_spec 0 (- a)), (qle_spec 0 a); qlra. Qed.
Lemma near_qabs x y e : near x y e -> qabs x <= qabs y + e.
Proof. intros [H1 H2]. unfold qabs. destruct (qle_spec 0 x), (qle_spec 0 y); qlra. Qed.
Lemma qabs_plus a b : qabs (a + b) <= qabs a + qabs b.
Proof. unfold qabs. destruct (qle_spec 0 (a + b)), (qle_spec 0 a), (qle_spec 0 b); qlra. Qed.
Lemma qabs_minus a b : qabs (a - b) <= qabs a + qabs b.
Proof. unfold qabs. destruct (qle_spec 0 (a - b)), (qle_spec 0 a), (qle_spec 0 b); qlra. Qed.
Lemma qabs_sum {X} (f : X -> Qc) l : qabs (qsumf f l) <= qsumf (fun x => qabs (f x)) l.
Proof.
  induction l as [|x l IH]; [rewrite !qsumf_nil; unfold qabs; destruct (qle_spec 0 0); qlra|]. rewrite !qsumf_cons.
  pose proof (qabs_plus (f x) (qsumf f l)). qlra.
Qed.
Lemma qsumf_qsum {X} (f : X -> Qc) l : qsumf f l = qsum (map f l).
Proof. reflexivity. Qed.

Lemma qabs_sum' (l : list Qc) : qabs (qsum l) <= qsumf qabs l.
Proof. pose proof (qabs_sum (fun x => x) l) as H. rewrite (qsumf_qsum (fun x => x)), map_id in H. exact H. Qed.
Lemma qabs_sums (l1 l2 : list Qc) : qabs (qsum l1 + qsum l2) <= qsumf qabs l1 + qsumf qabs l2.
Proof. pose proof (qabs_plus (qsum l1) (qsum l2)). pose proof (qabs_sum' l1). pose proof (qabs_sum' l2). qlra. Qed.

Section Err.
  Variables (R : rounding) (u : Qc).
  Hypothesis Hrel : rel_error R u.
  Notation B n := ((1 + u) ^ n).
  Notation aabs l := (qsumf qabs l).

  Lemma aabs_nonneg (l : list Qc) : 0 <= aabs l.
  Proof. apply qsumf_nonneg. intros. apply qabs_nonneg. Qed.
  (** the sum of machine numbers of any sign *)
  Lemma sums_signed l s : sums_to R l s -> (forall x, In x l -> machine R x) ->
    near s (qsum l) ((B (length l - 1) - 1) * aabs l).
  Proof.
    pose proof (u_nonneg R u Hrel) as U.
    induction 1 as [|x|l1 l2 a b S1 IH1 S2 IH2|l l' s P _ IH]; intro H.
    - change (near 0 0 ((1 - 1) * 0)). rewrite Qcmult_0_r. split; qlra.
    - change (near x (x + 0) ((1 - 1) * (qabs x + 0))). replace ((1 - 1) * (qabs x + 0)) with 0 by ring. split; qlra.
    - assert (H1 : forall x, In x l1 -> machine R x) by (intros; apply H, in_or_app; left; assumption).
      assert (H2 : forall x, In x l2 -> machine R x) by (intros; apply H, in_or_app; right; assumption).
      specialize (IH1 H1). specialize (IH2 H2).
      assert (Ma : machine R a) by (apply (sums_machine R _ _ S1); intros; apply H1; assumption).
      assert (Mb : machine R b) by (apply (sums_machine R _ _ S2); intros; apply H2; assumption).
      rewrite qsum_app, qsumf_app.
      destruct l1 as [|x1 l1].
      { assert (Ea : a = 0) by (apply (sums_zero R _ _ S1); intros ? []). subst a. simpl app. rewrite qsumf_nil.
        replace (0 + b) with b by ring. rewrite Mb. replace (qsum [] + qsum l2) with (qsum l2) by (simpl; ring).
        replace (0 + aabs l2) with (aabs l2) by ring. exact IH2. }
      destruct l2 as [|x2 l2].
      { assert (Eb : b = 0) by (apply (sums_zero R _ _ S2); intros ? []). subst b. rewrite app_nil_r, (qsumf_nil qabs).
        replace (a + 0) with a by ring. rewrite Ma. replace (qsum (x1 :: l1) + qsum []) with (qsum (x1 :: l1)) by (simpl; ring).
        replace (aabs (x1 :: l1) + 0) with (aabs (x1 :: l1)) by ring. exact IH1. }
      set (m1 := x1 :: l1) in *. set (m2 := x2 :: l2) in *.
      pose proof (aabs_nonneg m1) as Q1. pose proof (aabs_nonneg m2) as Q2.
      set (k := (length m1 + length m2 - 2)%nat).
      assert (L1 : (length m1 - 1 <= k)%nat) by (unfold k, m1, m2; simpl; lia).
      assert (L2 : (length m2 - 1 <= k)%nat) by (unfold k, m1, m2; simpl; lia).
      assert (E1 : (B (length m1 - 1) - 1) * aabs m1 <= (B k - 1) * aabs m1) by (apply qmult_le_r; [exact Q1|]; pose proof (B_mono R u Hrel _ _ L1); qlra).
      assert (E2 : (B (length m2 - 1) - 1) * aabs m2 <= (B k - 1) * aabs m2) by (apply qmult_le_r; [exact Q2|]; pose proof (B_mono R u Hrel _ _ L2); qlra).
      pose proof (near_plus _ _ _ _ _ _ IH1 IH2) as N. set (W := aabs m1 + aabs m2) in *.
      assert (N' : near (a + b) (qsum m1 + qsum m2) ((B k - 1) * W)).
      { apply (near_weaken _ _ _ _ N). replace ((B k - 1) * W) with ((B k - 1) * aabs m1 + (B k - 1) * aabs m2) by (unfold W; ring). qlra. }
      pose proof (near_trans _ _ _ _ _ (rnd_near R u Hrel (a + b)) N') as N2. apply (near_weaken _ _ _ _ N2).
      replace (length (m1 ++ m2) - 1)%nat with (Datatypes.S k) by (rewrite app_length; unfold k, m1, m2; simpl; lia).
      rewrite B_S.
      assert (P : u * qabs (a + b) <= u * (B k * W)).
      { apply qmult_le_l; [exact U|]. pose proof (near_qabs _ _ _ N') as N3.
        assert (N4 : qabs (qsum m1 + qsum m2) <= W).
        { exact (qabs_sums m1 m2). }
        replace (B k * W) with (W + (B k - 1) * W) by ring. qlra. }
      replace (((1 + u) * B k - 1) * W) with ((B k - 1) * W + u * (B k * W)) by ring. qlra.
    - rewrite <- (Permutation_length P), <- (qsum_perm _ _ P), <- (qsumf_perm qabs _ _ P). apply IH.
      intros x Hx. apply H. apply (Permutation_in _ P), Hx.
  Qed.

  Lemma B_plus n m : B (n + m) = B n * B m.
  Proof. induction n as [|n IH]; [rewrite Nat.add_0_l; change (B 0) with 1; ring|]. rewrite Nat.add_succ_l, !B_S, IH. ring. Qed.
  (** the sum of computed terms *)
  Lemma terms_near {X} (A : adder R) (f g : X -> Qc) k L :
    (forall x, In x L -> machine R (g x) /\ near (g x) (f x) ((B k - 1) * qabs (f x))) ->
    near (A (map g L)) (qsumf f L) ((B (k + (length L - 1)) - 1) * qsumf (fun x => qabs (f x)) L).
  Proof.
    intro H. pose proof (sums_signed _ _ (asum_ok R A (map g L))) as N.
    assert (Hm : forall x, In x (map g L) -> machine R x) by (intros x Hx; apply in_map_iff in Hx; destruct Hx as (y & <- & Hy); apply H, Hy).
    specialize (N Hm). rewrite map_length in N. set (n := (length L - 1)%nat) in *. set (F := qsumf (fun x => qabs (f x)) L).
    assert (N1 : near (qsum (map g L)) (qsumf f L) ((B k - 1) * F)).
    { unfold F. rewrite <- qsumf_scale, <- qsumf_qsum. clear N Hm n F. induction L as [|x L IH]; [split; rewrite !qsumf_nil; qlra|]. rewrite !qsumf_cons.
      apply near_plus; [apply H; left; reflexivity | apply IH; intros y Hy; apply H; right; exact Hy]. }
    assert (N2 : aabs (map g L) <= B k * F).
    { unfold F. rewrite <- qsumf_scale, qsumf_map. apply qsumf_le. intros x Hx. destruct (H x Hx) as [_ Nx]. apply near_qabs in Nx.
      replace (B k * qabs (f x)) with (qabs (f x) + (B k - 1) * qabs (f x)) by ring. exact Nx. }
    pose proof (near_trans _ _ _ _ _ N N1) as N3. apply (near_weaken _ _ _ _ N3). rewrite B_plus.
    pose proof (B_ge1 R u Hrel n) as G. assert (P : (B n - 1) * aabs (map g L) <= (B n - 1) * (B k * F)) by (apply qmult_le_l; [qlra | exact N2]).
    replace ((B k * B n - 1) * F) with ((B n - 1) * (B k * F) + (B k - 1) * F) by ring. qlra.
  Qed.
  (** one more rounding *)
  Lemma rnd_more x y k F : near x y ((B k - 1) * F) -> qabs y <= F -> near (R x) y ((B (Datatypes.S k) - 1) * F).
  Proof.
    intros N L. pose proof (u_nonneg R u Hrel) as U. apply (near_weaken _ _ _ _ (near_trans _ _ _ _ _ (rnd_near R u Hrel x) N)). rewrite B_S.
    assert (P : u * qabs x <= u * (B k * F)).
    { apply qmult_le_l; [exact U|]. apply near_qabs in N. replace (B k * F) with (F + (B k - 1) * F) by ring. qlra. }
    replace (((1 + u) * B k - 1) * F) with (u * (B k * F) + (B k - 1) * F) by ring. qlra.
  Qed.
  Lemma near_scale x y e c : near x y e -> near (x * c) (y * c) (e * qabs c).
  Proof.
    intros [H1 H2]. unfold qabs. destruct (qle_spec 0 c) as [C|C].
    - pose proof (qmult_le_r c x (y + e) C H1) as P1. pose proof (qmult_le_r c y (x + e) C H2) as P2.
      replace ((y + e) * c) with (y * c + e * c) in P1 by ring. replace ((x + e) * c) with (x * c + e * c) in P2 by ring. split; assumption.
    - assert (C' : 0 <= - c) by qlra. pose proof (qmult_le_r (- c) x (y + e) C' H1) as P1. pose proof (qmult_le_r (- c) y (x + e) C' H2) as P2.
      replace ((y + e) * - c) with (- (y * c) + e * - c) in P1 by ring. replace ((x + e) * - c) with (- (x * c) + e * - c) in P2 by ring.
      replace (x * - c) with (- (x * c)) in P1 by ring. replace (y * - c) with (- (y * c)) in P2 by ring.
      generalize dependent (e * - c). intros. split; qlra.
  Qed.
  Lemma B_more n m F : 0 <= F -> (n <= m)%nat -> (B n - 1) * F <= (B m - 1) * F.
  Proof. intros HF L. apply qmult_le_r; [exact HF|]. pose proof (B_mono R u Hrel _ _ L). qlra. Qed.
  Lemma product_near x y : near (R (x * y)) (x * y) ((B 1 - 1) * qabs (x * y)).
  Proof. replace (B 1 - 1) with u by (change (B 1) with ((1 + u) * 1); ring). apply (rnd_near R u Hrel). Qed.
  Lemma gap_near p v q (buys : bool) : let g := (if buys then v - p else p - v) in
    near (get_gain_r R p v buys q) (g * q) ((B 2 - 1) * qabs (g * q)).
  Proof.
    cbv zeta. set (g := if buys then v - p else p - v). unfold get_gain_r.
    assert (E : (if buys then R (v - p) else - R (v - p)) = R g).
    { unfold g. destruct buys; [reflexivity|]. rewrite <- rnd_opp. f_equal. ring. }
    rewrite E. apply (rnd_more _ _ 1); [|qlra]. rewrite qabs_mult, Qcmult_assoc. apply near_scale.
    replace (B 1 - 1) with u by (change (B 1) with ((1 + u) * 1); ring). apply (rnd_near R u Hrel).
  Qed.
End Err.
