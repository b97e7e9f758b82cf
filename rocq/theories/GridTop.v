(** Dyadic data in double precision: the results are those of exact arithmetic. *)
From Verif Require Import QcTac Num NumFacts ModelBase ModelCurves ModelHuang ModelMuda ModelP2P ModelMarket ModelStats ModelUniform ModelRound ModelRoundStats ModelRoundUniform ModelFloat
  ListFacts MergeFacts Spec SpecRound Sorter RoundFacts RoundTop RoundWitness MudaWitness Conform SpecGrid GridFacts GridMuda GridP2P GridHuang GridStats.

Lemma half_p2 : qf 1 2 = p2 (-1).
Proof. apply Qc_is_canon. vm_compute. reflexivity. Qed.
Lemma half_free : f64 (qf 1 2) = qf 1 2.
Proof. apply Qc_is_canon. vm_compute. reflexivity. Qed.
Lemma free_below e B : B <= p2 (e + 53) -> no_error f64 (p2 e) B.
Proof. intro L. apply (no_error_less f64 (p2 e) (p2 (e + 53))); [apply f64_free | exact L]. Qed.

Lemma rel_all R u : rel_error R u -> rel_on R u (fun _ => True).
Proof. intros [H0 H]. split; [exact H0 | intros x _; apply H]. Qed.

Section Double.
  Variables (a b : Z) (T P : Qc) (A : adder f64) (S : sorter) (d : df).
  Hypothesis F : gridded (p2 a) (p2 b) T P d.
  Hypothesis P0 : 0 <= P.
  Theorem muda_double fl : labels_unique d -> T <= p2 (a + 53) -> P <= p2 (b + 51) -> P * T <= p2 (a + b + 51) -> muda_r f64 A S d fl = muda S d fl.
  Proof.
    intros Hu LT LP LPT. apply (muda_free (p2 a) (p2 b) T P f64 A); try assumption; [apply free_below, LT | | apply half_free|].
    - rewrite half_p2, <- p2_plus. apply free_below. replace (b + -1 + 53)%Z with (b + 51 + 1)%Z by lia. rewrite p2_succ. qlra.
    - rewrite half_p2, <- !p2_plus. apply free_below. replace (b + -1 + a + 53)%Z with (a + b + 51 + 1)%Z by lia. rewrite p2_succ. replace ((P + P) * T) with (P * T + P * T) by ring. qlra.
  Qed.
  Theorem uniform_double : T <= p2 (a + 53) -> P <= p2 (b + 51) -> uniform_run_r f64 A S d = uniform_run S d.
  Proof.
    intros LT LP. assert (E : uniform_price_mechanism_r f64 A S d = uniform_price_mechanism S d).
    { apply (uniform_free (p2 a) (p2 b) T P f64 A); try assumption; [apply free_below, LT | | apply half_free].
      rewrite half_p2, <- p2_plus. apply free_below. replace (b + -1 + 53)%Z with (b + 51 + 1)%Z by lia. rewrite p2_succ. qlra. }
    unfold uniform_run_r, uniform_run, mechanism, mech_run0. rewrite E. reflexivity.
  Qed.
  Theorem p2p_double e c r : (-53 <= e <= 0)%Z -> on_grid (p2 e) c -> 0 <= c -> c <= 1 -> labels_unique d -> T <= p2 (a + 53) -> P <= p2 (b + e + 53) ->
    p2p_random_r f64 A d c r = p2p_random d c r.
  Proof.
    intros He Gc C0 C1 Hu LT LP. assert (G1 : on_grid (p2 e) 1) by (exists (2 ^ (- e))%Z; rewrite <- (p2_nonneg_int (- e)) by lia; rewrite <- p2_plus; replace (- e + e)%Z with 0%Z by lia; symmetry; apply p2_0).
    assert (G : on_grid (p2 e) (1 - c)) by (apply grid_sub; assumption).
    apply (p2p_free (p2 a) (p2 b) (p2 e) T P); try assumption; [apply free_below, LT | rewrite <- p2_plus; apply free_below, LP|].
    apply (f64_free e); [exact G|]. rewrite qabs_pos by qlra. apply Qcle_trans with (p2 0); [rewrite p2_0; qlra | apply p2_le; lia].
  Qed.
  Theorem huang_double : T < p2 (a + 53) -> same_result (p2 (-53)) d (huang_auction_r f64 A S d) (huang_auction S d).
  Proof.
    intro LT. apply (huang_close (p2 a) (p2 b) T P (p2 (-53)) f64 A) with (Dom := fun _ => True) (n := length d); [apply p2_pos | apply free_below; qlra | apply rel_all, f64_rel | intros ? **; exact I | intros ? **; exact I | | lia | exact F].
    replace (p2 a) with (p2 (a + 53) * p2 (-53)) by (rewrite <- p2_plus; f_equal; lia). apply Qcmult_lt_compat_r; [apply p2_pos | exact LT].
  Qed.
  (** quantities that are multiples of a number that all numbers up to that of the bids divide *)
  Theorem huang_double_exact k : (0 < k)%Z -> (forall N, (0 < N <= length d)%nat -> (Z.of_nat N | k)%Z) -> (forall r, In r d -> on_grid (qz k * p2 a) (qty r)) -> T < p2 (a + 53) ->
    huang_auction_r f64 A S d = huang_auction S d.
  Proof.
    intros K Dv Gk LT. assert (Kq : 1 <= qz k) by (change 1 with (qz 1); apply (proj1 (qz_le _ _)); lia). pose proof (p2_pos a) as Pa.
    assert (Ne : no_error f64 (p2 a) T) by (apply free_below; qlra).
    assert (Ga : forall x, on_grid (qz k * p2 a) x -> on_grid (p2 a) x) by (intros x [z ->]; exists (z * k)%Z; rewrite qz_mult; ring).
    apply (huang_same (qz k * p2 a) (p2 b) T P (p2 (-53)) f64 A) with (Dom := fun _ => True) (n := length d) (g' := p2 a).
    - apply qmult_pos; [qlra | exact Pa].
    - intros x Gx L. apply Ne; [apply Ga, Gx | exact L].
    - apply rel_all, f64_rel.
    - intros ? **; exact I.
    - intros ? **; exact I.
    - apply Qclt_le_trans with (p2 a); [|rewrite <- (Qcmult_1_l (p2 a)) at 1; apply qmult_le_r; [qlra | exact Kq]].
      replace (p2 a) with (p2 (a + 53) * p2 (-53)) by (rewrite <- p2_plus; f_equal; lia). apply Qcmult_lt_compat_r; [apply p2_pos | exact LT].
    - lia.
    - exact Ne.
    - exists k. reflexivity.
    - intros N HN. destruct (Dv N HN) as [m Em]. exists m. rewrite Em, qz_mult. change (qz (Z.of_nat N)) with (qnat N).
      assert (0 < qnat N) by (apply UpdateFacts.qnat_pos; lia). field. intro Z. rewrite Z in H. qlra.
    - split; [|apply F]. intros r Hr. destruct (proj1 F r Hr) as (H1 & _ & H3 & H4). auto.
  Qed.
End Double.
Section DoubleStats.
  Variables (a b : Z) (T P F : Qc) (A G : adder f64) (d : df) (ts : list trans) (rp : option dict) (fees : option (list Qc)).
  Theorem profits_double : labels_unique d -> gridded_trades (p2 a) (p2 b) T P ts -> gridded_prices (p2 b) P (map price d) ->
    match rp with Some m => gridded_prices (p2 b) P (map snd m) | None => True end ->
    match fees with Some f => (forall x, In x f -> on_grid (p2 (a + b)) x) /\ qsumf qabs f <= F | None => True end ->
    0 <= P -> 0 <= F -> P <= p2 (b + 52) -> (P + P) * T + F <= p2 (a + b + 53) ->
    calculate_profits_r f64 A G d ts rp fees = calculate_profits d ts rp fees.
  Proof.
    intros Hu Ht Hd Hr Hf P0 F0 LP LB. assert (E : p2 b * p2 a = p2 (a + b)) by (rewrite <- p2_plus; f_equal; lia).
    apply (profits_free (p2 a) (p2 b) T P f64 A G d ts) with (F := F); try assumption; [rewrite E; exact Hf | | rewrite E; apply free_below, LB].
    apply free_below. replace (b + 53)%Z with (b + 52 + 1)%Z by lia. rewrite p2_succ. qlra.
  Qed.
  Theorem shares_double (A' : adder exact) obj : labels_unique d -> gridded_trades (p2 a) (p2 b) T P ts -> gridded_prices (p2 b) P (map price d) ->
    0 <= P -> P <= p2 (b + 52) -> (P + P) * T <= p2 (a + b + 53) -> T <= p2 (a + 52) ->
    percentage_welfare_r f64 A obj d ts = option_map f64 (percentage_welfare_r exact A' obj d ts) /\
    percentage_traded_r f64 A obj ts = option_map f64 (percentage_traded_r exact A' obj ts).
  Proof.
    intros Hu Ht Hd P0 LP LB LT. assert (E : p2 b * p2 a = p2 (a + b)) by (rewrite <- p2_plus; f_equal; lia).
    assert (N1 : no_error f64 (p2 b) (P + P)) by (apply free_below; replace (b + 53)%Z with (b + 52 + 1)%Z by lia; rewrite p2_succ; qlra).
    assert (N2 : no_error f64 (p2 b * p2 a) ((P + P) * T + 0)) by (rewrite E; apply free_below; qlra).
    split.
    - apply (welfare_free (p2 a) (p2 b) T P f64 A d ts) with (F := 0); try assumption. qlra.
    - apply (traded_free (p2 a) (p2 b) T P f64 A ts); [exact Ht|]. rewrite half_p2, <- p2_plus. apply free_below. replace (a + -1 + 53)%Z with (a + 52)%Z by lia. exact LT.
  Qed.
End DoubleStats.

(** whole numbers *)
Lemma abs_qz n : qabs (qz n) = qz (Z.abs n).
Proof.
  unfold qabs. destruct (qle_spec 0 (qz n)) as [H|H].
  - rewrite <- qz_0 in H. apply (proj2 (qz_le _ _)) in H. rewrite Z.abs_eq by lia. reflexivity.
  - rewrite <- qz_0 in H. apply (proj2 (qz_lt _ _)) in H. rewrite Z.abs_neq by lia. symmetry. apply qz_opp.
Qed.
Lemma whole_gridded T P d : whole_table T P d -> gridded (p2 0) (p2 0) (qz T) (qz P) d.
Proof.
  intros [H L]. split; [|exact L]. rewrite p2_0. intros r Hr. destruct (H r Hr) as [(m & M0 & ->) (n & Nn & ->)].
  split; [rewrite <- qz_0; apply (proj1 (qz_le _ _)), M0|]. split; [exists m; ring|]. split; [exists n; ring|]. rewrite abs_qz. apply (proj1 (qz_le _ _)), Nn.
Qed.
Lemma whole_p2 z e : (0 <= e)%Z -> (z <= 2 ^ e)%Z -> qz z <= p2 e.
Proof. intros E H. rewrite p2_nonneg_int by exact E. apply (proj1 (qz_le _ _)), H. Qed.
Theorem whole_double (A : adder f64) S d T P : labels_unique d -> whole_table T P d -> (0 <= P)%Z -> (T <= 2 ^ 52)%Z -> (P <= 2 ^ 51)%Z -> (P * T <= 2 ^ 51)%Z ->
  (forall fl, muda_r f64 A S d fl = muda S d fl) /\
  (forall r, p2p_random_r f64 A d (qf 1 2) r = p2p_random d (qf 1 2) r) /\
  uniform_run_r f64 A S d = uniform_run S d /\
  same_result (p2 (-53)) d (huang_auction_r f64 A S d) (huang_auction S d).
Proof.
  intros Hu W P0 LT LP LPT. pose proof (whole_gridded T P d W) as F.
  assert (P0' : 0 <= qz P) by (rewrite <- qz_0; apply (proj1 (qz_le _ _)), P0).
  assert (LT' : qz T < p2 (0 + 53)) by (apply Qcle_lt_trans with (p2 52); [apply whole_p2; lia | vm_compute; reflexivity]).
  assert (LP' : qz P <= p2 (0 + 51)) by (apply whole_p2; lia).
  split; [|split; [|split]].
  - intro fl. apply (muda_double 0 0 (qz T) (qz P)); try assumption; [qlra|]. rewrite <- qz_mult. apply whole_p2; lia.
  - intro r. apply (p2p_double 0 0 (qz T) (qz P) A d F P0' (-1)); try assumption; [lia | exists 1%Z; apply Qc_is_canon; vm_compute; reflexivity | vm_compute; discriminate | vm_compute; discriminate | qlra|].
    apply Qcle_trans with (p2 (0 + 51)); [exact LP' | apply p2_le; lia].
  - apply (uniform_double 0 0 (qz T) (qz P)); try assumption. qlra.
  - apply (huang_double 0 0 (qz T) (qz P)); assumption.
Qed.
(** the labels and the prices of the curves do not depend on the rounding at all *)
Lemma cumsum_len R l : length (cumsum_r R l) = length l.
Proof. unfold cumsum_r. generalize 0. induction l as [|x l IH]; intro a; cbn [cumsum_from_r length]; [reflexivity | rewrite IH; reflexivity]. Qed.
Lemma rows_r_prices R l : map snd (curve_rows_r R l) = map (fun r => Fin (price r)) l.
Proof.
  unfold curve_rows_r. assert (E : length (map Fin (cumsum_r R (map qty l))) = length (map (fun r => Fin (price r)) l)) by (rewrite !map_length, cumsum_len, map_length; reflexivity).
  revert E. generalize (map Fin (cumsum_r R (map qty l))) (map (fun r => Fin (price r)) l). induction l0 as [|x l0 IH]; intros [|y l1] E; try discriminate; [reflexivity|].
  cbn [combine map snd]. rewrite IH by (cbn in E; lia). reflexivity.
Qed.
Theorem curves_same R S d :
  snd (demand_curve_r R S d) = snd (demand_curve_from_bids S d) /\ snd (supply_curve_r R S d) = snd (supply_curve_from_bids S d) /\
  map snd (fst (demand_curve_r R S d)) = map snd (fst (demand_curve_from_bids S d)) /\ map snd (fst (supply_curve_r R S d)) = map snd (fst (supply_curve_from_bids S d)).
Proof.
  rewrite <- demand_exact, <- supply_exact. unfold demand_curve_r, supply_curve_r. cbn [fst snd]. rewrite !map_app, !rows_r_prices. auto.
Qed.
(** tenths: the buyer has [1.1 - 0.1] left after the first trade, which is rounded *)
Definition tenths : df := frame [B (tenth 11) (qz 5) 0; A (tenth 1) (qz 1) 1; A (tenth 11) (qz 2) 2].
Definition deals (r : res (transmgr * extra)) : list Q := match r with Ok (tm, _) => map (fun t => this (t_qty t)) (tm_trans tm) | Err _ => [] end.
Theorem tenths_differ : exists d (r : nat -> nat), labels_unique d /\ qty_nonneg d /\ price_nonneg d /\ machine_qty f64 d /\ machine_price f64 d /\
  p2p_random_r f64 NP d (qf 1 2) r <> p2p_random d (qf 1 2) r.
Proof.
  exists tenths, (fun _ => 0%nat). destruct (RoundWitness.good_ok tenths) as (G1 & G2 & G3 & G4); [vm_compute; reflexivity|].
  split; [MudaWitness.no_dup|]. repeat (split; [assumption|]). intro E. apply (f_equal deals) in E. vm_compute in E. discriminate.
Qed.
(** and the bound on the sizes is needed: whole numbers beyond it are rounded *)
Definition huge : df := frame [B (p2 53 + qz 2) (qz 5) 0; A (qz 1) (qz 1) 1; A (p2 53) (qz 2) 2; A (qz 8) (qz 3) 3].
Theorem huge_differ : exists d (r : nat -> nat) T P, labels_unique d /\ whole_table T P d /\ (T <= 2 ^ 55)%Z /\ (P <= 8)%Z /\ machine_qty f64 d /\ machine_price f64 d /\
  p2p_random_r f64 NP d (qf 1 2) r <> p2p_random d (qf 1 2) r.
Proof.
  exists huge, (fun _ => 0%nat), (2 ^ 55)%Z, 8%Z. destruct (RoundWitness.good_ok huge) as (G1 & G2 & G3 & G4); [vm_compute; reflexivity|].
  split; [MudaWitness.no_dup|]. split.
  { split; [|vm_compute; discriminate]. intros r Hr. repeat (destruct Hr as [<-|Hr]; [split|]); try destruct Hr.
    all: try (match goal with |- exists m, (0 <= m)%Z /\ qty ?x = _ => exists (Qnum (this (qty x))) end; split; [vm_compute; discriminate | apply Qc_is_canon; vm_compute; reflexivity]).
    all: match goal with |- exists n, _ /\ price ?x = _ => exists (Qnum (this (price x))) end; (split; [vm_compute; discriminate | apply Qc_is_canon; vm_compute; reflexivity]). }
  split; [lia|]. split; [lia|]. split; [exact G3|]. split; [exact G4|]. intro E. apply (f_equal deals) in E. vm_compute in E. discriminate.
Qed.
