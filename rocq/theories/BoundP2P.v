(** Peer to peer trading with bounded exponents: quantities never underflow or overflow. *)
From Verif Require Import QcTac Num NumFacts ModelMerge ModelBase ModelCurves ModelHuang ModelMuda ModelP2P ModelMarket ModelStats ModelUniform ModelRound ModelRoundStats ModelRoundUniform ModelFloat
  ListFacts MergeFacts Spec SpecRound Sorter P2PFacts RoundFacts RoundTop SpecGrid GridFacts GridMuda GridP2P GridHuang GridStats GridTop MudaWitness Conform ModelBounded SpecBounded BoundFacts.

Lemma zero_sum R l s : sums_to R l s -> (forall x, In x l -> x = 0) -> s = 0.
Proof.
  induction 1 as [|x|l1 l2 a b _ IH1 _ IH2|l l' s P _ IH]; intro H.
  - reflexivity.
  - apply H. left; reflexivity.
  - rewrite IH1, IH2 by (intros; apply H, in_or_app; auto). replace (0 + 0) with 0 by ring. apply rnd_zero.
  - apply IH. intros x Hx. apply H. apply (Permutation_in _ P), Hx.
Qed.
Lemma sum_positive R (A : adder R) l : (forall x, In x l -> 0 <= x /\ machine R x) -> qltb 0 (A l) = existsb (fun x => qltb 0 x) l.
Proof.
  intro H. destruct (existsb (fun x => qltb 0 x) l) eqn:E.
  - apply existsb_exists in E. destruct E as (x & I & L). apply qltb_lt in L. apply qltb_lt. pose proof (sums_ge R l (A l) (asum_ok R A l) H x I). qlra.
  - apply qltb_ge. rewrite (zero_sum R l (A l) (asum_ok R A l)); [qlra|]. intros x I. destruct (H x I) as [N _].
    destruct (qlt_spec 0 x) as [L|L]; [|qlra]. exfalso. assert (K : existsb (fun x => qltb 0 x) l = true) by (apply existsb_exists; exists x; split; [exact I | apply qltb_lt, L]). congruence.
Qed.

(** two roundings that agree on the differences of quantities and on the prices lead to the same trades *)
Section Agree.
  Variables (R1 R2 : rounding) (A1 : adder R1) (A2 : adder R2) (K : Qc -> Prop) (c : Qc) (prices : list Qc).
  Hypothesis K0 : K 0.
  Hypothesis Kok : forall x, K x -> 0 <= x /\ machine R1 x /\ machine R2 x.
  Hypothesis Ksub : forall x y, K x -> K y -> y <= x -> R1 (x - y) = R2 (x - y) /\ K (R1 (x - y)).
  Hypothesis Hp : forall i j, R1 (R1 (nth i prices 0 * c) + R1 (R1 (1 - c) * nth j prices 0)) = R2 (R2 (nth i prices 0 * c) + R2 (R2 (1 - c) * nth j prices 0)).
  Notation ok := (fun l : list Qc => forall x, In x l -> K x).
  Lemma ok_nth l i : ok l -> K (nth i l 0).
  Proof. intro H. destruct (nth_in_or_default i l 0) as [I| ->]; [apply H, I | exact K0]. Qed.
  Lemma ok_set l i v : ok l -> K v -> ok (set_nth i v l).
  Proof. intros H V x Hx. apply set_in in Hx. destruct Hx as [->|I]; [exact V | apply H, I]. Qed.
  Lemma pair_agree q tm p : ok q -> fst p <> snd p ->
    trade_pair_r R1 c prices (q, tm) p = trade_pair_r R2 c prices (q, tm) p /\ ok (fst (trade_pair_r R1 c prices (q, tm) p)).
  Proof.
    intros O Hne. destruct p as [b s]. cbn [fst snd] in Hne. unfold trade_pair_r.
    pose proof (ok_nth q b O) as Gb. pose proof (ok_nth q s O) as Gs.
    destruct (qleb (nth s prices 0) (nth b prices 0)); [|split; [reflexivity | exact O]]. cbv zeta. rewrite (Hp b s).
    set (m := qmin (nth b q 0) (nth s q 0)) in *. assert (M : m <= nth b q 0 /\ m <= nth s q 0 /\ K m) by (unfold m; destruct (qmin_case (nth b q 0) (nth s q 0)) as [[-> ?]|[-> ?]]; repeat split; try assumption; qlra).
    destruct M as (M1 & M2 & M3). rewrite !(nth_set_other b s) by exact Hne.
    destruct (Ksub _ _ Gb M3 M1) as [E1 F1]. destruct (Ksub _ _ Gs M3 M2) as [E2 F2]. rewrite <- E1, <- E2.
    split; [reflexivity|]. cbn [fst]. apply ok_set; [apply ok_set; [exact O | exact F1] | exact F2].
  Qed.
  Lemma fold_agree L : forall q tm, ok q -> (forall p, In p L -> fst p <> snd p) ->
    fold_left (trade_pair_r R1 c prices) L (q, tm) = fold_left (trade_pair_r R2 c prices) L (q, tm) /\ ok (fst (fold_left (trade_pair_r R1 c prices) L (q, tm))).
  Proof.
    induction L as [|p L IH]; intros q tm O H; cbn [fold_left]; [split; [reflexivity | exact O]|].
    destruct (pair_agree q tm p O (H p (or_introl eq_refl))) as [E F]. rewrite <- E. destruct (trade_pair_r R1 c prices (q, tm) p) as [q' tm']. cbn [fst] in F.
    apply IH; [exact F | intros; apply H; right; assumption].
  Qed.
  Lemma loop_agree d ps r fuel : (forall p, In p ps -> fst p <> snd p) -> forall k act tmp q tm gtl, ok q ->
    p2p_loop_r R1 A1 fuel d ps c prices r k act tmp q tm gtl = p2p_loop_r R2 A2 fuel d ps c prices r k act tmp q tm gtl.
  Proof.
    intros Hne. induction fuel as [|n IH]; intros k act tmp q tm gtl O; cbn [p2p_loop_r];
      rewrite (sum_positive R1 A1 q), (sum_positive R2 A2 q) by (intros x Hx; destruct (Kok x (O x Hx)) as (? & ? & ?); auto); [reflexivity|].
    destruct (_ && _); [|reflexivity]. destruct (pick_round _ _ _ _ _ _ _) as [[[L a'] k']|] eqn:Ep; [|reflexivity]. cbn [bind].
    destruct (fold_agree L q tm O) as [E F]; [intros p I; apply Hne; apply (pick_round_in _ _ _ _ _ _ _ _ _ _ Ep); [intros ? [] | exact I]|].
    rewrite <- E. destruct (fold_left (trade_pair_r R1 c prices) L (q, tm)) as [q' tm']. apply IH, F.
  Qed.
End Agree.
Theorem p2p_agree (A1 : adder binary64) (A2 : adder f64) d c r : labels_unique d -> qty_nonneg d -> machine_qty binary64 d ->
  (forall i j, let pb := nth i (map price d) 0 in let ps := nth j (map price d) 0 in
    binary64 (binary64 (pb * c) + binary64 (binary64 (1 - c) * ps)) = f64 (f64 (pb * c) + f64 (f64 (1 - c) * ps))) ->
  p2p_random_r binary64 A1 d c r = p2p_random_r f64 A2 d c r.
Proof.
  intros Hu Hq Hm Hp. unfold p2p_random_r. destruct (forallb _ _); [|reflexivity].
  rewrite (loop_agree binary64 f64 A1 A2 (fun x => 0 <= x /\ machine binary64 x) c (map price d)) with (d := d); [reflexivity | | | | exact Hp | intros; apply (pair_differs d); assumption|].
  - split; [apply Qcle_refl | apply machine_0].
  - intros x [H1 H2]. split; [exact H1|]. split; [exact H2 | apply b64_machine_f64, H2].
  - intros x y [X0 X] [Y0 Y] L. destruct (machine_grid x X) as [Gx Bx]. destruct (machine_grid y Y) as [Gy By]. split.
    + apply b64_agrees; [rewrite qabs_pos in Bx by exact X0; rewrite qabs_pos by qlra; qlra | right; apply grid_sub; assumption].
    + split; [apply rnd_nonneg; qlra | apply rnd_machine].
  - intros x Hx. apply in_map_iff in Hx. destruct Hx as (y & <- & Hy). split; [apply Hq, Hy | apply Hm, Hy].
Qed.
(** the mean of two prices that are zero or not very small *)
Lemma half_price x : machine binary64 x -> price_normal x -> 0 <= x /\ binary64 (x * qf 1 2) = f64 (x * qf 1 2) /\ x <= big /\ machine binary64 (x * qf 1 2) /\ 0 <= x * qf 1 2.
Proof.
  intros M [->|L].
  - rewrite Qcmult_0_l, !rnd_zero. pose proof big_pos. split; [apply Qcle_refl|]. split; [reflexivity|]. split; [qlra|]. split; [apply machine_0 | apply Qcle_refl].
  - pose proof (p2_pos (-1022)) as Pn. fold normal in Pn. assert (P : 0 <= x) by qlra. destruct (machine_grid x M) as [G B]. rewrite qabs_pos in B by exact P.
    assert (H2 : x * qf 1 2 + x * qf 1 2 = x) by (replace (x * qf 1 2 + x * qf 1 2) with (x * (qf 1 2 + qf 1 2)) by ring; replace (qf 1 2 + qf 1 2) with 1 by (apply Qc_is_canon; reflexivity); ring).
    set (h := x * qf 1 2) in *. assert (Hn : normal <= h) by qlra. assert (Ag : binary64 h = f64 h) by (apply b64_agrees; [rewrite qabs_pos by qlra; qlra | left; rewrite qabs_pos by qlra; exact Hn]).
    split; [exact P|]. split; [exact Ag|]. split; [exact B|]. split; [|qlra]. unfold machine. rewrite Ag. apply f64_half, b64_machine_f64, M.
Qed.
Lemma one_half : 1 - qf 1 2 = qf 1 2.
Proof. apply Qc_is_canon. reflexivity. Qed.
Theorem p2p_half (A1 : adder binary64) (A2 : adder f64) d r : labels_unique d -> qty_nonneg d -> machine_qty binary64 d -> machine_price binary64 d ->
  (forall x, In x d -> price_normal (price x)) -> p2p_random_r binary64 A1 d (qf 1 2) r = p2p_random_r f64 A2 d (qf 1 2) r.
Proof.
  intros Hu Hq Hm Hmp Hn. apply p2p_agree; try assumption. intros i j. cbv zeta.
  assert (Q : forall i, machine binary64 (nth i (map price d) 0) /\ price_normal (nth i (map price d) 0)).
  { intro k. destruct (nth_in_or_default k (map price d) 0) as [I| ->]; [|split; [apply machine_0 | left; reflexivity]].
    apply in_map_iff in I. destruct I as (y & <- & Hy). split; [apply Hmp, Hy | apply Hn, Hy]. }
  destruct (Q i) as [Mi Ni], (Q j) as [Mj Nj]. destruct (half_price _ Mi Ni) as (X0 & X1 & X2 & X3 & X4). destruct (half_price _ Mj Nj) as (Y0 & Y1 & Y2 & Y3 & Y4).
  set (x := nth i (map price d) 0) in *. set (y := nth j (map price d) 0) in *. clearbody x y.
  rewrite one_half, b64_half, half_free. rewrite (Qcmult_comm (qf 1 2) y). rewrite X3, Y3. rewrite <- X1, <- Y1, X3, Y3.
  apply b64_sums; [exact X3 | exact Y3|]. rewrite qabs_pos by qlra.
  assert (E : forall z, z * qf 1 2 + z * qf 1 2 = z) by (intro z; replace (z * qf 1 2 + z * qf 1 2) with (z * (qf 1 2 + qf 1 2)) by ring; replace (qf 1 2 + qf 1 2) with 1 by (apply Qc_is_canon; reflexivity); ring).
  pose proof (E x). pose proof (E y). set (hx := x * qf 1 2) in *. set (hy := y * qf 1 2) in *. clearbody hx hy. qlra.
Qed.
