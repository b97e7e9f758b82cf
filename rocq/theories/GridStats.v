(** The statistics on transactions on which a rounding makes no error. *)
From Verif Require Import QcTac Num NumFacts ModelBase ModelCurves ModelHuang ModelMuda ModelP2P ModelMarket ModelStats ModelRound ModelRoundStats ListFacts MergeFacts Spec
  RoundFacts RoundFeeHalf RoundStatsTop SpecGrid GridFacts.

Lemma own_row d i : labels_unique d -> (length (filter (fun r => Nat.eqb (lbl r) i) d) <= 1)%nat.
Proof.
  unfold labels_unique. induction d as [|x d IH]; intro H; cbn [filter length]; [lia|]. cbn [map] in H. inversion H as [|? ? N D]; subst.
  destruct (Nat.eqb_spec (lbl x) i) as [<-|]; [|apply IH, D]. rewrite filter_none; [cbn; lia|]. intros y Hy. apply Nat.eqb_neq. intro E. apply N. rewrite <- E. apply in_map, Hy.
Qed.
Lemma join_qty ts d : labels_unique d -> (forall t, In t ts -> 0 <= t_qty t) -> qsumf (fun tr => t_qty (fst tr)) (join ts d) <= qsumf t_qty ts.
Proof.
  intro Hu. induction ts as [|t ts IH]; intro H; [apply Qcle_refl|]. unfold join. cbn [flat_map]. fold (join ts d). rewrite qsumf_app, qsumf_cons.
  assert (IH' := IH ltac:(intros; apply H; right; assumption)). pose proof (H t (or_introl eq_refl)) as T0. pose proof (own_row d (t_bid t) Hu) as L.
  destruct (filter _ d) as [|a [|b l]]; cbn [map]; [rewrite qsumf_nil; qlra | rewrite qsumf_cons, qsumf_nil; cbn [fst]; qlra | cbn [length] in L; lia].
Qed.
Lemma qsumf_part {X} (f : X -> Qc) (p : X -> bool) l : (forall x, In x l -> 0 <= f x) -> qsumf f (filter p l) <= qsumf f l.
Proof.
  induction l as [|x l IH]; intro H; [apply Qcle_refl|]. cbn [filter]. assert (I := IH ltac:(intros; apply H; right; assumption)). pose proof (H x (or_introl eq_refl)).
  destruct (p x); rewrite !qsumf_cons; qlra.
Qed.
Lemma fill_in l : forall m i v, dict_get (dict_fill m l) i = Some v -> In v (map snd m) \/ In v (map price l).
Proof.
  assert (GI : forall (m : dict) i v, dict_get m i = Some v -> In v (map snd m)).
  { induction m as [|[j w] m IH]; intros i v E; [discriminate|]. cbn [dict_get] in E. cbn [map snd]. destruct (Nat.eqb j i); [left; congruence | right; apply (IH _ _ E)]. }
  unfold dict_fill. induction l as [|r l IH]; intros m i v E; cbn [fold_left map] in *; [left; apply (GI _ _ _ E)|].
  destruct (dict_get m (lbl r)) eqn:Eg; [destruct (IH _ _ _ E); [auto | right; right; assumption]|]. destruct (IH _ _ _ E) as [I|I]; [|right; right; exact I].
  rewrite map_app in I. apply in_app_or in I. destruct I as [I|[<-|[]]]; [auto | right; left; reflexivity].
Qed.

Section Stats.
  Variables (gq gp T P : Qc) (R : rounding) (A G : adder R) (d : df) (ts : list trans).
  Hypothesis Hu : labels_unique d.
  Hypothesis Ht : gridded_trades gq gp T P ts.
  Hypothesis P0 : 0 <= P.
  Lemma T_nonneg : 0 <= T.
  Proof. destruct Ht as [H L]. assert (0 <= qsumf t_qty ts) by (apply qsumf_nonneg; intros; apply H; assumption). qlra. Qed.
  Lemma part_qty p : qsumf (fun tr => t_qty (fst tr)) (filter p (join ts d)) <= T.
  Proof.
    destruct Ht as [H L]. pose proof (join_qty ts d Hu ltac:(intros t I; apply H, I)). pose proof (qsumf_part (fun tr => t_qty (fst tr)) p (join ts d)) as K.
    assert (forall x, In x (join ts d) -> 0 <= t_qty (fst x)) by (intros [t r] I; apply join_in in I; apply H, I). specialize (K H1). qlra.
  Qed.
  (** sums of products of prices (up to [M]) and quantities *)
  Lemma products M (f : trans * row -> Qc) p B (D : adder R) : 0 <= M -> no_error R (gp * gq) B -> M * T <= B ->
    (forall tr, In tr (join ts d) -> on_grid gp (f tr) /\ qabs (f tr) <= M) ->
    D (map (fun tr => R (f tr * t_qty (fst tr))) (filter p (join ts d))) = qsum (map (fun tr => f tr * t_qty (fst tr)) (filter p (join ts d))) /\
    on_grid (gp * gq) (qsum (map (fun tr => f tr * t_qty (fst tr)) (filter p (join ts d)))) /\
    qabs (qsum (map (fun tr => f tr * t_qty (fst tr)) (filter p (join ts d)))) <= M * qsumf (fun tr => t_qty (fst tr)) (filter p (join ts d)).
  Proof.
    intros M0 N MB H. set (L := filter p (join ts d)).
    assert (HL : forall tr, In tr L -> on_grid gp (f tr) /\ qabs (f tr) <= M /\ 0 <= t_qty (fst tr) /\ on_grid gq (t_qty (fst tr)) /\ t_qty (fst tr) <= T).
    { intros tr I. pose proof (part_qty p) as K. fold L in K. assert (Q0 : forall x, In x L -> 0 <= t_qty (fst x)).
      { intros [t r] J. apply filter_In in J. destruct J as [J _]. apply join_in in J. apply (proj1 Ht), J. }
      pose proof (qsumf_in_le (fun tr => t_qty (fst tr)) L tr Q0 I). apply filter_In in I. destruct I as [I _]. destruct (H tr I). destruct tr as [t r]. apply join_in in I. destruct (proj1 Ht t (proj1 I)) as (? & ? & _). cbn [fst] in *. repeat split; auto. qlra. }
    assert (B1 : forall tr, In tr L -> qabs (f tr * t_qty (fst tr)) <= M * t_qty (fst tr)).
    { intros tr I. destruct (HL tr I) as (_ & X2 & X3 & _). rewrite qabs_scale by exact X3. apply qmult_le_r; assumption. }
    assert (E : map (fun tr => R (f tr * t_qty (fst tr))) L = map (fun tr => f tr * t_qty (fst tr)) L).
    { apply map_ext_in. intros tr I. destruct (HL tr I) as (X1 & _ & X3 & X4 & X5). apply N; [apply grid_mul; assumption|]. pose proof (B1 tr I). pose proof (qmult_le_l M _ _ M0 X5). qlra. }
    rewrite E. assert (S1 : qsumf qabs (map (fun tr => f tr * t_qty (fst tr)) L) <= M * qsumf (fun tr => t_qty (fst tr)) L).
    { rewrite qsumf_map. rewrite <- qsumf_scale. apply qsumf_le. exact B1. }
    assert (G1 : forall x, In x (map (fun tr => f tr * t_qty (fst tr)) L) -> on_grid (gp * gq) x).
    { intros x I. apply in_map_iff in I. destruct I as (tr & <- & I). destruct (HL tr I) as (X1 & _ & _ & X4 & _). apply grid_mul; assumption. }
    pose proof (qmult_le_l M _ _ M0 (part_qty p)) as K. fold L in K.
    split; [apply (asum_free R (gp * gq) B N); [exact G1 | qlra]|]. split; [apply grid_sum, G1|].
    pose proof (abs_sum (map (fun tr => f tr * t_qty (fst tr)) L)). qlra.
  Qed.
  Hypothesis Hd : gridded_prices gp P (map price d).
  Variables (F : Qc) (rp : option dict) (fees : option (list Qc)).
  Hypothesis Hr : match rp with Some m => gridded_prices gp P (map snd m) | None => True end.
  Hypothesis F0 : 0 <= F.
  Hypothesis Hf : match fees with Some f => (forall x, In x f -> on_grid (gp * gq) x) /\ qsumf qabs f <= F | None => True end.
  Hypothesis Np : no_error R gp (P + P).
  Hypothesis Npq : no_error R (gp * gq) ((P + P) * T + F).
  Lemma big : 0 <= P * T /\ (P + P) * T = P * T + P * T.
  Proof. pose proof T_nonneg. split; [apply qmult_nonneg; assumption | ring]. Qed.
  Lemma trade_price t r : In (t, r) (join ts d) -> on_grid gp (t_price t) /\ qabs (t_price t) <= P /\ on_grid gp (price r) /\ qabs (price r) <= P.
  Proof. intro I. apply join_in in I. destruct I as (I1 & I2 & _). destruct (proj1 Ht t I1) as (_ & _ & ? & ?). destruct (Hd (price r) (in_map _ _ _ I2)). auto. Qed.
  Lemma abs_opp x : qabs (- x) = qabs x.
  Proof. unfold qabs. destruct (qle_spec 0 x), (qle_spec 0 (- x)); qlra. Qed.
  Lemma players_free val : (forall r, In r d -> on_grid gp (val r) /\ qabs (val r) <= P) -> player_profits_r R G d ts val = player_profits d ts val.
  Proof.
    intro Hv. unfold player_profits_r, player_profits. apply map_ext. intro u. unfold get_gain_r, get_gain.
    assert (V : forall tr, In tr (join ts d) -> on_grid gp (val (snd tr) - t_price (fst tr)) /\ qabs (val (snd tr) - t_price (fst tr)) <= P + P).
    { intros [t r] I. destruct (trade_price t r I) as (X1 & X2 & _). apply join_in in I. destruct (Hv r (proj1 (proj2 I))) as [Y1 Y2]. cbn [fst snd].
      split; [apply grid_sub; assumption|]. unfold Qcminus. pose proof (qabs_add (val r) (- t_price t)). rewrite abs_opp in H. qlra. }
    set (f := fun tr : trans * row => if buying (snd tr) then val (snd tr) - t_price (fst tr) else - (val (snd tr) - t_price (fst tr))).
    destruct (products (P + P) f (fun tr => Z.eqb (user (snd tr)) u) ((P + P) * T + F) G) as (E & _); [qlra | exact Npq | qlra | |].
    { intros tr I. destruct (V tr I). unfold f. destruct (buying (snd tr)); [auto | split; [apply grid_opp; assumption | rewrite abs_opp; assumption]]. }
    refine (eq_trans _ E). f_equal. apply map_ext_in. intros tr I. apply filter_In in I. destruct I as [I _]. destruct (V tr I) as [V1 V2]. unfold f. rewrite (Np _ V1 V2). reflexivity.
  Qed.
  Definition fee_list : list Qc := match fees with Some f => f | None => repeat 0 (length (uniqueZ (map user d))) end.
  Lemma fees_ok : (forall x, In x fee_list -> on_grid (gp * gq) x) /\ qsumf qabs fee_list <= F.
  Proof.
    unfold fee_list. destruct fees as [f|]; [exact Hf|]. assert (Z : forall n, (forall x, In x (repeat 0 n) -> on_grid (gp * gq) x) /\ qsumf qabs (repeat 0 n) = 0).
    { intro n. split; [intros x I; apply repeat_spec in I; subst x; apply grid_0|]. induction n as [|n IH]; [reflexivity|]. cbn [repeat]. rewrite qsumf_cons, IH. apply Qc_is_canon. reflexivity. }
    destruct (Z (length (uniqueZ (map user d)))) as [Z1 Z2]. split; [exact Z1 | rewrite Z2; exact F0].
  Qed.
  Lemma market_free : market_profit_r R A d ts fee_list = market_profit d ts fee_list.
  Proof.
    unfold market_profit_r, market_profit. destruct big as [B0 B1]. pose proof T_nonneg as T0.
    assert (V : forall tr, In tr (join ts d) -> on_grid gp (t_price (fst tr)) /\ qabs (t_price (fst tr)) <= P) by (intros [t r] I; destruct (trade_price t r I) as (X1 & X2 & _); auto).
    destruct (products P (fun tr => t_price (fst tr)) (fun tr => buying (snd tr)) ((P + P) * T + F) A) as (E1 & G1 & L1); [exact P0 | exact Npq | qlra | exact V|].
    destruct (products P (fun tr => t_price (fst tr)) (fun tr => negb (buying (snd tr))) ((P + P) * T + F) A) as (E2 & G2 & L2); [exact P0 | exact Npq | qlra | exact V|].
    cbv beta in E1, E2. rewrite E1, E2. clear E1 E2. cbv beta in G1, G2, L1, L2.
    pose proof (qmult_le_l P _ _ P0 (part_qty (fun tr => buying (snd tr)))) as K1. pose proof (qmult_le_l P _ _ P0 (part_qty (fun tr => negb (buying (snd tr))))) as K2.
    set (X := qsum (map (fun tr => t_price (fst tr) * t_qty (fst tr)) (filter (fun tr => buying (snd tr)) (join ts d)))) in *.
    set (Y := qsum (map (fun tr => t_price (fst tr) * t_qty (fst tr)) (filter (fun tr => negb (buying (snd tr))) (join ts d)))) in *.
    destruct fees_ok as [Gf Lf]. pose proof (abs_sum fee_list) as Af. pose proof (abs_sum_nn fee_list) as Nf.
    assert (D : qabs (X - Y) <= (P + P) * T) by (unfold Qcminus; pose proof (qabs_add X (- Y)) as Q; rewrite abs_opp in Q; qlra).
    rewrite (asum_free R (gp * gq) _ Npq A fee_list Gf) by qlra.
    rewrite (Npq (X - Y)) by (try (apply grid_sub; assumption); qlra). apply Npq; [apply grid_add; [apply grid_sub; assumption | apply grid_sum, Gf]|].
    pose proof (qabs_add (X - Y) (qsum fee_list)). qlra.
  Qed.
  Theorem profits_free : calculate_profits_r R A G d ts rp fees = calculate_profits d ts rp fees.
  Proof.
    unfold calculate_profits_r, calculate_profits. cbv zeta. fold fee_list. rewrite market_free, !players_free; [reflexivity | | intros r I; apply Hd, in_map, I].
    intros r I. destruct (dict_get _ _) as [v|] eqn:E; [|apply Hd, in_map, I]. destruct (fill_in _ _ _ _ E) as [J|J]; [|apply Hd, J].
    destruct rp as [m|]; [apply Hr, J | destruct J].
  Qed.
  (** the shares of the optimum are rounded once *)
  Theorem welfare_free (A' : adder exact) obj : percentage_welfare_r R A obj d ts = option_map R (percentage_welfare_r exact A' obj d ts).
  Proof.
    unfold percentage_welfare_r. cbv zeta. rewrite !asum_exact. change (rnd exact ?x) with x. destruct big as [B0 B1]. pose proof T_nonneg as T0.
    assert (V : forall tr, In tr (join ts d) -> (on_grid gp (price (snd tr) - t_price (fst tr)) /\ qabs (price (snd tr) - t_price (fst tr)) <= P + P) /\
      (on_grid gp (t_price (fst tr) - price (snd tr)) /\ qabs (t_price (fst tr) - price (snd tr)) <= P + P)).
    { intros [t r] I. destruct (trade_price t r I) as (X1 & X2 & X3 & X4). cbn [fst snd]. split; (split; [apply grid_sub; assumption|]); unfold Qcminus.
      - pose proof (qabs_add (price r) (- t_price t)) as Q. rewrite abs_opp in Q. qlra.
      - pose proof (qabs_add (t_price t) (- price r)) as Q. rewrite abs_opp in Q. qlra. }
    destruct (products (P + P) (fun tr => price (snd tr) - t_price (fst tr)) (fun tr => buying (snd tr)) ((P + P) * T + F) A) as (E1 & G1 & L1); [qlra | exact Npq | qlra | intros; apply V; assumption|].
    destruct (products (P + P) (fun tr => t_price (fst tr) - price (snd tr)) (fun tr => negb (buying (snd tr))) ((P + P) * T + F) A) as (E2 & G2 & L2); [qlra | exact Npq | qlra | intros; apply V; assumption|].
    cbv beta in E1, E2, G1, G2, L1, L2.
    assert (M1 : map (fun tr => R (R (price (snd tr) - t_price (fst tr)) * t_qty (fst tr))) (filter (fun tr => buying (snd tr)) (join ts d)) =
      map (fun tr => R ((price (snd tr) - t_price (fst tr)) * t_qty (fst tr))) (filter (fun tr => buying (snd tr)) (join ts d))).
    { apply map_ext_in. intros tr I. apply filter_In in I. destruct (V tr (proj1 I)) as [[V1 V2] _]. rewrite (Np _ V1 V2). reflexivity. }
    assert (M2 : map (fun tr => R (R (t_price (fst tr) - price (snd tr)) * t_qty (fst tr))) (filter (fun tr => negb (buying (snd tr))) (join ts d)) =
      map (fun tr => R ((t_price (fst tr) - price (snd tr)) * t_qty (fst tr))) (filter (fun tr => negb (buying (snd tr))) (join ts d))).
    { apply map_ext_in. intros tr I. apply filter_In in I. destruct (V tr (proj1 I)) as [_ [V1 V2]]. rewrite (Np _ V1 V2). reflexivity. }
    rewrite M1, M2, E1, E2.
    set (X := qsum (map (fun tr => (price (snd tr) - t_price (fst tr)) * t_qty (fst tr)) (filter (fun tr => buying (snd tr)) (join ts d)))) in *.
    set (Y := qsum (map (fun tr => (t_price (fst tr) - price (snd tr)) * t_qty (fst tr)) (filter (fun tr => negb (buying (snd tr))) (join ts d)))) in *.
    assert (Q : qsumf (fun tr => t_qty (fst tr)) (filter (fun tr => buying (snd tr)) (join ts d)) + qsumf (fun tr => t_qty (fst tr)) (filter (fun tr => negb (buying (snd tr))) (join ts d)) <= T).
    { pose proof (qsumf_filter_split (fun tr : trans * row => t_qty (fst tr)) (fun tr => buying (snd tr)) (join ts d)) as K.
      cbv beta in K. rewrite <- K. apply Qcle_trans with (qsumf t_qty ts); [apply join_qty; [exact Hu | intros t I; apply (proj1 Ht), I] | apply Ht]. }
    apply (qmult_le_l (P + P)) in Q; [|qlra]. rewrite Qcmult_plus_distr_r in Q.
    rewrite (Npq (X + Y)) by (try (apply grid_add; assumption); pose proof (qabs_add X Y); qlra).
    unfold ratio_r. destruct (qltb 0 obj); reflexivity.
  Qed.
  Theorem traded_free (A' : adder exact) obj : no_error R (gq * qf 1 2) T -> percentage_traded_r R A obj ts = option_map R (percentage_traded_r exact A' obj ts).
  Proof.
    intro N. unfold percentage_traded_r. rewrite asum_exact. change (rnd exact ?x) with x. destruct Ht as [H L].
    assert (H2 : forall x, In x (map t_qty ts) -> on_grid gq x /\ 0 <= x) by (intros x I; apply in_map_iff in I; destruct I as (t & <- & I); destruct (H t I) as (? & ? & _); auto).
    rewrite (asum_free R (gq * qf 1 2) T N A) by (try (intros x I; apply grid_half, H2, I); rewrite abs_sum_nonneg by (intros; apply H2; assumption); exact L).
    assert (E : qsum (map t_qty ts) / qz 2 = qsum (map t_qty ts) * qf 1 2) by (unfold Qcdiv; f_equal; apply Qc_is_canon; reflexivity). rewrite E.
    assert (Z : 0 <= qsum (map t_qty ts)) by (rewrite <- abs_sum_nonneg by (intros; apply H2; assumption); apply abs_sum_nn).
    rewrite (N (_ * _)); [unfold ratio_r; destruct (qltb 0 obj); reflexivity | apply grid_halved, grid_sum; intros; apply H2; assumption|].
    assert (Hp : 0 <= qf 1 2) by (vm_compute; discriminate). pose proof (qmult_nonneg _ _ Z Hp) as K. rewrite qabs_pos by exact K.
    assert (E2 : qsum (map t_qty ts) * qf 1 2 + qsum (map t_qty ts) * qf 1 2 = qsum (map t_qty ts)) by (rewrite <- Qcmult_plus_distr_r, half2; ring).
    change (qsum (map t_qty ts) <= T) in L. qlra.
  Qed.
End Stats.
