(** The statistics on doubles. *)
From Coq Require Import Floats.SpecFloat.
From Verif Require MudaHalf.
From Verif Require Import QcTac Num ModelMerge MergeFacts ModelBase ModelCurves ModelHuang ModelMuda ModelMarket ModelStats ModelUniform ModelRound ModelRoundStats ModelFloat ModelBounded
  Spec SpecGrid SpecDouble SpecIeee SpecOps RoundFacts RoundStatsTop BoundFacts DoubleFacts ModelOps OpsFacts OpsRun.

Section Stats.
  Variable j : Qc.
  Notation D := (doubles j).
  Notation B := binary64.
  Variables a b : Z.
  Hypothesis Ha : (0 <= a)%Z.
  Hypothesis Hb : (0 <= b)%Z.
  Hypothesis Hab : (a + b <= 800)%Z.
  Ltac oke := unfold okE; lia.
  Variables (d : df) (ts : list trans).
  Hypothesis Hd : labels_unique d.
  Hypothesis Hp : forall r, In r d -> inb b 1 (price r).
  Hypothesis Ht : forall t, In t ts -> inb a 1 (t_qty t) /\ inb b 1 (t_price t).
  Hypothesis Hl : (zlen ts <= 2 ^ 40)%Z.

  Lemma gain_in x y buys q : inb b 1 x -> inb b 1 y -> inb a 1 q ->
    get_gain_o D x y buys q = get_gain_r B x y buys q /\ inb (b + 1 + a) 1 (get_gain_r B x y buys q).
  Proof.
    intros X Y Q. unfold get_gain_o, get_gain_r. cbv zeta. destruct (o_sub_in j b ltac:(oke) 1 1 y x Y X ltac:(lia) ltac:(lia) ltac:(lia)) as [E I]. rewrite E. apply (inb_up b _ 1) in I; [|lia | lia].
    assert (I' : inb (b + 1) 1 (if buys then B (y - x) else - B (y - x))) by (destruct buys; [exact I | apply inb_opp, I]).
    destruct (o_mul_in j (b + 1) a 1 1 _ q ltac:(oke) I' Q ltac:(lia) ltac:(lia) ltac:(lia)) as [E2 I2]. rewrite E2. split; [reflexivity | exact I2].
  Qed.
  Lemma mapped_in {X} (f g : X -> Qc) e l : okE e -> (forall x, In x l -> f x = g x /\ inb e 1 (g x)) -> (zlen l <= 2 ^ 40)%Z ->
    map f l = map g l /\ Forall (inb e 1) (map g l) /\ (zlen (map g l) <= 2 ^ 40)%Z.
  Proof.
    intros He H L. split; [apply map_ext_in; intros x Hx; apply H, Hx|]. split; [|rewrite map_length; exact L]. apply Forall_forall. intros y Hy. apply in_map_iff in Hy. destruct Hy as (x & <- & Hx). apply H, Hx.
  Qed.
  Lemma np_mapped {X} (f g : X -> Qc) e l : okE e -> (forall x, In x l -> f x = g x /\ inb e 1 (g x)) -> (zlen l <= 2 ^ 40)%Z ->
    np_sum_o D (map f l) = np_sum B (map g l) /\ inb e (2 ^ 40) (np_sum B (map g l)).
  Proof. intros He H L. destruct (mapped_in f g e l He H L) as (E & F & K). rewrite E. destruct (np_in j e He _ F ltac:(lia)) as [E1 I]. split; [exact E1 | apply (inb_m e _ _ _ I K)]. Qed.
  Lemma seq_mapped {X} (f g : X -> Qc) e l : okE e -> (forall x, In x l -> f x = g x /\ inb e 1 (g x)) -> (zlen l <= 2 ^ 40)%Z -> seq_sum_o D (map f l) = seq_sum B (map g l).
  Proof. intros He H L. destruct (mapped_in f g e l He H L) as (E & F & K). rewrite E. apply (seq_in j e He _ F). lia. Qed.
  Lemma join_len P : (zlen (filter P (join ts d)) <= 2 ^ 40)%Z.
  Proof. pose proof (filter_len P (join ts d)). pose proof (join_length ts d Hd). lia. Qed.

  Lemma player_in val : (forall r, In r d -> inb b 1 (val r)) -> player_profits_o D (seq_sum_o D) d ts val = player_profits_r B (seq_adder B) d ts val.
  Proof.
    intro V. unfold player_profits_o, player_profits_r. apply map_ext. intro u. apply (seq_mapped _ _ (b + 1 + a)); [oke | | apply join_len].
    intros [t r] H. apply filter_In in H. destruct H as [H _]. destruct (join_in _ _ _ _ H) as (H1 & H2 & _). cbn [fst snd]. destruct (Ht t H1). apply gain_in; [assumption | apply V, H2 | assumption].
  Qed.
  Lemma paid_in P : np_sum_o D (map (fun tr => o_mul D (t_price (fst tr)) (t_qty (fst tr))) (filter P (join ts d))) = np_sum B (map (fun tr => B (t_price (fst tr) * t_qty (fst tr))) (filter P (join ts d))) /\
    inb (b + a) (2 ^ 40) (np_sum B (map (fun tr : trans * row => B (t_price (fst tr) * t_qty (fst tr))) (filter P (join ts d)))).
  Proof.
    apply np_mapped; [oke | | apply join_len]. intros [t r] H. apply filter_In in H. destruct H as [H _]. destruct (join_in _ _ _ _ H) as (H1 & _). cbn [fst]. destruct (Ht t H1) as [Q P'].
    apply (o_mul_in j b a 1 1); [oke | exact P' | exact Q | lia | lia | lia].
  Qed.
  Lemma market_in fees : Forall (inb (b + a) 1) fees -> (zlen fees <= 2 ^ 40)%Z -> market_profit_o D (np_sum_o D) d ts fees = market_profit_r B (np_adder B) d ts fees.
  Proof.
    intros F L. unfold market_profit_o, market_profit_r. cbv zeta. destruct (paid_in (fun tr => buying (snd tr))) as [E1 I1]. destruct (paid_in (fun tr => negb (buying (snd tr)))) as [E2 I2].
    rewrite E1, E2. change (asum B (np_adder B)) with (np_sum B). destruct (np_in j (b + a) ltac:(oke) fees F ltac:(lia)) as [E3 I3]. rewrite E3. apply (inb_m _ _ (2 ^ 40)) in I3; [|exact L].
    destruct (o_sub_in j (b + a) ltac:(oke) _ _ _ _ I1 I2 ltac:(lia) ltac:(lia) ltac:(lia)) as [E4 I4]. rewrite E4. apply (o_add_in j (b + a) ltac:(oke) _ _ _ _ I4 I3); lia.
  Qed.
  Lemma fill_in l : forall m : dict, (forall r, In r l -> inb b 1 (price r)) -> Forall (inb b 1) (map snd m) -> Forall (inb b 1) (map snd (dict_fill m l)).
  Proof.
    unfold dict_fill. induction l as [|r l IH]; intros m H F; [exact F|]. cbn [fold_left]. apply IH; [intros x Hx; apply H; right; exact Hx|].
    destruct (dict_get m (lbl r)); [exact F|]. rewrite map_app. apply Forall_app. split; [exact F|]. constructor; [apply H; left; reflexivity | constructor].
  Qed.
  Lemma get_in (m : dict) i v : dict_get m i = Some v -> Forall (inb b 1) (map snd m) -> inb b 1 v.
  Proof. induction m as [|[k w] m IH]; simpl; [discriminate|]. intros E F. inversion F; subst. destruct (Nat.eqb k i); [injection E as <-; assumption | apply IH; assumption]. Qed.
  Theorem profits_in rp fees : match rp with Some m => Forall (inb b 1) (map snd m) | None => True end ->
    match fees with Some f => Forall (inb (b + a) 1) f /\ (zlen f <= 2 ^ 40)%Z | None => (zlen d <= 2 ^ 40)%Z end ->
    calculate_profits_o D (np_sum_o D) (seq_sum_o D) d ts rp fees = calculate_profits_r B (np_adder B) (seq_adder B) d ts rp fees.
  Proof.
    intros Hr Hf. unfold calculate_profits_o, calculate_profits_r. cbv zeta. set (m := dict_fill _ d).
    assert (Fm : Forall (inb b 1) (map snd m)) by (unfold m; apply fill_in; [exact Hp | destruct rp; [exact Hr | constructor]]).
    destruct (join ts d); [reflexivity|]. rewrite (player_in price Hp). rewrite (player_in (fun r => match dict_get m (lbl r) with Some v => v | None => price r end)).
    - rewrite market_in; [reflexivity | |].
      + destruct fees as [f|]; [apply Hf|]. apply Forall_forall. intros x Hx. apply repeat_spec in Hx. subst x. apply (inb_m _ 0); [apply inb_0 | lia].
      + destruct fees as [f|]; [apply Hf|]. rewrite repeat_length. assert (U : (length (uniqueZ (map user d)) <= length d)%nat); [|lia].
        rewrite <- (map_length user d). apply NoDup_incl_length; [apply MudaHalf.uniqueZ_NoDup | intros x Hx; apply MudaHalf.uniqueZ_In, Hx].
    - intros r Hr'. destruct (dict_get m (lbl r)) as [v|] eqn:E; [apply (get_in m _ v E Fm) | apply Hp, Hr'].
  Qed.

  (** a quotient by an objective of at least [2^-100] *)
  Lemma ratio_in e m x o : okE (e + 100) -> inb e m x -> (0 <= m <= 2 ^ 53)%Z -> B o = o -> p2 (-100) <= o -> ratio_o D x o = ratio_r B x o.
  Proof.
    intros He X M O L. unfold ratio_o, ratio_r. pose proof (p2_pos (-100)) as P. assert (O0 : 0 < o) by qlra. assert (Nz : o <> 0) by (intro Z; rewrite Z in O0; apply Qclt_not_le in O0; apply O0, Qcle_refl).
    destruct (qltb 0 o); [|reflexivity]. f_equal. apply d_div; [apply X | exact O | exact Nz|]. apply Qcle_trans with (qz m * p2 (e + 100)); [|apply grid_below; [exact He | exact M]].
    destruct X as [_ X]. apply (mul_cancel_le _ _ o O0). assert (E : qabs (x / o) * o = qabs x) by (rewrite <- abs_scale by exact O0; rewrite div_mul by exact Nz; reflexivity). rewrite E.
    apply Qcle_trans with (qz m * p2 e); [exact X|]. replace (qz m * p2 e) with (qz m * p2 (e + 100) * p2 (-100)) by (rewrite p2_plus; replace (qz m * (p2 e * p2 100) * p2 (-100)) with (qz m * p2 e * (p2 100 * p2 (-100))) by ring; rewrite <- p2_plus; change (100 + -100)%Z with 0%Z; rewrite p2_0; ring).
    apply qmult_le_l; [|exact L]. pose proof (p2_pos (e + 100)). assert (M0 : qz 0 <= qz m) by (apply (proj1 (qz_le _ _)); lia). rewrite qz_0 in M0. apply qmult_nonneg; qlra.
  Qed.
  Theorem traded_in o : B o = o -> p2 (-100) <= o -> percentage_traded_o D (np_sum_o D) o ts = percentage_traded_r B (np_adder B) o ts.
  Proof.
    intros O L. unfold percentage_traded_o, percentage_traded_r. destruct (np_mapped t_qty t_qty a ts ltac:(oke) (fun t H => conj eq_refl (proj1 (Ht t H))) Hl) as [E I]. rewrite E. change (np_adder B (map t_qty ts)) with (np_sum B (map t_qty ts)).
    destruct (o_div_in j a ltac:(oke) _ _ 2%nat I ltac:(lia) ltac:(lia) ltac:(lia)) as [E2 I2]. change (qnat 2) with (qz 2) in E2, I2. rewrite E2. apply (ratio_in a (2 ^ 40)); [oke | exact I2 | lia | exact O | exact L].
  Qed.
  Lemma side_in (s : bool) P : np_sum_o D (map (fun tr => o_mul D (if s then o_sub D (price (snd tr)) (t_price (fst tr)) else o_sub D (t_price (fst tr)) (price (snd tr))) (t_qty (fst tr))) (filter P (join ts d))) =
      np_sum B (map (fun tr => B ((if s then B (price (snd tr) - t_price (fst tr)) else B (t_price (fst tr) - price (snd tr))) * t_qty (fst tr))) (filter P (join ts d))) /\
    inb (b + 1 + a) (2 ^ 40) (np_sum B (map (fun tr => B ((if s then B (price (snd tr) - t_price (fst tr)) else B (t_price (fst tr) - price (snd tr))) * t_qty (fst tr))) (filter P (join ts d)))).
  Proof.
    apply np_mapped; [oke | | apply join_len]. intros [t r] H. apply filter_In in H. destruct H as [H _]. destruct (join_in _ _ _ _ H) as (H1 & H2 & _). cbn [fst snd]. destruct (Ht t H1) as [Q P']. pose proof (Hp r H2) as R.
    destruct (o_sub_in j b ltac:(oke) 1 1 _ _ R P' ltac:(lia) ltac:(lia) ltac:(lia)) as [E1 I1]. destruct (o_sub_in j b ltac:(oke) 1 1 _ _ P' R ltac:(lia) ltac:(lia) ltac:(lia)) as [E2 I2]. rewrite E1, E2.
    apply (inb_up b _ 1) in I1; [|lia | lia]. apply (inb_up b _ 1) in I2; [|lia | lia]. apply (o_mul_in j (b + 1) a 1 1); [oke | destruct s; assumption | exact Q | lia | lia | lia].
  Qed.
  Theorem welfare_in o : B o = o -> p2 (-100) <= o -> percentage_welfare_o D (np_sum_o D) o d ts = percentage_welfare_r B (np_adder B) o d ts.
  Proof.
    intros O L. unfold percentage_welfare_o, percentage_welfare_r. cbv zeta. destruct (side_in true (fun tr => buying (snd tr))) as [E1 I1]. destruct (side_in false (fun tr => negb (buying (snd tr)))) as [E2 I2].
    cbv beta iota in E1, E2, I1, I2. rewrite E1, E2. change (asum B (np_adder B)) with (np_sum B). destruct (o_add_in j (b + 1 + a) ltac:(oke) _ _ _ _ I1 I2 ltac:(lia) ltac:(lia) ltac:(lia)) as [E3 I3]. rewrite E3.
    apply (ratio_in (b + 1 + a) (2 ^ 40 + 2 ^ 40)); [oke | exact I3 | lia | exact O | exact L].
  Qed.
End Stats.
