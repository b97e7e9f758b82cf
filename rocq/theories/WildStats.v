(** Profits with infinite and NaN prices. *)
From Verif Require Import QcTac Num NumFacts ListFacts ModelBase ModelHuang ModelMuda ModelMerge ModelMarket ModelStats ModelAny ModelWild ModelWildMuda ModelWildMarket ModelWildStats
  Spec SpecWild SpecWildMuda SpecWildMarket SpecWildStats MarketFacts MergeFacts WildMudaTop WildMudaFin WildMarketTop.

Lemma ninf_pos q : 0 <= q -> ninf_times true q = if qltb 0 q then PInf else NaN.
Proof.
  intro H. unfold ninf_times. destruct (qeq_spec q 0) as [->|N].
  - destruct (qlt_spec 0 0) as [C|C]; [exfalso; qlra | reflexivity].
  - destruct (qlt_spec 0 q) as [L|L]; [reflexivity|]. exfalso. apply N, Qcle_antisym; assumption.
Qed.
(** ** Players *)
Lemma rent_gap val tr : w_rent val tr = w_gap (x_price (fst tr)) (val (snd tr)) (w_buying (snd tr)).
Proof. unfold w_rent, w_gap. destruct (w_buying (snd tr)); [reflexivity|]. destruct (x_price (fst tr)), (val (snd tr)); cbn; try reflexivity. f_equal. ring. Qed.
Lemma skip_exact val (l : list (atrans Qc num * wrow)) : (forall tr, In tr l -> 0 <= x_qty (fst tr) /\ w_rent val tr <> NInf) ->
  nsum_skip (map (fun tr => w_gain (x_price (fst tr)) (val (snd tr)) (w_buying (snd tr)) (x_qty (fst tr))) l) =
  if existsb (endless val) l then PInf else Fin (qsumf (finite_gain val) l).
Proof.
  intro H. unfold nsum_skip.
  assert (G : forall a, (a = PInf \/ exists q, a = Fin q) -> fold_left nadd (filter (fun x => match x with NaN => false | _ => true end) (map (fun tr => w_gain (x_price (fst tr)) (val (snd tr)) (w_buying (snd tr)) (x_qty (fst tr))) l)) a =
    match a with PInf => PInf | Fin q => if existsb (endless val) l then PInf else Fin (q + qsumf (finite_gain val) l) | _ => NaN end).
  { induction l as [|tr l IH]; intros a Ha.
    - cbn. destruct Ha as [->|(q & ->)]; [reflexivity|]. f_equal. ring.
    - destruct (H tr (or_introl eq_refl)) as [Hq Hr]. specialize (IH (fun x Hx => H x (or_intror Hx))). cbn [map existsb]. rewrite qsumf_cons.
      unfold w_gain at 1. rewrite <- rent_gap.
      unfold endless at 1, finite_gain at 1. destruct (w_rent val tr) as [g| | |]; [| |congruence|].
      + cbn [nmul filter fold_left orb]. rewrite IH.
        * destruct Ha as [->|(q & ->)]; [reflexivity|]. cbn [nadd]. destruct (existsb (endless val) l); [reflexivity|]. f_equal. ring.
        * destruct Ha as [->|(q & ->)]; cbn; eauto.
      + cbn [nmul]. rewrite (ninf_pos _ Hq). destruct (qltb 0 (x_qty (fst tr))); cbn [filter fold_left orb].
        * rewrite IH; destruct Ha as [->|(q & ->)]; cbn [nadd]; auto.
        * rewrite IH by exact Ha. destruct Ha as [->|(q & ->)]; [reflexivity|]. destruct (existsb (endless val) l); [reflexivity|]. f_equal. ring.
      + cbn [nmul filter orb]. rewrite IH by exact Ha. destruct Ha as [->|(q & ->)]; [reflexivity|]. destruct (existsb (endless val) l); [reflexivity|]. f_equal. ring. }
  rewrite G by eauto. destruct (existsb (endless val) l); [reflexivity|]. f_equal. ring.
Qed.
Lemma players_exact val d ts : (forall tr, In tr (w_join ts d) -> 0 <= x_qty (fst tr) /\ w_rent val tr <> NInf) ->
  w_players d ts val = map (fun u => if existsb (endless val) (w_deals d ts u) then PInf else Fin (qsumf (finite_gain val) (w_deals d ts u))) (w_users d).
Proof.
  intro H. unfold w_players. apply map_ext. intro u. fold (w_deals d ts u). apply skip_exact. intros tr Htr. apply filter_In in Htr. apply H, Htr.
Qed.

(** ** The market maker *)
Lemma turnover_exact b d ts : (forall tr, In tr (w_join ts d) -> 0 <= x_qty (fst tr) /\ x_price (fst tr) <> NInf /\ x_price (fst tr) <> NaN) ->
  nsum (map (fun tr => nmul (x_price (fst tr)) (Fin (x_qty (fst tr)))) (filter (fun tr => Bool.eqb (w_buying (snd tr)) b) (w_join ts d))) = w_turnover b d ts.
Proof.
  intro H. unfold w_turnover, nsum. cbv zeta. set (l := filter _ _). assert (Hl : forall tr, In tr l -> 0 <= x_qty (fst tr) /\ x_price (fst tr) <> NInf /\ x_price (fst tr) <> NaN) by (intros tr Htr; apply filter_In in Htr; apply H, Htr).
  clearbody l. clear H.
  set (inf := fun tr : atrans Qc num * wrow => match x_price (fst tr) with PInf => true | _ => false end).
  set (val := fun tr : atrans Qc num * wrow => match x_price (fst tr) with Fin p => p * x_qty (fst tr) | _ => 0 end).
  assert (G : forall a, a <> NInf -> fold_left nadd (map (fun tr => nmul (x_price (fst tr)) (Fin (x_qty (fst tr)))) l) a =
    if existsb (fun tr => inf tr && qeqb (x_qty (fst tr)) 0) l then NaN else
    match a with PInf => PInf | Fin q => if existsb inf l then PInf else Fin (q + qsumf val l) | _ => NaN end).
  { induction l as [|tr l IH]; intros a Ha.
    - cbn. destruct a; try reflexivity; [f_equal; ring | congruence].
    - destruct (Hl tr (or_introl eq_refl)) as (Hq & N1 & N2). specialize (IH (fun x Hx => Hl x (or_intror Hx))). cbn [map fold_left existsb]. rewrite qsumf_cons.
      unfold inf at 1 3, val at 1. destruct (x_price (fst tr)) as [p| | |]; [| |congruence|congruence].
      + cbn [nmul andb orb]. rewrite IH by (destruct a; cbn; congruence). destruct (existsb (fun tr0 => inf tr0 && _) l); [reflexivity|].
        destruct a as [q| | |]; cbn [nadd]; try reflexivity. destruct (existsb inf l); [reflexivity|]. f_equal. ring.
      + cbn [nmul andb orb]. rewrite (ninf_pos _ Hq). destruct (qeq_spec (x_qty (fst tr)) 0) as [E|E].
        * rewrite E. destruct (qlt_spec 0 0) as [C|C]; [exfalso; qlra|]. cbn [orb]. rewrite IH by (destruct a; cbn; congruence). destruct (existsb (fun tr0 => inf tr0 && _) l); [reflexivity|]. destruct a; reflexivity.
        * assert (L : qltb 0 (x_qty (fst tr)) = true) by (apply qltb_lt; destruct (qlt_spec 0 (x_qty (fst tr))); [assumption | exfalso; apply E, Qcle_antisym; assumption]).
          rewrite L. cbn [orb]. rewrite IH by (destruct a; cbn; congruence). destruct (existsb (fun tr0 => inf tr0 && _) l); [reflexivity|]. destruct a; solve [reflexivity | congruence]. }
  rewrite G by discriminate. destruct (existsb _ l); [reflexivity|]. destruct (existsb inf l); [reflexivity|]. f_equal. ring.
Qed.
Theorem market_exact d ts fees : (forall tr, In tr (w_join ts d) -> 0 <= x_qty (fst tr) /\ x_price (fst tr) <> NInf /\ x_price (fst tr) <> NaN) ->
  w_market d ts fees = nadd (nsub (w_turnover true d ts) (w_turnover false d ts)) (nsum fees).
Proof. intro H. unfold w_market. cbv zeta. rewrite !turnover_exact by exact H. reflexivity. Qed.

(** ** Nobody loses more than rounding takes *)
Definition tolerant (e : Qc) (g : num) : Prop := g = NaN \/ g = PInf \/ exists q, g = Fin q /\ - e <= q.
Theorem players_floor e d ts : 0 <= e -> (forall tr, In tr (w_join ts d) -> 0 <= x_qty (fst tr) /\ tolerant e (w_rent w_price tr)) ->
  Forall2 (fun u v => at_least (- (e * qsumf (fun tr => x_qty (fst tr)) (w_deals d ts u))) v) (w_users d) (w_players d ts w_price).
Proof.
  intros He H. rewrite players_exact.
  2:{ intros tr Htr. destruct (H tr Htr) as [A B]. split; [exact A|]. destruct B as [->|[->|(q & -> & _)]]; discriminate. }
  assert (F : forall us, Forall2 (fun u v => at_least (- (e * qsumf (fun tr => x_qty (fst tr)) (w_deals d ts u))) v) us (map (fun u => if existsb (endless w_price) (w_deals d ts u) then PInf else Fin (qsumf (finite_gain w_price) (w_deals d ts u))) us)).
  { induction us as [|u us IH]; constructor; [|exact IH]. destruct (existsb (endless w_price) (w_deals d ts u)); [left; reflexivity|]. right. eexists. split; [reflexivity|].
    assert (K : forall tr, In tr (w_deals d ts u) -> In tr (w_join ts d)) by (intros tr Htr; apply filter_In in Htr; apply Htr).
    induction (w_deals d ts u) as [|tr l I]; [replace (- (e * qsumf (fun tr => x_qty (fst tr)) (@nil (atrans Qc num * wrow)))) with 0 by (unfold qsumf; cbn; ring); apply Qcle_refl|]. rewrite !qsumf_cons. specialize (I (fun x Hx => K x (or_intror Hx))).
    destruct (H tr (K tr (or_introl eq_refl))) as [A B]. assert (T : - (e * x_qty (fst tr)) <= finite_gain w_price tr).
    { unfold finite_gain. destruct B as [->|[->|(g & -> & Hg)]].
      - assert (0 <= e * x_qty (fst tr)) by (apply qmult_nonneg; assumption). qlra.
      - assert (0 <= e * x_qty (fst tr)) by (apply qmult_nonneg; assumption). qlra.
      - assert (0 <= (g + e) * x_qty (fst tr)) by (apply qmult_nonneg; [qlra | assumption]). replace ((g + e) * x_qty (fst tr)) with (g * x_qty (fst tr) + e * x_qty (fst tr)) in H0 by ring. qlra. }
    match goal with |- - (e * (?a + ?b)) <= _ => replace (- (e * (a + b))) with (- (e * a) + - (e * b)) by ring end. qlra. }
  apply F.
Qed.
Lemma gap_le px py (buys : bool) : nleb (if buys then px else py) (if buys then py else px) = true -> tolerant 0 (w_gap px py buys).
Proof.
  unfold tolerant, w_gap. intro H. destruct buys, px as [x| | |], py as [y| | |]; cbn in *; try discriminate; auto; right; right; eexists; (split; [reflexivity|]); apply qleb_le in H; qlra.
Qed.
Definition half_digit : Qc := 1 / qz 200000.
Lemma half_digit_pos : 0 <= half_digit.
Proof. apply qleb_le. vm_compute. reflexivity. Qed.
Lemma round_half q : - half_digit <= np_round 5 q - q /\ np_round 5 q - q <= half_digit.
Proof.
  destruct (np_round_near 5 q) as [A B]. assert (P := pow10_pos 5). assert (E : half_digit * pow10 5 = qf 1 2) by (apply Qc_is_canon; vm_compute; reflexivity).
  set (z := np_round 5 q - q) in *. split.
  - destruct (qle_spec (- half_digit) z) as [L|L]; [exact L|]. exfalso. assert (K := Qcmult_lt_compat_r _ _ _ P L). replace (- half_digit * pow10 5) with (- (half_digit * pow10 5)) in K by ring. rewrite E in K. qlra.
  - destruct (qle_spec z half_digit) as [L|L]; [exact L|]. exfalso. assert (K := Qcmult_lt_compat_r _ _ _ P L). rewrite E in K. qlra.
Qed.
Lemma gap_round px py (buys : bool) : nleb (if buys then px else n_round 5 py) (if buys then n_round 5 py else px) = true -> tolerant half_digit (w_gap px py buys).
Proof.
  unfold tolerant, w_gap. intro H. destruct buys, px as [x| | |], py as [y| | |]; cbn [n_round] in H; cbn in H; try discriminate; cbn; auto; right; right; eexists; (split; [reflexivity|]); apply qleb_le in H;
    destruct (round_half y); qlra.
Qed.

Lemma join_in ts d tr : In tr (w_join ts d) -> In (fst tr) ts /\ In (snd tr) d /\ w_lbl (snd tr) = x_bid (fst tr).
Proof.
  unfold w_join. rewrite in_flat_map. intros (t & Ht & H). apply in_map_iff in H. destruct H as (r & <- & Hr). apply filter_In in Hr. destruct Hr as [Hr E]. apply Nat.eqb_eq in E. auto.
Qed.
Lemma unique_row d x y : NoDup (map w_lbl d) -> In x d -> In y d -> w_lbl x = w_lbl y -> x = y.
Proof.
  induction d as [|z d IH]; [contradiction|]. cbn [map]. intro N. inversion N as [|? ? N1 N2]; subst. intros [->|Hx] [->|Hy] E; auto.
  - exfalso. apply N1. rewrite E. apply in_map, Hy.
  - exfalso. apply N1. rewrite <- E. apply in_map, Hx.
Qed.
Lemma zero_floor d ts : Forall2 (fun u v => at_least (- (0 * qsumf (fun tr => x_qty (fst tr)) (w_deals d ts u))) v) (w_users d) (w_players d ts w_price) -> Forall (at_least 0) (w_players d ts w_price).
Proof. induction 1 as [|u v us vs Huv F IH]; constructor; [|exact IH]. destruct Huv as [->|(q & -> & Hq)]; [left; reflexivity|]. right. exists q. split; [reflexivity|]. rewrite Qcmult_0_l in Hq. exact Hq. Qed.

(** after MUDA *)
Theorem muda_players S d fl ts e : w_qty_nonneg d -> NoDup (map w_lbl d) -> w_muda S d fl = Ok (ts, e) -> Forall (at_least 0) (w_players d ts w_price).
Proof.
  intros Hq Hn E. apply zero_floor. apply players_floor; [qlra|]. intros tr Htr. destruct (join_in _ _ _ Htr) as (I1 & I2 & I3).
  destruct (w_muda_fair S d fl ts e Hq Hn E) as (_ & _ & _ & (tl & tr' & -> & Hl & Hr) & _).
  assert (K : forall h p l, (forall x, In x h -> In x d) -> HalfFair h p l -> In (fst tr) l -> 0 <= x_qty (fst tr) /\ tolerant 0 (w_rent w_price tr)).
  { intros h p l Hh F I. destruct (hf_trans _ _ _ F _ I) as (E1 & _ & _ & Q & x & Hx & Lx & A). split; [exact Q|]. assert (Ex : x = snd tr) by (apply (unique_row d); auto; congruence). subst x.
    rewrite rent_gap. apply gap_le. rewrite E1. unfold accepts in A. destruct (w_buying (snd tr)); exact A. }
  apply in_app_or in I1. destruct I1 as [I1|I1]; [eapply K; [|exact Hl|exact I1] | eapply K; [|exact Hr|exact I1]]; intros x Hx; unfold w_rows_in in Hx; apply filter_In in Hx; apply Hx.
Qed.
(** after [Market.run('huang')] *)
Theorem huang_players S smp cnt d : w_positions d -> w_qty_pos d -> priced true d -> priced false d ->
  (forall x, In x d -> w_buying x = false -> nltb (w_price x) (Fin 0) = false) -> forall ts e, w_run_huang S smp cnt d = Ok (ts, e) ->
  Forall2 (fun u v => at_least (- (1 / qz 200000 * qsumf (fun tr => x_qty (fst tr)) (w_deals d ts u))) v) (w_users d) (w_players d ts w_price).
Proof.
  intros HP Hq Hb Hs Hn ts e E. destruct (run_fair S smp cnt d HP Hq Hb Hs Hn) as (ss & bs & e' & E' & _ & Fs & Fb). rewrite E' in E. injection E as <- <-.
  assert (ND : NoDup (map w_lbl d)) by (rewrite HP; apply seq_NoDup).
  apply (players_floor half_digit); [apply half_digit_pos|]. intros tr Htr. destruct (join_in _ _ _ Htr) as (I1 & I2 & I3).
  assert (K : forall b, part_ok d b (fst tr) -> 0 <= x_qty (fst tr) /\ tolerant half_digit (w_rent w_price tr)).
  { intros b (x & Hx & Bx & Lx & Q0 & _ & R). split; [exact Q0|]. assert (Ex : x = snd tr) by (apply (unique_row d); auto; congruence). subst x.
    rewrite rent_gap. apply gap_round. unfold respects in R. cbn [round_row w_buying w_price] in R. exact R. }
  apply in_app_or in I1. destruct I1 as [I1|I1]; [apply (K false), Fs, I1 | apply (K true), Fb, I1].
Qed.

(** ** Rational prices *)
Lemma join_lift ts d : w_join (map same_trans ts) (map wrow_of d) = map (fun tr => (same_trans (fst tr), wrow_of (snd tr))) (join ts d).
Proof.
  unfold w_join, join. induction ts as [|t ts IH]; [reflexivity|]. cbn [map flat_map]. rewrite IH, map_app. f_equal. cbn [same_trans x_bid].
  clear IH.   induction d as [|r d I]; [reflexivity|]. cbn [map filter wrow_of w_lbl]. destruct (Nat.eqb (lbl r) (t_bid t)); cbn [map fst snd]; rewrite I; reflexivity.
Qed.
Lemma filter_map_c {A B} (f : A -> B) (p : B -> bool) (q : A -> bool) l : (forall x, p (f x) = q x) -> filter p (map f l) = map f (filter q l).
Proof. intro H. induction l as [|x l IH]; [reflexivity|]. cbn. rewrite H. destruct (q x); cbn; rewrite IH; reflexivity. Qed.
Lemma nsum_fin l : nsum (map Fin l) = Fin (qsum l).
Proof.
  unfold nsum. transitivity (Fin (0 + qsum l)); [|f_equal; apply Qcplus_0_l]. generalize 0. induction l as [|x l IH]; intro a; cbn [map fold_left qsum]; [f_equal; ring|].
  cbn [nadd]. rewrite IH. f_equal. ring.
Qed.
Lemma map_Fin_ext {A} (f : A -> num) (g : A -> Qc) l : (forall x, In x l -> f x = Fin (g x)) -> map f l = map Fin (map g l).
Proof. intro H. rewrite map_map. apply map_ext_in. exact H. Qed.
Lemma gain_lift x y b q : w_gain (Fin x) (Fin y) b q = Fin (get_gain x y b q).
Proof. unfold w_gain, w_gap, get_gain. destruct b; reflexivity. Qed.
Lemma players_lift d ts (v : row -> Qc) (w : wrow -> num) : (forall r, In r d -> w (wrow_of r) = Fin (v r)) -> w_players (map wrow_of d) (map same_trans ts) w = map Fin (player_profits d ts v).
Proof.
  intro H. unfold w_players, player_profits, w_users, users_sorted. rewrite map_map with (f := wrow_of). change (fun x => w_user (wrow_of x)) with user. rewrite map_map. apply map_ext. intro u.
  rewrite join_lift, (filter_map_c _ _ (fun tr => Z.eqb (user (snd tr)) u)) by reflexivity. rewrite map_map.
  rewrite (map_Fin_ext _ (fun tr => get_gain (t_price (fst tr)) (v (snd tr)) (buying (snd tr)) (t_qty (fst tr)))); [apply sum_fin|].
  intros tr Htr. cbn [fst snd same_trans x_price x_qty]. apply filter_In in Htr. destruct Htr as [Htr _]. unfold join in Htr. apply in_flat_map in Htr. destruct Htr as (t & _ & Htr). apply in_map_iff in Htr. destruct Htr as (r & <- & Hr).
  apply filter_In in Hr. cbn [fst snd]. rewrite H by apply Hr. apply gain_lift.
Qed.
Lemma market_lift d ts f : w_market (map wrow_of d) (map same_trans ts) (map Fin f) = Fin (market_profit d ts f).
Proof.
  unfold w_market, market_profit. cbv zeta. rewrite join_lift.
  assert (K : forall b (p : trans * row -> bool), (forall tr, Bool.eqb (buying (snd tr)) b = p tr) -> nsum (map (fun tr => nmul (x_price (fst tr)) (Fin (x_qty (fst tr)))) (filter (fun tr => Bool.eqb (w_buying (snd tr)) b) (map (fun tr => (same_trans (fst tr), wrow_of (snd tr))) (join ts d)))) =
    Fin (qsum (map (fun tr => t_price (fst tr) * t_qty (fst tr)) (filter p (join ts d))))).
  { intros b p Hp. rewrite (filter_map_c _ _ p) by exact Hp. rewrite map_map. rewrite (map_Fin_ext _ (fun tr => t_price (fst tr) * t_qty (fst tr))) by reflexivity. apply nsum_fin. }
  rewrite (K true (fun tr => buying (snd tr))) by (intro tr; destruct (buying (snd tr)); reflexivity).
  rewrite (K false (fun tr => negb (buying (snd tr)))) by (intro tr; destruct (buying (snd tr)); reflexivity). rewrite nsum_fin. reflexivity.
Qed.
Theorem profits_lift d ts rp fees : labels_unique d ->
  w_profits (map wrow_of d) (map same_trans ts) (map (fun p => (fst p, Fin (snd p))) rp) (option_map (map Fin) fees) = lift_profits (fst (calculate_profits d ts (Some rp) fees)).
Proof.
  intro U. unfold w_profits, calculate_profits. cbv zeta. cbn [fst]. rewrite join_lift. destruct (join ts d) as [|j js] eqn:E; [reflexivity|]. cbn [map lift_profits].
  f_equal. f_equal.
  - apply players_lift. reflexivity.
  - apply players_lift. intros r Hr. unfold w_val. cbn [wrow_of w_lbl w_price].
    assert (D : dict_get (dict_fill rp d) (lbl r) = Some (match dict_get rp (lbl r) with Some v => v | None => price r end)).
    { rewrite fill_get. destruct (dict_get rp (lbl r)); [reflexivity|].
      clear - U Hr. induction d as [|x d IH]; [contradiction|]. cbn [find]. destruct (Nat.eqb_spec (lbl x) (lbl r)) as [E|E].
      - cbn. destruct Hr as [->|Hr]; [reflexivity|]. exfalso. inversion U as [|? ? N _]; subst. apply N. rewrite E. apply in_map, Hr.
      - destruct Hr as [->|Hr]; [congruence|]. inversion U; subst. apply IH; assumption. }
    rewrite D. clear. induction rp as [|[i v] rp IH]; [reflexivity|]. cbn [map find fst dict_get snd]. destruct (Nat.eqb i (lbl r)); [reflexivity | exact IH].
  - replace (match option_map (map Fin) fees with Some f => f | None => repeat (Fin 0) (length (uniqueZ (map w_user (map wrow_of d)))) end)
      with (map Fin (match fees with Some f => f | None => repeat 0 (length (uniqueZ (map user d))) end)); [apply market_lift|].
    destruct fees as [f|]; [reflexivity|]. cbn [option_map]. rewrite map_map. change (fun x => w_user (wrow_of x)) with user.
    induction (length (uniqueZ (map user d))) as [|n IH]; [reflexivity|]. cbn. rewrite IH. reflexivity.
Qed.
