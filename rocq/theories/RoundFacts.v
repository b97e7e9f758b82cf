(** Facts about rounded arithmetic: sums, cumulative sums, and the exact arithmetic as a special case. *)
From Verif Require Import QcTac Num ModelBase ModelCurves ModelHuang ModelMuda ModelP2P ModelRound ListFacts.

Section Basics.
  Variable R : rounding.
  Lemma rnd_zero : R 0 = 0.
  Proof.
    pose proof (rnd_opp R 0) as H. replace (- (0)) with 0 in H by ring. set (z := R 0) in *. clearbody z.
    assert (K : z + z = 0) by (rewrite H at 1; ring). clear H. qlra.
  Qed.
  Lemma rnd_nonneg x : 0 <= x -> 0 <= R x.
  Proof. intro H. rewrite <- rnd_zero. apply rnd_mono, H. Qed.
  Lemma rnd_nonpos x : x <= 0 -> R x <= 0.
  Proof. intro H. rewrite <- rnd_zero. apply rnd_mono, H. Qed.
  Lemma rnd_machine x : machine R (R x).
  Proof. apply rnd_idem. Qed.
  Lemma machine_0 : machine R 0.
  Proof. apply rnd_zero. Qed.
  Lemma machine_opp x : machine R x -> machine R (- x).
  Proof. unfold machine. intro H. rewrite rnd_opp, H. reflexivity. Qed.
  Lemma rnd_ge x y : machine R x -> x <= y -> x <= R y.
  Proof. intros M H. rewrite <- M. apply rnd_mono, H. Qed.
  Lemma rnd_le x y : machine R y -> x <= y -> R x <= y.
  Proof. intros M H. rewrite <- M. apply rnd_mono, H. Qed.
  Lemma machine_min x y : machine R x -> machine R y -> machine R (qmin x y).
  Proof. intros. destruct (qmin_case x y) as [[-> _]|[-> _]]; assumption. Qed.
  Lemma machine_max x y : machine R x -> machine R y -> machine R (qmax x y).
  Proof. intros. destruct (qmax_case x y) as [[-> _]|[-> _]]; assumption. Qed.

  (** ** Sums *)
  Lemma sums_machine l s : sums_to R l s -> (forall x, In x l -> machine R x) -> machine R s.
  Proof.
    induction 1 as [|x|l1 l2 a b _ IH1 _ IH2|l l' s P _ IH]; intro H.
    - apply machine_0.
    - apply H. left; reflexivity.
    - apply rnd_machine.
    - apply IH. intros x Hx. apply H. apply (Permutation_in _ P), Hx.
  Qed.
  Lemma sums_nonneg l s : sums_to R l s -> (forall x, In x l -> 0 <= x) -> 0 <= s.
  Proof.
    induction 1 as [|x|l1 l2 a b _ IH1 _ IH2|l l' s P _ IH]; intro H.
    - qlra.
    - apply H. left; reflexivity.
    - apply rnd_nonneg. assert (0 <= a) by (apply IH1; intros; apply H, in_or_app; auto).
      assert (0 <= b) by (apply IH2; intros; apply H, in_or_app; auto). qlra.
    - apply IH. intros x Hx. apply H. apply (Permutation_in _ P), Hx.
  Qed.
  (** a sum of nonnegative machine numbers is at least each of them *)
  Lemma sums_ge l s : sums_to R l s -> (forall x, In x l -> 0 <= x /\ machine R x) -> forall x, In x l -> x <= s.
  Proof.
    induction 1 as [|x|l1 l2 a b S1 IH1 S2 IH2|l l' s P _ IH]; intros H y Hy.
    - contradiction.
    - destruct Hy as [->|[]]. qlra.
    - assert (H1 : forall x, In x l1 -> 0 <= x /\ machine R x) by (intros; apply H, in_or_app; auto).
      assert (H2 : forall x, In x l2 -> 0 <= x /\ machine R x) by (intros; apply H, in_or_app; auto).
      assert (0 <= a) by (apply (sums_nonneg _ _ S1); intros; apply H1; assumption).
      assert (0 <= b) by (apply (sums_nonneg _ _ S2); intros; apply H2; assumption).
      apply rnd_ge; [apply H; exact Hy|]. apply in_app_or in Hy. destruct Hy as [Hy|Hy].
      + specialize (IH1 H1 y Hy). qlra.
      + specialize (IH2 H2 y Hy). qlra.
    - apply IH; [intros x Hx; apply H; apply (Permutation_in _ P), Hx|].
      apply (Permutation_in _ (Permutation_sym P)), Hy.
  Qed.
  (** such a sum is positive exactly when one of the numbers is *)
  Lemma sums_zero l s : sums_to R l s -> (forall x, In x l -> x = 0) -> s = 0.
  Proof.
    induction 1 as [|x|l1 l2 a b S1 IH1 S2 IH2|l l' s P _ IH]; intro H.
    - reflexivity.
    - apply H. left; reflexivity.
    - rewrite IH1 by (intros; apply H, in_or_app; auto). rewrite IH2 by (intros; apply H, in_or_app; auto).
      replace (0 + 0) with 0 by ring. apply rnd_zero.
    - apply IH. intros x Hx. apply H. apply (Permutation_in _ P), Hx.
  Qed.

  (** ** Cumulative sums *)
  Lemma cumsum_from_r_length l : forall acc, length (cumsum_from_r R acc l) = length l.
  Proof. induction l as [|x l IH]; intro acc; simpl; [reflexivity | rewrite IH; reflexivity]. Qed.
  Lemma cumsum_r_sorted l : forall acc, 0 <= acc -> machine R acc -> (forall x, In x l -> 0 <= x) ->
    StronglySorted Qcle (acc :: cumsum_from_r R acc l).
  Proof.
    induction l as [|x l IH]; intros acc Ha Ma H; simpl; [repeat constructor|].
    assert (L : acc <= R (acc + x)) by (apply rnd_ge; [exact Ma|]; specialize (H x (or_introl eq_refl)); qlra).
    specialize (IH (R (acc + x)) ltac:(qlra) (rnd_machine _) (fun y Hy => H y (or_intror Hy))).
    constructor; [exact IH|]. constructor; [exact L|].
    inversion_clear IH as [|? ? _ F]. rewrite Forall_forall in F |- *. intros y Hy. specialize (F y Hy). qlra.
  Qed.
End Basics.

(** ** Exact arithmetic *)
Lemma sums_exact l s : sums_to exact l s -> s = qsum l.
Proof.
  induction 1 as [|x|l1 l2 a b _ IH1 _ IH2|l l' s P _ IH].
  - reflexivity.
  - simpl. ring.
  - rewrite qsum_app, <- IH1, <- IH2. reflexivity.
  - rewrite IH. apply qsum_perm, P.
Qed.
Lemma asum_exact (A : adder exact) l : A l = qsum l.
Proof. apply sums_exact, asum_ok. Qed.
Lemma cumsum_exact l : cumsum_r exact l = cumsum l.
Proof.
  unfold cumsum_r, cumsum. generalize 0. induction l as [|x l IH]; intro a; simpl; [reflexivity|]. rewrite IH. reflexivity.
Qed.
Lemma nround_exact x : nround exact x = x.
Proof. destruct x; reflexivity. Qed.
Lemma curve_rows_exact d : curve_rows_r exact d = curve_rows d.
Proof. unfold curve_rows_r, curve_rows. rewrite cumsum_exact. reflexivity. Qed.
Lemma demand_exact S d : demand_curve_r exact S d = demand_curve_from_bids S d.
Proof. unfold demand_curve_r, demand_curve_from_bids. rewrite curve_rows_exact. reflexivity. Qed.
Lemma supply_exact S d : supply_curve_r exact S d = supply_curve_from_bids S d.
Proof. unfold supply_curve_r, supply_curve_from_bids. rewrite curve_rows_exact. reflexivity. Qed.
Lemma intersect_exact f g k : intersect_stepwise_r exact f g k = intersect_stepwise f g k.
Proof.
  unfold intersect_stepwise_r, intersect_stepwise, mix_r. destruct (col_max f); [|reflexivity]. cbn [bind].
  destruct (col_max g); [|reflexivity]. cbn [bind]. destruct (scan _ _); [|reflexivity]. cbn [bind].
  destruct (piece_value _ _ g) as [[gv|]|]; [| |reflexivity]; cbn [bind];
    (destruct (piece_value _ _ f) as [[fv|]|]; try reflexivity). cbn [bind].
  rewrite !nround_exact. reflexivity.
Qed.
(** the indices found do not depend on the rounding *)
Lemma intersect_r_indices R f g k :
  match intersect_stepwise_r R f g k, intersect_stepwise f g k with
  | Ok (x, i, j, _), Ok (x', i', j', _) => x = x' /\ i = i' /\ j = j'
  | Err e, Err e' => e = e'
  | _, _ => False
  end.
Proof.
  unfold intersect_stepwise_r, intersect_stepwise. destruct (col_max f); [|reflexivity]. cbn [bind].
  destruct (col_max g); [|reflexivity]. cbn [bind]. destruct (scan _ _); [|reflexivity]. cbn [bind].
  destruct (piece_value _ _ g) as [[gv|]|]; cbn [bind]; try reflexivity;
    (destruct (piece_value _ _ f) as [[fv|]|]; cbn [bind]; try reflexivity). auto.
Qed.

Lemma uq_loop_exact fuel : forall q g N i v, uq_loop_r exact fuel q g N i v = uq_loop fuel q g N i v.
Proof.
  induction fuel as [|n IH]; intros q g N i v; [reflexivity|]. cbn [uq_loop_r uq_loop].
  change (exact (g / qnat N)) with (g / qnat N). destruct (qltb v (g / qnat N)); [|reflexivity].
  destruct (nanargmin _) as [[i' v']|]; [|reflexivity]. apply IH.
Qed.
Lemma update_exact q g : update_quantity_r exact q g = update_quantity q g.
Proof.
  unfold update_quantity_r, update_quantity. destruct (nanargmin _) as [[i v]|]; [|reflexivity].
  rewrite uq_loop_exact. reflexivity.
Qed.
Lemma huang_exact (A : adder exact) S d : huang_auction_r exact A S d = huang_auction S d.
Proof.
  unfold huang_auction_r, huang_auction. rewrite demand_exact, supply_exact, intersect_exact.
  destruct (intersect_stepwise _ _ _) as [[[[q b] s] v]|]; [|reflexivity]. cbn [bind].
  destruct b as [b|]; [|reflexivity]. destruct s as [s|]; [|reflexivity].
  destruct (nth_error (fst (supply_curve_from_bids S d)) s) as [[? [ps| | |]]|];
    destruct (nth_error (fst (demand_curve_from_bids S d)) b) as [[? [pb| | |]]|]; try reflexivity.
  rewrite !asum_exact. destruct (Nat.ltb 0 b && Nat.ltb 0 s); [|reflexivity].
  change (rnd exact ?x) with x.
  destruct (qltb 0 _); rewrite update_exact; destruct (update_quantity _ _) as [z|]; try reflexivity; cbn [bind]; rewrite asum_exact; reflexivity.
Qed.
Lemma trading_exact (A : adder exact) d q : get_trading_bids_r exact A d q = get_trading_bids d q.
Proof. unfold get_trading_bids_r, get_trading_bids. rewrite !asum_exact, cumsum_exact. reflexivity. Qed.
Lemma fee_exact (A : adder exact) d i u q p : compute_fee_r exact A d i u q p = compute_fee d i u q p.
Proof.
  unfold compute_fee_r, compute_fee. destruct (filter _ d) as [|x l]; [reflexivity|].
  rewrite !asum_exact, cumsum_exact. reflexivity.
Qed.
Lemma charge_exact (A : adder exact) l i t p us : forall fees, charge_users_r exact A l i t p us fees = charge_users l i t p us fees.
Proof.
  induction us as [|u us IH]; intro fees; [reflexivity|]. cbn [charge_users_r charge_users]. rewrite fee_exact.
  destruct (set_fee _ _ _); [|reflexivity]. cbn [bind]. apply IH.
Qed.
Lemma solve_exact (A : adder exact) S d p fees : solve_market_side_r exact A S d p fees = solve_market_side S d p fees.
Proof.
  unfold solve_market_side_r, solve_market_side. destruct (buyers d) as [|b B]; [reflexivity|].
  destruct (sellers d) as [|s L]; [reflexivity|]. rewrite !asum_exact. destruct (qltb 0 _); [|reflexivity].
  destruct p; try reflexivity. rewrite !trading_exact.
  destruct (get_trading_bids _ _) as [[l1 i1]|]; [|reflexivity]. cbn [bind].
  destruct (get_trading_bids _ _) as [[l2 i2]|]; [|reflexivity]. cbn [bind]. rewrite charge_exact. reflexivity.
Qed.
Lemma price_exact S d : find_competitive_price_r exact S d = find_competitive_price S d.
Proof. unfold find_competitive_price_r, find_competitive_price. rewrite demand_exact, supply_exact, intersect_exact. reflexivity. Qed.
Lemma muda_exact (A : adder exact) S d fl : muda_r exact A S d fl = muda S d fl.
Proof.
  unfold muda_r, muda. f_equal. rewrite !price_exact. destruct (find_competitive_price _ _); [|reflexivity]. cbn [bind].
  destruct (find_competitive_price _ _); [|reflexivity]. cbn [bind]. rewrite solve_exact.
  destruct (solve_market_side _ _ _ _) as [[t1 f1]|]; [|reflexivity]. cbn [bind]. rewrite solve_exact. reflexivity.
Qed.
Lemma p2p_loop_exact (A : adder exact) fuel d ps c prices r : forall k act tmp q tm gtl,
  p2p_loop_r exact A fuel d ps c prices r k act tmp q tm gtl = p2p_loop fuel d ps c prices r k act tmp q tm gtl.
Proof.
  induction fuel as [|n IH]; intros k act tmp q tm gtl; cbn [p2p_loop_r p2p_loop]; rewrite asum_exact; [reflexivity|].
  destruct (_ && _); [|reflexivity]. destruct (pick_round _ _ _ _ _ _ _) as [[[T a'] k']|]; [|reflexivity]. cbn [bind].
  change (trade_pair_r exact c prices) with (trade_pair c prices).
  destruct (fold_left _ T (q, tm)) as [q' tm']. apply IH.
Qed.
Lemma p2p_exact (A : adder exact) d c r : p2p_random_r exact A d c r = p2p_random d c r.
Proof. unfold p2p_random_r, p2p_random. destruct (forallb _ _); [|reflexivity]. rewrite p2p_loop_exact. reflexivity. Qed.

(** ** The sums of numpy are sums *)
Lemma seq_from_ok R l : forall l0 a, sums_to R l0 a -> sums_to R (l0 ++ l) (fold_left (fun a x => R (a + x)) l a).
Proof.
  induction l as [|x l IH]; intros l0 a H; simpl; [rewrite app_nil_r; exact H|].
  specialize (IH (l0 ++ [x]) (R (a + x)) (st_add R _ _ _ _ H (st_one R x))). rewrite <- app_assoc in IH. exact IH.
Qed.
Lemma seq_sum_ok R l : sums_to R l (seq_sum R l).
Proof. apply (seq_from_ok R l [] 0 (st_nil R)). Qed.
Definition seq_adder (R : rounding) : adder R := mkAdder R (seq_sum R) (seq_sum_ok R).

Lemma every8_perm l : Permutation l
  (every8 0 l ++ every8 1 l ++ every8 2 l ++ every8 3 l ++ every8 4 l ++ every8 5 l ++ every8 6 l ++ every8 7 l).
Proof.
  induction l as [|x l IH]; [constructor|]. cbn [every8]. rewrite <- app_comm_cons. constructor.
  rewrite IH at 1. rewrite !app_assoc. rewrite <- (app_assoc (every8 7 l)). 
  rewrite (Permutation_app_comm _ (every8 7 l)). rewrite <- !app_assoc. reflexivity.
Qed.
Lemma np_block_ok R l : sums_to R l (np_block R l).
Proof.
  unfold np_block. destruct (Nat.ltb _ _); [apply seq_sum_ok|].
  set (n := (length l - length l mod 8)%nat). rewrite <- (firstn_skipn n l) at 1. apply seq_from_ok.
  set (f := firstn n l).
  apply (st_perm R (((every8 0 f ++ every8 1 f) ++ (every8 2 f ++ every8 3 f)) ++
                    ((every8 4 f ++ every8 5 f) ++ (every8 6 f ++ every8 7 f)))).
  { rewrite <- !app_assoc. symmetry. apply every8_perm. }
  repeat apply st_add; apply seq_sum_ok.
Qed.
Lemma np_pair_ok R k : forall l, sums_to R l (np_pair R k l).
Proof.
  induction k as [|k IH]; intro l; cbn [np_pair]; [apply np_block_ok|]. destruct (Nat.leb _ _); [apply np_block_ok|].
  rewrite <- (firstn_skipn (np_half (length l)) l) at 1. apply st_add; apply IH.
Qed.
Lemma np_sum_ok R l : sums_to R l (np_sum R l).
Proof. apply np_pair_ok. Qed.
(** the equations of numpy *)
Lemma np_half_bounds n : (128 < n -> 0 < np_half n /\ np_half n < n)%nat.
Proof.
  intro H. unfold np_half. pose proof (Nat.div_mod n 2 ltac:(lia)) as D. pose proof (Nat.mod_upper_bound n 2 ltac:(lia)).
  pose proof (Nat.mod_upper_bound (n / 2) 8 ltac:(lia)). lia.
Qed.
Lemma np_pair_fuel R : forall k j l, (length l <= k)%nat -> (length l <= j)%nat -> np_pair R k l = np_pair R j l.
Proof.
  induction k as [|k IH]; intros j l Hk Hj.
  - destruct l; [|simpl in Hk; lia]. destruct j; reflexivity.
  - destruct j as [|j]; [destruct l; [reflexivity | simpl in Hj; lia]|]. cbn [np_pair]. destruct (Nat.leb_spec (length l) 128) as [L|L]; [reflexivity|].
    destruct (np_half_bounds _ L) as [H1 H2]. rewrite (IH j (firstn _ l)), (IH j (skipn _ l)); [reflexivity| | | |]; rewrite ?firstn_length, ?skipn_length; lia.
Qed.
Lemma np_sum_short R l : (length l < 8)%nat -> np_sum R l = seq_sum R l.
Proof.
  intro H. assert (B : np_block R l = seq_sum R l) by (unfold np_block; rewrite (proj2 (Nat.ltb_lt _ _) H); reflexivity).
  unfold np_sum. destruct (length l) as [|n] eqn:E; cbn [np_pair]; [exact B|]. rewrite (proj2 (Nat.leb_le _ _)) by lia. exact B.
Qed.
Lemma np_sum_long R l : (128 < length l)%nat -> np_sum R l = R (np_sum R (firstn (np_half (length l)) l) + np_sum R (skipn (np_half (length l)) l)).
Proof.
  intro H. unfold np_sum. destruct (np_half_bounds _ H) as [H1 H2]. destruct (length l) as [|n] eqn:E; [lia|]. cbn [np_pair]. rewrite E.
  destruct (Nat.leb_spec (S n) 128) as [L|_]; [lia|].
  f_equal. f_equal; apply np_pair_fuel; rewrite ?firstn_length, ?skipn_length; lia.
Qed.
Lemma np_sum_split (R : rounding) l m : (128 < length (l ++ m))%nat -> length l = np_half (length (l ++ m)) -> np_sum R (l ++ m) = R (np_sum R l + np_sum R m).
Proof.
  intros H E. rewrite (np_sum_long R _ H), <- E. rewrite firstn_app, skipn_app, firstn_all, skipn_all, Nat.sub_diag. cbn [firstn skipn app]. rewrite app_nil_r. reflexivity.
Qed.
Lemma np_sum_eight (R : rounding) a b c d e f g h : np_sum R [a; b; c; d; e; f; g; h] =
  R (R (R (R a + R b) + R (R c + R d)) + R (R (R e + R f) + R (R g + R h))).
Proof.
  change (np_sum R [a; b; c; d; e; f; g; h]) with
    (R (R (R (R (0 + a) + R (0 + b)) + R (R (0 + c) + R (0 + d))) + R (R (R (0 + e) + R (0 + f)) + R (R (0 + g) + R (0 + h))))).
  rewrite !Qcplus_0_l. reflexivity.
Qed.
(** the last elements, up to seven, are added one by one *)
Lemma np_block_snoc (R : rounding) l x : (8 <= length l)%nat -> (length (l ++ [x]) mod 8 <> 0)%nat -> np_block R (l ++ [x]) = R (np_block R l + x).
Proof.
  intros L M. unfold np_block. rewrite app_length in *. cbn [length] in *.
  rewrite !(proj2 (Nat.ltb_ge _ _)) by lia.
  pose proof (Nat.div_mod (length l) 8 ltac:(lia)) as D1. pose proof (Nat.mod_upper_bound (length l) 8 ltac:(lia)) as D2.
  pose proof (Nat.div_mod (length l + 1) 8 ltac:(lia)) as E1. pose proof (Nat.mod_upper_bound (length l + 1) 8 ltac:(lia)) as E2.
  assert (En : (length l + 1 - (length l + 1) mod 8 = length l - length l mod 8)%nat) by lia. rewrite En.
  set (n := (length l - length l mod 8)%nat). assert (n <= length l)%nat by (unfold n; lia).
  rewrite firstn_app, skipn_app. replace (n - length l)%nat with 0%nat by lia. cbn [firstn skipn]. rewrite app_nil_r, fold_left_app. reflexivity.
Qed.
Lemma np_sum_snoc (R : rounding) l x : (8 <= length l)%nat -> (length l < 128)%nat -> (length (l ++ [x]) mod 8 <> 0)%nat -> np_sum R (l ++ [x]) = R (np_sum R l + x).
Proof.
  intros L H M. assert (B : forall m, (length m <= 128)%nat -> np_sum R m = np_block R m).
  { intros m Hm. unfold np_sum. destruct (length m) eqn:E; cbn [np_pair]; [reflexivity|]. rewrite (proj2 (Nat.leb_le _ _)) by lia. reflexivity. }
  rewrite !B by (rewrite ?app_length; cbn [length]; lia). apply np_block_snoc; assumption.
Qed.
Definition np_adder (R : rounding) : adder R := mkAdder R (np_sum R) (np_sum_ok R).
