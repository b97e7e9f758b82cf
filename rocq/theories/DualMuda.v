(** MUDA on the mirror image of a market. *)
From Verif Require Import QcTac Num NumFacts ModelBase ModelCurves ModelHuang ModelMuda ListFacts Spec SpecTrade SpecMuda SpecErrors SpecTables SpecDual
  Sorter StoreFacts FillFacts CurveFacts IntersectFacts MudaSide MudaHalf MudaSolve MudaOutcome MudaFacts MudaErrors RoundMuda ErrorFacts TableFacts TableMuda DualFacts.

Definition flip_tm (M : Qc) (tm : transmgr) : transmgr := mkTM (n_trans tm) (map (flip_trans M) (tm_trans tm)).
Definition on_ok {X Y} (f : X -> Y) (x : res X) : res Y := match x with Ok v => Ok (f v) | Err e => Err e end.

Section DualHalf.
  Variables (M : Qc) (S S' : sorter).
  Hypothesis Hm : mirrored M S S'.
  Notation fl := (map (flip M)).

  Lemma flip_demand h p : demand_at (fl h) (M - p) = supply_at h p.
  Proof.
    unfold demand_at, supply_at. rewrite filter_map, qsumf_map. f_equal. apply filter_ext. intro r. cbn [flip buying price]. f_equal.
    destruct (qle_spec (M - p) (M - price r)), (qle_spec (price r) p); try reflexivity; exfalso; qlra.
  Qed.
  Lemma flip_supply h p : supply_at (fl h) (M - p) = demand_at h p.
  Proof.
    unfold demand_at, supply_at. rewrite filter_map, qsumf_map. f_equal. apply filter_ext. intro r. cbn [flip buying price]. rewrite negb_involutive. f_equal.
    destruct (qle_spec (M - price r) (M - p)), (qle_spec p (price r)); try reflexivity; exfalso; qlra.
  Qed.
  Lemma flip_Q h p : Q (fl h) (M - p) = Q h p.
  Proof. unfold Q. rewrite flip_demand, flip_supply. apply qmin_comm. Qed.
  Lemma flip_Ls h p b : Ls S' (fl h) (M - p) b = fl (Ls S h p (negb b)).
  Proof.
    unfold Ls. rewrite flip_buyers, flip_sellers. destruct b; cbn [negb].
    - rewrite filter_map. rewrite <- (proj1 (Hm _)). f_equal. f_equal. apply filter_ext. intro r. cbn [flip price nleb].
      destruct (qle_spec (M - p) (M - price r)), (qle_spec (price r) p); try reflexivity; exfalso; qlra.
    - rewrite filter_map. rewrite <- (proj2 (Hm _)). f_equal. f_equal. apply filter_ext. intro r. cbn [flip price nleb].
      destruct (qle_spec (M - price r) (M - p)), (qle_spec p (price r)); try reflexivity; exfalso; qlra.
  Qed.
  Lemma flip_cut l q : get_trading_bids (fl l) q = on_ok (fun x => (fl (fst x), snd x)) (get_trading_bids l q).
  Proof.
    unfold get_trading_bids. rewrite flip_qty, map_length. match goal with |- context [nth_error (fl l) ?k] => set (i := k) end.
    rewrite firstn_map, skipn_map, flip_qty, nth_error_map. destruct (nth_error l i) as [r|]; cbn [option_map]; [|reflexivity].
    change (qty (flip M r)) with (qty r). destruct (qltb _ (qty r)); [|reflexivity]. cbn [on_ok fst snd]. rewrite !map_app. reflexivity.
  Qed.
  Definition fi (x : nat * row) : nat * row := (fst x, flip M (snd x)).
  Lemma flip_indexed l : indexed (fl l) = map fi (indexed l).
  Proof. unfold indexed. rewrite map_length. generalize 0%nat. induction l as [|r l IH]; intro n; cbn [length seq combine map]; [reflexivity|]. rewrite IH. reflexivity. Qed.
  Lemma filter_fi (P P' : nat * row -> bool) l : (forall x, P' (fi x) = P x) -> filter P' (map fi l) = map fi (filter P l).
  Proof. intro H. induction l as [|x l IH]; cbn [map filter]; [reflexivity|]. rewrite H, IH. destruct (P x); reflexivity. Qed.
  Lemma fi_last l q : set_last_qty (map fi l) q = map fi (set_last_qty l q).
  Proof. unfold set_last_qty. rewrite <- map_rev. destruct (rev l) as [|[i r] t]; [reflexivity|]. cbn [map fi fst snd]. rewrite map_app, map_rev. reflexivity. Qed.
  Lemma fi_qty l : map (fun ir => qty (snd ir)) (map fi l) = map (fun ir => qty (snd ir)) l.
  Proof. rewrite map_map. reflexivity. Qed.
  Lemma qsum_opp l : qsum (map (fun x => - x) l) = - qsum l.
  Proof. induction l as [|x l IH]; cbn [map qsum]; [reflexivity|]. rewrite IH. ring. Qed.
  Lemma qabs_opp x : qabs (- x) = qabs x.
  Proof. unfold qabs. destruct (qle_spec 0 (- x)), (qle_spec 0 x); qlra. Qed.
  Lemma flip_fee l i u q p : compute_fee (map fi l) i u q (M - p) = compute_fee l i u q p.
  Proof.
    unfold compute_fee. cbv zeta. rewrite (filter_fi (fun ir => negb (Z.eqb (user (snd ir)) u))) by reflexivity.
    set (O := filter _ l). clearbody O.
    assert (Hm0 : forall A (m : list A) (a b : Qc), m <> [] -> match m with [] => a | _ => b end = b) by (intros A [|? ?] ? ? H; [congruence|reflexivity]).
    assert (D0 : O = [] \/ O <> []) by (destruct O; [left; reflexivity | right; discriminate]). destruct D0 as [->|NO]; [reflexivity|].
    rewrite Hm0 by (intro Z; apply map_eq_nil in Z; contradiction). rewrite (Hm0 _ O) by exact NO.
    rewrite fi_qty, map_length. match goal with |- context [nth_error (map fi O) ?k] => set (n := k) end.
    rewrite !firstn_map, fi_qty, nth_error_map. set (diff := q - _).
    assert (W : match option_map fi (nth_error O n) with Some (_, r) => if qltb diff (qty r) then set_last_qty (map fi (firstn (Datatypes.S n) O)) diff else map fi (firstn (Datatypes.S n) O) | None => map fi (firstn (Datatypes.S n) O) end
      = map fi (match nth_error O n with Some (_, r) => if qltb diff (qty r) then set_last_qty (firstn (Datatypes.S n) O) diff else firstn (Datatypes.S n) O | None => firstn (Datatypes.S n) O end)).
    { destruct (nth_error O n) as [[j r]|]; cbn [option_map fi fst snd]; [|reflexivity]. change (qty (flip M r)) with (qty r).
      destruct (qltb diff (qty r)); [apply fi_last | reflexivity]. }
    rewrite W. rewrite (filter_fi (fun ir => Nat.ltb i (fst ir))) by reflexivity. rewrite map_map. rewrite <- (qabs_opp (qsum (map (fun ir => (price (snd ir) - p) * qty (snd ir)) _))).
    f_equal. rewrite <- qsum_opp, map_map. f_equal. apply map_ext. intros [j r]. cbn [fi fst snd flip price qty]. ring.
  Qed.
  Lemma flip_charge l i q p us : forall fees, charge_users (fl l) i q (M - p) us fees = charge_users l i q p us fees.
  Proof. induction us as [|u us IH]; intros fees; cbn [charge_users]; [reflexivity|]. rewrite flip_indexed, flip_fee. destruct (set_fee fees u _); cbn [bind]; [apply IH|reflexivity]. Qed.
  Lemma flip_users l : map user (fl l) = map user l.
  Proof. rewrite map_map. reflexivity. Qed.
  Lemma flip_mk p l : map (mk (M - p)) (fl l) = map (flip_trans M) (map (mk p) l).
  Proof. rewrite !map_map. reflexivity. Qed.
  Lemma flip_add tm l : add_all (flip_tm M tm) (map (flip_trans M) l) = flip_tm M (add_all tm l).
  Proof.
    revert tm. unfold add_all. induction l as [|t l IH]; intro tm; [reflexivity|]. cbn [map fold_left]. rewrite <- IH. f_equal.
    unfold add_transaction, flip_tm. cbn [fst n_trans tm_trans]. rewrite map_app. reflexivity.
  Qed.

  Theorem half_flip h p fees : ~ tied h p -> solve_market_side S' (fl h) (flip_num M p) fees = on_ok (fun x => (flip_tm M (fst x), snd x)) (solve_market_side S h p fees).
  Proof.
    intro T. destruct p as [q| | |]; cbn [flip_num]; try (rewrite !half_infinite by discriminate; reflexivity).
    rewrite !solve_any, flip_Q. destruct (qlt_spec 0 (Q h q)) as [P|P]; [|reflexivity].
    assert (L : lb (fl h) (M - q) = negb (lb h q)).
    { unfold lb, long_side. rewrite flip_demand, flip_supply. unfold Q in P. pose proof (qmin_l (demand_at h q) (supply_at h q)). cbn [tied] in T.
      destruct (qlt_spec (supply_at h q) (demand_at h q)), (qlt_spec (demand_at h q) (supply_at h q)); try reflexivity; exfalso; [qlra | apply T; split; qlra]. }
    unfold trade. rewrite L, flip_Q, !flip_Ls, negb_involutive, !flip_cut.
    destruct (get_trading_bids (Ls S h q (lb h q)) (Q h q)) as [[ls li]|]; cbn [on_ok bind fst snd]; [|reflexivity].
    destruct (get_trading_bids (Ls S h q (negb (lb h q))) (Q h q)) as [[ss si]|]; cbn [on_ok bind fst snd]; [|reflexivity].
    rewrite !firstn_map, flip_users, flip_charge, !flip_mk. destruct (charge_users _ _ _ _ _ fees) as [f'|]; cbn [on_ok bind fst snd]; [|reflexivity].
    change tm_init with (flip_tm M tm_init) at 1. rewrite !flip_add. reflexivity.
  Qed.

  (** a half whose two sides are equally long *)
  Lemma cut_whole (L : df) (q : Qc) : L <> [] -> qsumf qty L = q -> get_trading_bids L q = Ok (L, (length L - 1)%nat).
  Proof.
    intros N E. unfold get_trading_bids. unfold qsumf in E. destruct (qlt_spec q (qsum (map qty L))) as [X|_]; [exfalso; qlra|].
    destruct (nth_error L (length L - 1)) as [r|] eqn:En; [|apply nth_error_None in En; destruct L; [congruence | cbn [length] in En; lia]].
    destruct (qlt_spec (q - qsum (map qty (firstn (length L - 1) L))) (qty r)) as [X|_]; [|reflexivity]. exfalso.
    assert (Y : qsum (map qty L) = qsum (map qty (firstn (length L - 1) L)) + qty r).
    { rewrite (nth_error_split' _ _ _ En) at 1. rewrite map_app, qsum_app. cbn [map qsum].
      replace (skipn (Datatypes.S (length L - 1)) L) with (@nil row); [cbn [map qsum]; ring|]. symmetry. apply skipn_all2. lia. }
    qlra.
  Qed.
  Lemma fee_whole l u q p : compute_fee (indexed l) (length l - 1) u q p = 0.
  Proof.
    unfold compute_fee. cbv zeta. destruct (filter _ (indexed l)) as [|o0 O0] eqn:EO; [reflexivity|]. rewrite <- EO. clear EO.
    match goal with |- context [filter (fun ir => Nat.ltb (length l - 1) (fst ir)) ?X] => assert (E : filter (fun ir => Nat.ltb (length l - 1) (fst ir)) X = []) end.
    2:{ rewrite E. cbn [map qsum]. reflexivity. }
    assert (B : forall x, In x (indexed l) -> (fst x <= length l - 1)%nat).
    { intros [i r] H. apply in_combine_l in H. apply in_seq in H. cbn [fst]. lia. }
    match goal with |- filter _ ?X = [] => assert (C : forall x, In x X -> (fst x <= length l - 1)%nat); [|revert C; generalize X] end.
    - set (O := filter _ (indexed l)). assert (BO : forall x, In x O -> (fst x <= length l - 1)%nat) by (intros x H; apply filter_In in H; apply B; tauto). clearbody O.
      match goal with |- context [nth_error O ?k] => set (n := k) end. set (diff := q - _). set (W := firstn (Datatypes.S n) O).
      assert (BW : forall x, In x W -> (fst x <= length l - 1)%nat) by (intros x H; apply BO, (In_firstn _ _ _ H)). clearbody W.
      assert (BS : forall x, In x (set_last_qty W diff) -> (fst x <= length l - 1)%nat).
      { intros x H. unfold set_last_qty in H. assert (RW : forall y, In y (rev W) -> (fst y <= length l - 1)%nat) by (intros y Hy; apply BW, in_rev, Hy).
        destruct (rev W) as [|[i r] t]; [destruct H|]. apply in_app_or in H. destruct H as [H|[<-|[]]].
        - apply in_rev in H. apply RW. right. exact H.
        - apply (RW (i, r)). left. reflexivity. }
      intros x Hx. destruct (nth_error O n) as [[j r]|]; [destruct (qltb diff (qty r))|]; auto.
    - intros X C. induction X as [|x X IH]; [reflexivity|]. cbn [filter]. destruct (Nat.ltb_spec (length l - 1) (fst x)) as [L|L]; [specialize (C x (or_introl eq_refl)); lia|].
      apply IH. intros y Hy. apply C. right. exact Hy.
  Qed.
  Lemma set_zero k n (x : list Qc) : x = repeat 0 n -> set_nth k 0 x = repeat 0 n.
  Proof. intros ->. revert k. induction n as [|n IH]; intros [|k]; cbn [repeat set_nth]; try reflexivity. rewrite IH. reflexivity. Qed.
  Lemma charge_zero l q p us n : forall f', charge_users l (length l - 1) q p us (repeat 0 n) = Ok f' -> f' = repeat 0 n.
  Proof.
    induction us as [|u us IH]; intros f'; cbn [charge_users]; [congruence|]. rewrite fee_whole. unfold set_fee.
    destruct (_ && _); cbn [bind]; [rewrite (set_zero _ n) by reflexivity; apply IH|]. destruct (_ && _); cbn [bind]; [rewrite (set_zero _ n) by reflexivity; apply IH|discriminate].
  Qed.
  Theorem half_tied h p fees tm f1 tm' f1' : tied h p -> solve_market_side S h p fees = Ok (tm, f1) -> solve_market_side S' (fl h) (flip_num M p) fees = Ok (tm', f1') ->
    Permutation (tm_trans tm') (map (flip_trans M) (tm_trans tm)) /\ (forall n, fees = repeat 0 n -> f1 = fees /\ f1' = fees).
  Proof.
    intros T E E'. destruct p as [q| | |]; cbn [tied] in T; try contradiction. cbn [flip_num] in E'. destruct T as [T P].
    assert (EQ : Q h q = demand_at h q) by (unfold Q; rewrite <- T; destruct (qmin_case (demand_at h q) (demand_at h q)) as [[X _]|[X _]]; exact X).
    assert (EL : lb h q = true) by (unfold lb, long_side; rewrite T; destruct (qlt_spec (supply_at h q) (supply_at h q)); [exfalso; qlra | reflexivity]).
    assert (EL' : lb (fl h) (M - q) = true) by (unfold lb, long_side; rewrite flip_demand, flip_supply, T; destruct (qlt_spec (supply_at h q) (supply_at h q)); [exfalso; qlra | reflexivity]).
    rewrite solve_any in E, E'. rewrite flip_Q in E'. rewrite (proj2 (qltb_lt 0 (Q h q))) in E, E' by (rewrite EQ; exact P).
    unfold trade in E, E'. rewrite EL in E. rewrite EL', !flip_Ls, flip_Q in E'. cbn [negb] in E, E'.
    assert (Sa : forall b, qsumf qty (Ls S h q b) = Q h q) by (intro b; rewrite Ls_sum, EQ; unfold side_qty; destruct b; congruence).
    assert (Ne : forall b, Ls S h q b <> []) by (intros b X; specialize (Sa b); rewrite X, EQ in Sa; unfold qsumf in Sa; cbn [map qsum] in Sa; qlra).
    rewrite !(cut_whole _ _ (Ne _) (Sa _)) in E. rewrite !flip_cut, !(cut_whole _ _ (Ne _) (Sa _)) in E'. cbn [on_ok bind fst snd] in E, E'.
    assert (FA : forall l : df, l <> [] -> firstn (Datatypes.S (length l - 1)) l = l) by (intros l N; apply firstn_all2; destruct l; [congruence | cbn [length]; lia]).
    rewrite !FA in E by apply Ne. rewrite !firstn_map, !FA, flip_users, flip_charge in E' by apply Ne.
    destruct (charge_users (Ls S h q true) _ _ _ _ fees) as [g|] eqn:C; cbn [bind] in E; [|discriminate E]. injection E as <- <-.
    destruct (charge_users (Ls S h q false) _ _ _ _ fees) as [g'|] eqn:C'; cbn [bind] in E'; [|discriminate E']. injection E' as <- <-.
    split.
    - rewrite !add_all_trans, !flip_mk. cbn [tm_init tm_trans app]. rewrite map_app. apply Permutation_app_comm.
    - intros n ->. split; [exact (charge_zero _ _ _ _ _ _ C) | exact (charge_zero _ _ _ _ _ _ C')].
  Qed.
  Lemma tied_dec h p : tied h p \/ ~ tied h p.
  Proof.
    destruct p as [q| | |]; cbn [tied]; try (right; tauto). destruct (qeq_spec (demand_at h q) (supply_at h q)); [|right; tauto].
    destruct (qlt_spec 0 (demand_at h q)) as [X|X]; [left; auto | right; intros [_ Y]; qlra].
  Qed.

  (** the whole mechanism *)
  Lemma flip_dup l : dup_price_user (fl l) = dup_price_user l.
  Proof.
    induction l as [|r l IH]; [reflexivity|]. cbn [map dup_price_user]. rewrite IH. f_equal. clear IH. induction l as [|s l IH]; cbn [map existsb]; [reflexivity|]. rewrite IH. f_equal.
    cbn [flip price user]. f_equal. destruct (qeq_spec (M - price s) (M - price r)) as [E|E], (qeq_spec (price s) (price r)) as [E'|E']; try reflexivity; exfalso; [apply E'; qlra | apply E; qlra].
  Qed.
  Lemma flip_loc d ls : loc (fl d) ls = fl (loc d ls).
  Proof.
    unfold loc. induction ls as [|i ls IH]; cbn [flat_map]; [reflexivity|]. rewrite IH, map_app. f_equal. rewrite filter_map. reflexivity.
  Qed.
End DualHalf.

Section DualMuda.
  Variables (M : Qc) (S S' : sorter) (d : df) (fl : list bool).
  Hypothesis Hq : qty_nonneg d.
  Hypothesis Hin : inside M d.
  Hypothesis Hm : mirrored M S S'.
  Notation d' := (map (flip M) d).
  Notation L := (pick_left (map lbl d) fl).
  Notation R := (filter (fun i => negb (existsb (Nat.eqb i) L)) (map lbl d)).

  Lemma loc_in ls r : In r (loc d ls) -> In r d.
  Proof. unfold loc. intro H. apply in_flat_map in H. destruct H as (i & _ & H). apply filter_In in H. tauto. Qed.
  Lemma half_price ls : exists v, find_competitive_price S (loc d ls) = Ok v /\ find_competitive_price S' (map (flip M) (loc d ls)) = Ok (flip_num M v).
  Proof.
    destruct (price_flip M S S' (loc d ls)) as (v & E & E' & _); [intros r H; apply Hq, (loc_in ls r H) | intros r H; apply Hin, (loc_in ls r H) | exact Hm|]. eauto.
  Qed.
  Lemma muda_start pl pr : find_competitive_price S (loc d L) = Ok pl -> find_competitive_price S (loc d R) = Ok pr ->
    muda S' d' fl = check_equal_price d (
      '(tl, f1) <- solve_market_side S' (map (flip M) (loc d L)) (flip_num M pr) (zero_fees d) ;;
      '(tr, f2) <- solve_market_side S' (map (flip M) (loc d R)) (flip_num M pl) f1 ;;
      Ok (tm_merge tl tr, XMuda L R (flip_num M pl) (flip_num M pr) f2)).
  Proof.
    intros El Er. unfold muda, check_equal_price. rewrite flip_buyers, flip_sellers, !flip_dup, (orb_comm (dup_price_user (sellers d))). destruct (_ || _); [reflexivity|]. cbv zeta.
    rewrite flip_lbl, !flip_loc. destruct (half_price L) as (v & X & ->). destruct (half_price R) as (w & Y & ->). rewrite El in X. rewrite Er in Y. injection X as ->. injection Y as ->.
    cbn [bind]. unfold zero_fees. rewrite map_map. reflexivity.
  Qed.
  Definition flip_result (x : transmgr * extra) : transmgr * extra :=
    (flip_tm M (fst x), match snd x with XMuda l r pl pr f => XMuda l r (flip_num M pl) (flip_num M pr) f | e => e end).
  Theorem muda_flip : exists pl pr, find_competitive_price S (loc d L) = Ok pl /\ find_competitive_price S (loc d R) = Ok pr /\
    (~ tied (loc d L) pr -> ~ tied (loc d R) pl -> muda S' d' fl = on_ok flip_result (muda S d fl)) /\
    (forall tm l r a b f tm' ex', muda S d fl = Ok (tm, XMuda l r a b f) -> muda S' d' fl = Ok (tm', ex') -> 
       exists f', ex' = XMuda l r (flip_num M a) (flip_num M b) f' /\ Permutation (tm_trans tm') (map (flip_trans M) (tm_trans tm)) /\
         (~ tied (loc d R) pl -> f' = f)).
  Proof.
    destruct (half_price L) as (pl & El & _). destruct (half_price R) as (pr & Er & _). exists pl, pr. split; [exact El|]. split; [exact Er|].
    rewrite (muda_start pl pr El Er). unfold muda, check_equal_price. destruct (dup_price_user (buyers d) || dup_price_user (sellers d)).
    { split; [intros; reflexivity | intros; discriminate]. }
    cbv zeta. rewrite El, Er. cbn [bind]. fold (zero_fees d). split.
    - intros T1 T2. rewrite (half_flip M S S' Hm _ _ _ T1). destruct (solve_market_side S (loc d L) pr (zero_fees d)) as [[tl f1]|]; cbn [on_ok bind fst snd]; [|reflexivity].
      rewrite (half_flip M S S' Hm _ _ _ T2). destruct (solve_market_side S (loc d R) pl f1) as [[tr f2]|]; cbn [on_ok bind fst snd flip_result]; [|reflexivity].
      unfold tm_merge. cbn [flip_tm tm_trans]. change tm_init with (flip_tm M tm_init) at 1. rewrite !flip_add. reflexivity.
    - intros tm l r a b f tm' ex' E E'.
      destruct (solve_market_side S (loc d L) pr (zero_fees d)) as [[tl f1]|] eqn:E1; cbn [bind] in E; [|discriminate E].
      destruct (solve_market_side S (loc d R) pl f1) as [[tr f2]|] eqn:E2; cbn [bind] in E; [|discriminate E]. injection E as <- <- <- <- <- <-.
      destruct (solve_market_side S' (map (flip M) (loc d L)) (flip_num M pr) (zero_fees d)) as [[tl' f1']|] eqn:E1'; cbn [bind] in E'; [|discriminate E'].
      destruct (solve_market_side S' (map (flip M) (loc d R)) (flip_num M pl) f1') as [[tr' f2']|] eqn:E2'; cbn [bind] in E'; [|discriminate E']. injection E' as <- <-.
      exists f2'. split; [reflexivity|].
      assert (P1 : Permutation (tm_trans tl') (map (flip_trans M) (tm_trans tl)) /\ f1' = f1).
      { destruct (tied_dec (loc d L) pr) as [T|T].
        - destruct (half_tied M S S' Hm _ _ _ _ _ _ _ T E1 E1') as [Pm Z]. destruct (Z _ eq_refl) as [-> ->]. auto.
        - rewrite (half_flip M S S' Hm _ _ _ T), E1 in E1'. cbn [on_ok fst snd] in E1'. injection E1' as <- <-. split; [apply Permutation_refl | reflexivity]. }
      destruct P1 as [P1 ->].
      assert (P2 : Permutation (tm_trans tr') (map (flip_trans M) (tm_trans tr)) /\ (~ tied (loc d R) pl -> f2' = f2)).
      { destruct (tied_dec (loc d R) pl) as [T|T].
        - destruct (half_tied M S S' Hm _ _ _ _ _ _ _ T E2 E2') as [Pm _]. split; [exact Pm | tauto].
        - rewrite (half_flip M S S' Hm _ _ _ T), E2 in E2'. cbn [on_ok fst snd] in E2'. injection E2' as <- <-. split; [apply Permutation_refl | reflexivity]. }
      destruct P2 as [P2 F]. split; [|exact F]. unfold tm_merge. rewrite !add_all_trans. cbn [tm_init tm_trans app]. rewrite map_app. apply Permutation_app; assumption.
  Qed.
End DualMuda.
