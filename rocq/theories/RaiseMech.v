(** Raising all prices by the same amount: the mechanisms. *)
From Verif Require Import QcTac Num NumFacts ModelBase ModelCurves ModelHuang ModelMuda ModelP2P ListFacts Spec SpecTrade
  SpecHuang SpecUnits SpecSign CurveFacts IntersectFacts StoreFacts Sorter UnitFacts UnitMech HuangFacts MudaPrice SignFacts RaiseFacts.

Section Mech.
  Variable c : Qc.
  Variable S : sorter.
  Hypothesis HS : compares_prices S.

  Lemma up_qty_nonneg d : qty_nonneg d -> qty_nonneg (raised c d).
  Proof. intros H r Hr. apply in_map_iff in Hr. destruct Hr as (r0 & <- & Hr). apply (H r0 Hr). Qed.

  Lemma up_length l : length (raised c l) = length l.
  Proof. apply map_length. Qed.

  Section Curves.
    Variable d : df.
    Hypothesis Hq : qty_nonneg d.
    Hypothesis A0 : asks_pos d.
    Hypothesis A1 : asks_pos (raised c d).
    Notation f := (fst (demand_curve_from_bids S d)).
    Notation g := (fst (supply_curve_from_bids S d)).
    Notation f' := (fst (demand_curve_from_bids S (raised c d))).
    Notation g' := (fst (supply_curve_from_bids S (raised c d))).

    Lemma up_ordinate x u w : ordinate f' g' (Some x) (Fin (w + c)) (Fin (u + c)) (qf 1 2) = num_raised c (ordinate f g (Some x) (Fin w) (Fin u) (qf 1 2)).
    Proof.
      assert (K : w * qf 1 2 + (1 - qf 1 2) * u + c = (w + c) * qf 1 2 + (1 - qf 1 2) * (u + c)) by ring.
      unfold ordinate, mem_col. rewrite (up_f_fst c S HS d), (up_g_fst c S HS d).
      destruct (nmem x (map fst f)), (nmem x (map fst g)); cbn [andb nadd nmul num_raised]; try reflexivity.
      rewrite K. reflexivity.
    Qed.
    Lemma none_inf h1 h2 k xm i j u w h1' h2' :
      (exists i', StepAt h1 PInf i' (Fin 0)) -> (exists j', StepAt h2 PInf j' PInf) ->
      (forall x, nle (Fin 0) x -> (nle x xm <-> both_defined h1 h2 x)) -> StepAt h1 xm i u -> StepAt h2 xm j w ->
      ordinate h1' h2' None w u k = ordinate h1' h2' None PInf (Fin 0) k.
    Proof.
      intros (i' & F) (j' & G) Hd Su Sw.
      assert (X : xm = PInf).
      { assert (Y : nle PInf xm) by (apply Hd; [reflexivity | split; eauto]). destruct xm; try discriminate; reflexivity. }
      subst xm. destruct (StepAt_fun _ _ _ _ _ _ F Su) as [_ <-]. destruct (StepAt_fun _ _ _ _ _ _ G Sw) as [_ <-]. reflexivity.
    Qed.
    (** the position stays, the value is raised *)
    Lemma up_intersect :
      (exists x i j u w a b, intersect_stepwise f g (qf 1 2) = Ok (Some x, Some i, Some j, ordinate f g (Some x) (Fin w) (Fin u) (qf 1 2)) /\
         nth_error f i = Some (a, Fin u) /\ nth_error g j = Some (b, Fin w) /\
         nth_error f' i = Some (a, Fin (u + c)) /\ nth_error g' j = Some (b, Fin (w + c)) /\
         intersect_stepwise f' g' (qf 1 2) = Ok (Some x, Some i, Some j, num_raised c (ordinate f g (Some x) (Fin w) (Fin u) (qf 1 2)))) \/
      (intersect_stepwise f g (qf 1 2) = Ok (None, None, None, PInf) /\ intersect_stepwise f' g' (qf 1 2) = Ok (None, None, None, PInf)).
    Proof.
      pose proof (up_first c S HS d A0 A1 (qf 1 2)) as E0.
      pose proof (up_qty_nonneg d Hq) as Hq'.
      destruct (intersect_any f g (qf 1 2) (demand_nonempty S d) (supply_nonempty S d) (demand_ends S d Hq) (supply_ends S d Hq))
        as [(x & i & j & u & w & E & Su & Sw & L)|(xm & i & j & u & w & E & Hd & Su & Sw)];
      destruct (intersect_any f' g' (qf 1 2) (demand_nonempty S (raised c d)) (supply_nonempty S (raised c d)) (demand_ends S (raised c d) Hq') (supply_ends S (raised c d) Hq'))
        as [(x' & i' & j' & u' & w' & E' & Su' & Sw' & L')|(xm' & i' & j' & u' & w' & E' & Hd' & Su' & Sw')];
      rewrite E, E' in E0; [| discriminate | discriminate |].
      - left. injection E0 as ->.
        destruct (up_StepAt f f' (fval_up c) x i u (up_f_fst c S HS d) (up_f_nth c S HS d) Su) as (u1 & Su1 & Vu).
        destruct (up_StepAt g g' (gval_up c) x j w (up_g_fst c S HS d) (up_g_nth c S HS d A0 A1) Sw) as (w1 & Sw1 & Vw).
        destruct (StepAt_fun _ _ _ _ _ _ Su1 Su') as [<- <-]. destruct (StepAt_fun _ _ _ _ _ _ Sw1 Sw') as [<- <-].
        destruct Vw as [(q & Q0 & Q1 & -> & ->)|[-> ->]]; [|destruct u; discriminate].
        destruct Vu as [(p & -> & ->)|[-> ->]]; [|apply nlt_Fin in L; exfalso; qlra].
        destruct (StepAt_in _ _ _ _ Su) as (a & _ & _ & Na). destruct (StepAt_in _ _ _ _ Sw) as (b & _ & _ & Nb).
        exists x, i, j, p, q, a, b. split; [exact E|]. split; [exact Na|]. split; [exact Nb|].
        assert (Na' : nth_error f' i = Some (a, Fin (p + c))).
        { destruct (up_f_nth c S HS d _ _ _ Na) as (v & Nv & _). destruct (StepAt_in _ _ _ _ Su') as (a' & _ & _ & N'). congruence. }
        assert (Nb' : nth_error g' j = Some (b, Fin (q + c))).
        { destruct (up_g_nth c S HS d A0 A1 _ _ _ Nb) as (v & Nv & _). destruct (StepAt_in _ _ _ _ Sw') as (a' & _ & _ & N'). congruence. }
        split; [exact Na'|]. split; [exact Nb'|]. rewrite E', up_ordinate. reflexivity.
      - right. rewrite E, E'.
        rewrite (none_inf f g (qf 1 2) xm i j u w f g (f_last S d) (g_last S d) Hd Su Sw).
        rewrite (none_inf f' g' (qf 1 2) xm' i' j' u' w' f' g' (f_last S (raised c d)) (g_last S (raised c d)) Hd' Su' Sw'). split; reflexivity.
    Qed.
    Lemma up_price : find_competitive_price S (raised c d) = match find_competitive_price S d with Ok p => Ok (num_raised c p) | Err e => Err e end.
    Proof.
      unfold find_competitive_price. destruct up_intersect as [(x & i & j & u & w & a & b & -> & _ & _ & _ & _ & ->)|[-> ->]]; reflexivity.
    Qed.
    Lemma up_emit l q p : emit (raised c l) q (p + c) = map (trans_raised c) (emit l q p).
    Proof.
      unfold emit, raised. revert q. induction l as [|r l IH]; intros [|x q]; cbn [map combine]; [reflexivity..|]. rewrite IH. reflexivity.
    Qed.
    Lemma huang_raised : huang_auction S (raised c d) = result_raised c (huang_auction S d).
    Proof.
      unfold huang_auction. destruct up_intersect as [(x & i & j & u & w & a & b & -> & Na & Nb & Na' & Nb' & ->)|[-> ->]]; cbn [bind]; [|reflexivity].
      rewrite Na, Nb, Na', Nb'. rewrite up_buyers, up_sellers, (up_desc c S HS), (up_asc c S HS), !up_firstn, !up_qty.
      set (db := firstn i (s_desc S (buyers d))). set (ds := firstn j (s_asc S (sellers d))).
      destruct (Nat.ltb 0 i && Nat.ltb 0 j); [|reflexivity].
      assert (G : forall qs qb, Ok (add_all (add_all tm_init (emit (raised c ds) qs (w + c))) (emit (raised c db) qb (u + c)), XHuang (w + c) (u + c) (qsum qb))
        = result_raised c (Ok (add_all (add_all tm_init (emit ds qs w)) (emit db qb u), XHuang w u (qsum qb)))).
      { intros qs qb. cbn [result_raised extra_raised]. rewrite !up_emit.
        change tm_init with (up_tm c tm_init) at 1. rewrite !up_add_all. reflexivity. }
      set (gap := qsum (map qty ds) - qsum (map qty db)).
      destruct (qltb 0 gap); [destruct (update_quantity (map qty ds) gap) as [qs|]|destruct (update_quantity (map qty db) (- gap)) as [qb|]]; cbn [bind]; try reflexivity; apply G.
    Qed.
  End Curves.

  (** ** MUDA *)
  Definition up_cut (x : df * nat) : df * nat := (raised c (fst x), snd x).
  Lemma up_with_qty r q : with_qty (bid_raised c r) q = bid_raised c (with_qty r q).
  Proof. reflexivity. Qed.
  Lemma up_nth l i : nth_error (raised c l) i = option_map (bid_raised c) (nth_error l i).
  Proof. apply nth_error_map. Qed.
  Lemma up_trading l q : get_trading_bids (raised c l) q = res_map up_cut (get_trading_bids l q).
  Proof.
    unfold get_trading_bids. rewrite up_qty, up_length.
    match goal with |- context [nth_error (raised c l) ?k] => set (i := k) end.
    rewrite up_firstn, up_skipn, up_qty, up_nth. destruct (nth_error l i) as [r|]; cbn [option_map]; [|reflexivity].
    change (qty (bid_raised c r)) with (qty r). destruct (qltb _ (qty r)); [|reflexivity].
    unfold res_map, up_cut. cbn [fst snd]. unfold raised. rewrite !map_app. reflexivity.
  Qed.
  Definition up_i (x : nat * row) : nat * row := (fst x, bid_raised c (snd x)).
  Lemma up_indexed l : indexed (raised c l) = map up_i (indexed l).
  Proof.
    unfold indexed, raised. rewrite map_length. generalize 0%nat. induction l as [|r l IH]; intro n; cbn [length seq combine map]; [reflexivity|]. rewrite IH. reflexivity.
  Qed.
  Lemma map_filter_up (P Q : nat * row -> bool) l : (forall x, Q (up_i x) = P x) -> filter Q (map up_i l) = map up_i (filter P l).
  Proof. intro H. induction l as [|x l IH]; cbn [map filter]; [reflexivity|]. rewrite H, IH. destruct (P x); reflexivity. Qed.
  Lemma up_set_last l q : set_last_qty (map up_i l) q = map up_i (set_last_qty l q).
  Proof.
    unfold set_last_qty. rewrite <- map_rev. destruct (rev l) as [|[i r] t]; [reflexivity|]. cbn [map up_i fst snd]. rewrite map_app, map_rev. reflexivity.
  Qed.
  Lemma up_iq l : map (fun ir => qty (snd ir)) (map up_i l) = map (fun ir => qty (snd ir)) l.
  Proof. rewrite map_map. reflexivity. Qed.
  Lemma list_eq_nil {A} (l : list A) : l = [] \/ l <> [].
  Proof. destruct l; [left; reflexivity|right; discriminate]. Qed.
  Lemma up_fee l i u q p : compute_fee (map up_i l) i u q (p + c) = compute_fee l i u q p.
  Proof.
    unfold compute_fee. cbv zeta. rewrite (map_filter_up (fun ir => negb (Z.eqb (user (snd ir)) u))) by reflexivity.
    set (O := filter _ l). clearbody O.
    assert (Hm : forall A (m : list A) (a b : Qc), m <> [] -> match m with [] => a | _ => b end = b) by (intros A [|? ?] ? ? H; [congruence|reflexivity]).
    destruct (list_eq_nil O) as [->|NO]; [reflexivity|]. rewrite Hm by (intro Z; apply map_eq_nil in Z; contradiction). rewrite (Hm _ O) by exact NO.
    rewrite up_iq, map_length.
    match goal with |- context [nth_error (map up_i O) ?k] => set (n := k) end.
    rewrite !firstn_map, up_iq, nth_error_map. set (diff := q - _). 
    assert (W : match option_map up_i (nth_error O n) with Some (_, r) => if qltb diff (qty r) then set_last_qty (map up_i (firstn (Datatypes.S n) O)) diff else map up_i (firstn (Datatypes.S n) O) | None => map up_i (firstn (Datatypes.S n) O) end
      = map up_i (match nth_error O n with Some (_, r) => if qltb diff (qty r) then set_last_qty (firstn (Datatypes.S n) O) diff else firstn (Datatypes.S n) O | None => firstn (Datatypes.S n) O end)).
    { destruct (nth_error O n) as [[j r]|]; cbn [option_map up_i fst snd]; [|reflexivity]. change (qty (bid_raised c r)) with (qty r).
      destruct (qltb diff (qty r)); [apply up_set_last | reflexivity]. }
    rewrite W. rewrite (map_filter_up (fun ir => Nat.ltb i (fst ir))) by reflexivity. rewrite map_map. f_equal. f_equal. apply map_ext.
    intros [j r]. cbn [up_i fst snd bid_raised price qty]. ring.
  Qed.
  Lemma up_charge l i q p us : forall fees, charge_users (raised c l) i q (p + c) us fees = charge_users l i q p us fees.
  Proof.
    induction us as [|u us IH]; intros fees; cbn [charge_users]; [reflexivity|]. rewrite up_indexed, up_fee. destruct (set_fee fees u _); cbn [bind]; [apply IH|reflexivity].
  Qed.
  Lemma up_leb p q : nleb (num_raised c p) (num_raised c q) = nleb p q.
  Proof. destruct p, q; cbn [num_raised nleb]; try reflexivity. apply add_leb. Qed.
  Lemma up_solve d p fees : solve_market_side S (raised c d) (num_raised c p) fees =
    res_map (fun x => (up_tm c (fst x), snd x)) (solve_market_side S d p fees).
  Proof.
    unfold solve_market_side. rewrite up_buyers, up_sellers.
    destruct (buyers d) as [|b0 bl]; [reflexivity|]. destruct (sellers d) as [|s0 sl]; [reflexivity|].
    change (raised c (b0 :: bl)) with (bid_raised c b0 :: raised c bl) at 1. change (raised c (s0 :: sl)) with (bid_raised c s0 :: raised c sl) at 1. cbv iota.
    change (bid_raised c b0 :: raised c bl) with (raised c (b0 :: bl)). change (bid_raised c s0 :: raised c sl) with (raised c (s0 :: sl)).
    rewrite (up_filter c (fun r => nleb p (Fin (price r)))) by (intro r; apply (up_leb p (Fin (price r)))).
    rewrite (up_filter c (fun r => nleb (Fin (price r)) p)) by (intro r; apply (up_leb (Fin (price r)) p)).
    rewrite (up_desc c S HS), (up_asc c S HS), !up_qty. set (dem := s_desc S _). set (sup := s_asc S _). cbv zeta.
    set (k := qltb (qsum (map qty dem)) (qsum (map qty sup))).
    replace (if k then raised c sup else raised c dem) with (raised c (if k then sup else dem)) by (destruct k; reflexivity).
    replace (if k then raised c dem else raised c sup) with (raised c (if k then dem else sup)) by (destruct k; reflexivity).
    destruct (qltb 0 _); [|reflexivity]. destruct p as [pr| | |]; try reflexivity. cbn [num_raised]. rewrite !up_trading.
    destruct (get_trading_bids (if k then sup else dem) _) as [[ls li]|]; cbn [res_map bind up_cut fst snd]; [|reflexivity].
    destruct (get_trading_bids (if k then dem else sup) _) as [[ss si]|]; cbn [res_map bind up_cut fst snd]; [|reflexivity].
    rewrite !up_firstn, up_user, up_charge. destruct (charge_users _ _ _ _ _ fees) as [fees'|]; cbn [bind res_map fst snd]; [|reflexivity].
    f_equal. f_equal. change tm_init with (up_tm c tm_init) at 1. rewrite <- !up_add_all. unfold raised. rewrite !map_map. reflexivity.
  Qed.
  Lemma up_dup l : dup_price_user (raised c l) = dup_price_user l.
  Proof.
    induction l as [|r l IH]; [reflexivity|]. change (raised c (r :: l)) with (bid_raised c r :: raised c l). cbn [dup_price_user]. rewrite IH. f_equal. clear IH.
    unfold raised. induction l as [|s l IH]; cbn [map existsb]; [reflexivity|]. rewrite IH. f_equal. cbn [bid_raised price user]. rewrite add_eqb. reflexivity.
  Qed.
  Lemma loc_sub d ls r : In r (loc d ls) -> In r d.
  Proof. unfold loc. intro H. apply in_flat_map in H. destruct H as (i & _ & H). apply filter_In in H. tauto. Qed.
  Lemma muda_raised d fl : qty_nonneg d -> asks_pos d -> asks_pos (raised c d) -> muda S (raised c d) fl = result_raised c (muda S d fl).
  Proof.
    intros Hq A0 A1. unfold muda, check_equal_price. rewrite up_buyers, up_sellers, !up_dup. destruct (_ || _); [reflexivity|].
    rewrite up_lbl, up_user. set (L := pick_left _ _). set (R := filter _ (map lbl d)). rewrite !up_loc.
    assert (P : forall ls, find_competitive_price S (raised c (loc d ls)) = match find_competitive_price S (loc d ls) with Ok p => Ok (num_raised c p) | Err e => Err e end).
    { intro ls. apply up_price.
      - intros r Hr. apply Hq. exact (loc_sub _ _ _ Hr).
      - intros r Hr. apply A0. exact (loc_sub _ _ _ Hr).
      - intros r Hr. apply A1. apply in_map_iff in Hr. destruct Hr as (r0 & <- & Hr). apply in_map. exact (loc_sub _ _ _ Hr). }
    rewrite !P. destruct (find_competitive_price S (loc d L)) as [pl|]; cbn [bind]; [|reflexivity].
    destruct (find_competitive_price S (loc d R)) as [pr|]; cbn [bind]; [|reflexivity].
    rewrite up_solve. destruct (solve_market_side S (loc d L) pr _) as [[tl f1]|]; cbn [res_map bind fst snd]; [|reflexivity].
    rewrite up_solve. destruct (solve_market_side S (loc d R) pl f1) as [[tr f2]|]; cbn [res_map bind fst snd result_raised extra_raised]; [|reflexivity].
    f_equal. f_equal. unfold tm_merge. cbn [up_tm tm_trans]. change tm_init with (up_tm c tm_init) at 1. rewrite !up_add_all. reflexivity.
  Qed.

  (** ** P2P *)
  Definition deals_raised (tm tm' : transmgr) : Prop := n_trans tm' = n_trans tm /\ Forall2 (deal_raised c) (tm_trans tm) (tm_trans tm').
  Lemma deals_add l l' : Forall2 (deal_raised c) l l' -> forall tm tm', deals_raised tm tm' -> deals_raised (add_all tm l) (add_all tm' l').
  Proof.
    induction 1 as [|x y l l' H F IH]; intros tm tm' [N D]; unfold add_all in *; cbn [fold_left]; [split; assumption|].
    apply IH. unfold add_transaction. cbn [fst n_trans tm_trans]. split; cbn [n_trans tm_trans]; [congruence|]. apply F2_app; [exact D|]. constructor; [exact H|constructor].
  Qed.
  Lemma p2p_pair pc prices q tm tm' bs : (fst bs < length prices)%nat -> (snd bs < length prices)%nat -> deals_raised tm tm' ->
    fst (trade_pair pc (map (fun p => p + c) prices) (q, tm') bs) = fst (trade_pair pc prices (q, tm) bs) /\
    deals_raised (snd (trade_pair pc prices (q, tm) bs)) (snd (trade_pair pc (map (fun p => p + c) prices) (q, tm') bs)).
  Proof.
    destruct bs as [b s]. cbn [fst snd]. intros Lb Ls D. unfold trade_pair.
    assert (N : forall i, (i < length prices)%nat -> nth i (map (fun p => p + c) prices) 0 = nth i prices 0 + c).
    { intros i Hi. rewrite (nth_indep _ 0 (0 + c)) by (rewrite map_length; exact Hi). apply (map_nth (fun p => p + c)). }
    rewrite (N b Lb), (N s Ls), add_leb. destruct (qleb (nth s prices 0) (nth b prices 0)); cbn [fst snd]; split; try reflexivity; apply deals_add; try exact D.
    - assert (E : (nth b prices 0 + c) * pc + (1 - pc) * (nth s prices 0 + c) = nth b prices 0 * pc + (1 - pc) * nth s prices 0 + c) by ring. rewrite E.
      constructor; [left; reflexivity|]. constructor; [left; reflexivity|]. constructor.
    - constructor; [right; split; [reflexivity|split; reflexivity]|]. constructor; [right; split; [reflexivity|split; reflexivity]|]. constructor.
  Qed.
  Lemma p2p_pairs pc prices l : (forall bs, In bs l -> (fst bs < length prices)%nat /\ (snd bs < length prices)%nat) -> forall q tm tm', deals_raised tm tm' ->
    fst (fold_left (trade_pair pc (map (fun p => p + c) prices)) l (q, tm')) = fst (fold_left (trade_pair pc prices) l (q, tm)) /\
    deals_raised (snd (fold_left (trade_pair pc prices) l (q, tm))) (snd (fold_left (trade_pair pc (map (fun p => p + c) prices)) l (q, tm'))).
  Proof.
    induction l as [|x l IH]; intros H q tm tm' D; cbn [fold_left]; [split; [reflexivity|exact D]|].
    destruct (H x (or_introl eq_refl)) as [H1 H2]. destruct (p2p_pair pc prices q tm tm' x H1 H2 D) as [E D'].
    destruct (trade_pair pc prices (q, tm) x) as [q1 t1], (trade_pair pc (map (fun p => p + c) prices) (q, tm') x) as [q2 t2]. cbn [fst snd] in E, D'. subst q2.
    apply IH; [intros bs I; apply H; right; exact I | exact D'].
  Qed.
  Lemma pick_sub ps r fuel : forall k act tmp tr tr' act' k', pick_round fuel ps r k act tmp tr = Ok (tr', act', k') ->
    forall x, In x tr' -> In x tr \/ In x ps.
  Proof.
    induction fuel as [|fuel IH]; intros k act tmp tr tr' act' k' E x Hx; cbn [pick_round] in E; destruct (where_true tmp) as [|w0 wl].
    - injection E as <- <- <-. left; exact Hx.
    - discriminate.
    - injection E as <- <- <-. left; exact Hx.
    - destruct (nth_error ps (choose r k (w0 :: wl))) as [t|] eqn:En; [|discriminate].
      destruct (IH _ _ _ _ _ _ _ E x Hx) as [H|H]; [|right; exact H]. apply in_app_or in H. destruct H as [H|[<-|[]]]; [left; exact H|]. right. exact (nth_error_In _ _ En).
  Qed.
  Lemma next_raised d ps q act : next_tmp (raised c d) ps q act = next_tmp d ps q act.
  Proof. unfold next_tmp. rewrite up_buyers, up_sellers, !up_lbl. reflexivity. Qed.
  Lemma loop_raised d ps pc prices r : (forall bs, In bs ps -> (fst bs < length prices)%nat /\ (snd bs < length prices)%nat) ->
    forall fuel k act tmp q tm tm' g, deals_raised tm tm' ->
    match p2p_loop fuel d ps pc prices r k act tmp q tm g, p2p_loop fuel (raised c d) ps pc (map (fun p => p + c) prices) r k act tmp q tm' g with
    | Ok (t, g1), Ok (t', g2) => g2 = g1 /\ deals_raised t t'
    | Err e, Err e' => e' = e
    | _, _ => False
    end.
  Proof.
    intros Hps. induction fuel as [|fuel IH]; intros k act tmp q tm tm' g D; cbn [p2p_loop].
    - destruct (_ && _); [reflexivity|]. split; [reflexivity|exact D].
    - destruct (_ && _); [|split; [reflexivity|exact D]]. destruct (pick_round (length ps) ps r k act tmp []) as [[[tr act'] k']|] eqn:Ep; cbn [bind]; [|reflexivity].
      assert (Ht : forall bs, In bs tr -> (fst bs < length prices)%nat /\ (snd bs < length prices)%nat).
      { intros bs I. destruct (pick_sub _ _ _ _ _ _ _ _ _ _ Ep bs I) as [[]|I']. apply Hps, I'. }
      destruct (p2p_pairs pc prices tr Ht q tm tm' D) as [E D'].
      destruct (fold_left (trade_pair pc prices) tr (q, tm)) as [q1 t1], (fold_left (trade_pair pc (map (fun p => p + c) prices)) tr (q, tm')) as [q2 t2]. cbn [fst snd] in E, D'. subst q2.
      rewrite next_raised. apply IH, D'.
  Qed.
  Lemma p2p_raised d pc r :
    match p2p_random d pc r, p2p_random (raised c d) pc r with
    | Ok (tm, ex), Ok (tm', ex') => ex' = ex /\ n_trans tm' = n_trans tm /\ Forall2 (deal_raised c) (tm_trans tm) (tm_trans tm')
    | Err e, Err e' => e' = e
    | _, _ => False
    end.
  Proof.
    unfold p2p_random. rewrite !all_pairs_lbl, up_buyers, up_sellers, !up_lbl, up_qty, up_length. set (ps := list_prod _ _).
    destruct (forallb _ ps) eqn:Ef; [|reflexivity].
    assert (Hps : forall bs, In bs ps -> (fst bs < length (map price d))%nat /\ (snd bs < length (map price d))%nat).
    { intros bs I. rewrite forallb_forall in Ef. specialize (Ef bs I). apply andb_true_iff in Ef. rewrite !Nat.ltb_lt in Ef. rewrite map_length. exact Ef. }
    assert (Ep : map price (raised c d) = map (fun p => p + c) (map price d)) by (unfold raised; rewrite !map_map; reflexivity). rewrite Ep.
    pose proof (loop_raised d ps pc (map price d) r Hps (length ps) 0%nat (repeat true (length ps)) (repeat true (length ps)) (map qty d) tm_init tm_init [] (conj eq_refl (Forall2_nil _))) as K.
    destruct (p2p_loop _ d _ _ _ _ _ _ _ _ _ _) as [[t g1]|], (p2p_loop _ (raised c d) _ _ _ _ _ _ _ _ _ _) as [[t' g2]|]; cbn [bind]; try contradiction; [|exact K].
    destruct K as [-> D]. split; [reflexivity|exact D].
  Qed.
End Mech.
