(** Change of units: the mechanisms. *)
From Verif Require Import QcTac Num ModelBase ModelCurves ModelHuang ModelMuda ModelP2P ListFacts SpecUnits Sorter StoreFacts UnitFacts.

Definition res_map {A B} (f : A -> B) (x : res A) : res B := match x with Ok v => Ok (f v) | Err e => Err e end.
Lemma set_nth_map {A B} (f : A -> B) i v l : set_nth i (f v) (map f l) = map f (set_nth i v l).
Proof. revert i. induction l as [|x l IH]; intros [|i]; cbn [map set_nth]; [reflexivity..|]. rewrite IH. reflexivity. Qed.
Definition tmgr_units (a b : Qc) (tm : transmgr) : transmgr := mkTM (n_trans tm) (map (trans_units a b) (tm_trans tm)).
Lemma add_all_units a b l : forall tm, add_all (tmgr_units a b tm) (map (trans_units a b) l) = tmgr_units a b (add_all tm l).
Proof.
  unfold add_all. induction l as [|x l IH]; intros tm; cbn [map fold_left]; [reflexivity|]. rewrite <- IH. f_equal.
  unfold add_transaction, tmgr_units. cbn [fst n_trans tm_trans]. rewrite map_app. reflexivity.
Qed.

Section Huang.
  Variables a b : Qc.
  Hypothesis Ha : 0 < a.
  Hypothesis Hb : 0 < b.
  Lemma nan_units l : forall i best, nanargmin_from i (map (option_map (Qcmult a)) l) (option_map (fun x => (fst x, a * snd x)) best)
    = option_map (fun x => (fst x, a * snd x)) (nanargmin_from i l best).
  Proof.
    induction l as [|[v|] l IH]; intros i best; cbn [map option_map nanargmin_from]; [reflexivity| |apply IH].
    destruct best as [[j w]|]; cbn [option_map fst snd]; [|apply (IH (Datatypes.S i) (Some (i, v)))].
    rewrite scale_ltb by exact Ha. destruct (qltb v w); [apply (IH (Datatypes.S i) (Some (i, v)))|apply (IH (Datatypes.S i) (Some (j, w)))].
  Qed.
  Lemma nanarg_units l : nanargmin (map (option_map (Qcmult a)) l) = option_map (fun x => (fst x, a * snd x)) (nanargmin l).
  Proof. apply (nan_units l 0%nat None). Qed.
  Lemma uq_units fuel : forall q gap N i v, uq_loop fuel (map (option_map (Qcmult a)) q) (a * gap) N i (a * v)
    = res_map (fun x => (map (option_map (Qcmult a)) (fst (fst x)), a * snd (fst x), snd x)) (uq_loop fuel q gap N i v).
  Proof.
    induction fuel as [|fuel IH]; intros q gap N i v; cbn [uq_loop]; [reflexivity|].
    replace (a * gap / qnat N) with (a * (gap / qnat N)) by (unfold Qcdiv; ring). rewrite scale_ltb by exact Ha.
    destruct (qltb v (gap / qnat N)); [|reflexivity].
    assert (E0 : set_nth i None (map (option_map (Qcmult a)) q) = map (option_map (Qcmult a)) (set_nth i None q)) by (rewrite <- set_nth_map; reflexivity).
    rewrite E0, nanarg_units. destruct (nanargmin (set_nth i None q)) as [[j w]|]; [|reflexivity].
    cbn [option_map fst snd]. replace (a * gap - a * v) with (a * (gap - v)) by ring. apply IH.
  Qed.
  Lemma list_max_units l : forall x, list_max (a * x) (map (Qcmult a) l) = a * list_max x l.
  Proof. unfold list_max. induction l as [|y l IH]; intros x; cbn [map fold_left]; [reflexivity|]. rewrite scale_max by exact Ha. apply IH. Qed.
  Lemma update_units q gap : update_quantity (map (Qcmult a) q) (a * gap) = res_map (map (Qcmult a)) (update_quantity q gap).
  Proof.
    unfold update_quantity. replace (map Some (map (Qcmult a) q)) with (map (option_map (Qcmult a)) (map Some q)) by (rewrite !map_map; reflexivity).
    rewrite nanarg_units. destruct (nanargmin (map Some q)) as [[i v]|]; [|reflexivity]. cbn [option_map fst snd]. rewrite map_length, uq_units.
    destruct (uq_loop _ _ _ _ _ _) as [[[q1 g1] N1]|]; [|reflexivity]. cbn [res_map bind fst snd].
    set (q3 := map (fun x => x - g1 / qnat N1) (map (fun o => match o with Some x => x | None => 0 end) q1)).
    replace (map (fun x => x - a * g1 / qnat N1) (map (fun o => match o with Some x => x | None => 0 end) (map (option_map (Qcmult a)) q1))) with (map (Qcmult a) q3).
    2: { unfold q3. rewrite !map_map. apply map_ext. intros [x|]; cbn [option_map]; unfold Qcdiv; ring. }
    clearbody q3. destruct q3 as [|x r]; [reflexivity|]. change (map (Qcmult a) (x :: r)) with (a * x :: map (Qcmult a) r).
    cbv iota. change (a * x :: map (Qcmult a) r) with (map (Qcmult a) (x :: r)). rewrite list_max_units. cbn [res_map]. f_equal. rewrite !map_map. apply map_ext. intros y.
    replace 0 with (a * 0) at 1 by ring. rewrite (scale_max a y 0 Ha), scale_min by exact Ha. reflexivity.
  Qed.
  Variable R : row -> row -> Prop.
  Hypothesis HR : forall r r', R r r' -> same_bid a b r r'.
  Lemma emit_units d d' : Forall2 R d d' -> forall qs p, emit d' (map (Qcmult a) qs) (b * p) = map (trans_units a b) (emit d qs p).
  Proof.
    unfold emit. induction 1 as [|x x' d d' H F IH]; intros qs p; [reflexivity|]. destruct qs as [|q qs]; [reflexivity|]. cbn [map combine fst snd]. rewrite IH.
    destruct (HR _ _ H) as (-> & _). reflexivity.
  Qed.
  Variable S : sorter.
  Hypothesis HS : compares_prices S.
  Lemma huang_units d d' : Forall2 R d d' -> huang_auction S d' = result_units a b (huang_auction S d).
  Proof.
    intros F. unfold huang_auction. rewrite (tb_demand a b Hb R HR S HS _ _ F), (tb_supply a b Hb R HR S HS _ _ F). cbn [fst]. rewrite (cu_intersect a b Ha Hb).
    destruct (intersect_stepwise _ _ _) as [[[[x [i|]] [j|]] v]|]; cbn [bind]; try reflexivity.
    unfold curve_units. rewrite !nth_error_map.
    destruct (nth_error (fst (supply_curve_from_bids S d)) j) as [[xs vs]|]; cbn [option_map]; [|reflexivity].
    destruct (nth_error (fst (demand_curve_from_bids S d)) i) as [[xd vd]|]; cbn [option_map fst snd]; [|destruct vs; reflexivity].
    destruct vs as [ps| | |]; cbn [in_units]; try reflexivity. destruct vd as [pb| | |]; cbn [in_units]; try reflexivity.
    set (db := firstn i (s_desc S (buyers d))). set (ds := firstn j (s_asc S (sellers d))).
    assert (Fb : Forall2 R db (firstn i (s_desc S (buyers d')))) by (apply F2_firstn, (tb_desc a b Hb R HR S HS), (tb_buyers a b R HR), F).
    assert (Fs : Forall2 R ds (firstn j (s_asc S (sellers d')))) by (apply F2_firstn, (tb_asc a b Hb R HR S HS), (tb_sellers a b R HR), F).
    rewrite (tb_qty a b R HR _ _ Fb), (tb_qty a b R HR _ _ Fs), !scale_sum.
    replace (a * qsum (map qty ds) - a * qsum (map qty db)) with (a * (qsum (map qty ds) - qsum (map qty db))) by ring.
    set (gap := qsum (map qty ds) - qsum (map qty db)). rewrite scale_ltb0 by exact Ha. replace (- (a * gap)) with (a * - gap) by ring. rewrite !update_units.
    destruct (Nat.ltb 0 i && Nat.ltb 0 j); [|reflexivity].
    assert (G : forall qs qb, Ok (add_all (add_all tm_init (emit (firstn j (s_asc S (sellers d'))) (map (Qcmult a) qs) (b * ps))) (emit (firstn i (s_desc S (buyers d'))) (map (Qcmult a) qb) (b * pb)), XHuang (b * ps) (b * pb) (qsum (map (Qcmult a) qb)))
      = result_units a b (Ok (add_all (add_all tm_init (emit ds qs ps)) (emit db qb pb), XHuang ps pb (qsum qb)))).
    { intros qs qb. cbn [result_units extra_units]. rewrite (emit_units _ _ Fs), (emit_units _ _ Fb), scale_sum. f_equal. f_equal.
      change tm_init with (tmgr_units a b tm_init) at 1. rewrite !add_all_units. reflexivity. }
    destruct (qltb 0 gap); [destruct (update_quantity (map qty ds) gap) as [qs|]|destruct (update_quantity (map qty db) (- gap)) as [qb|]]; cbn [res_map bind]; try reflexivity; apply G.
  Qed.
End Huang.

Section P2P.
  Variables a b : Qc.
  Hypothesis Ha : 0 < a.
  Hypothesis Hb : 0 < b.
  Variable R : row -> row -> Prop.
  Hypothesis HR : forall r r', R r r' -> same_bid a b r r'.
  Lemma all_pairs_lbl d : all_pairs d = list_prod (map lbl (buyers d)) (map lbl (sellers d)).
  Proof. unfold all_pairs. induction (buyers d) as [|x l IH]; cbn [flat_map map list_prod]; [reflexivity|]. rewrite map_map, IH. reflexivity. Qed.
  Lemma nth_units l i : nth i (map (Qcmult a) l) 0 = a * nth i l 0.
  Proof. rewrite <- (map_nth (Qcmult a)). replace (a * 0) with 0 by ring. reflexivity. Qed.
  Lemma nth_unitsb l i : nth i (map (Qcmult b) l) 0 = b * nth i l 0.
  Proof. rewrite <- (map_nth (Qcmult b)). replace (b * 0) with 0 by ring. reflexivity. Qed.
  Lemma pair_units c prices q tm bs : trade_pair c (map (Qcmult b) prices) (map (Qcmult a) q, tmgr_units a b tm) bs =
    (map (Qcmult a) (fst (trade_pair c prices (q, tm) bs)), tmgr_units a b (snd (trade_pair c prices (q, tm) bs))).
  Proof.
    destruct bs as [i j]. unfold trade_pair. rewrite !nth_units, !nth_unitsb, scale_leb by exact Hb.
    destruct (qleb (nth j prices 0) (nth i prices 0)); cbn [fst snd].
    - rewrite scale_min by exact Ha. set (q0 := qmin _ _).
      replace (a * nth i q 0 - a * q0) with (a * (nth i q 0 - q0)) by ring. replace (a * nth j q 0 - a * q0) with (a * (nth j q 0 - q0)) by ring.
      rewrite (set_nth_map (Qcmult a)), nth_units. replace (a * nth j (set_nth i (nth i q 0 - q0) q) 0 - a * q0) with (a * (nth j (set_nth i (nth i q 0 - q0) q) 0 - q0)) by ring.
      rewrite (set_nth_map (Qcmult a)), !scale_ltb0 by exact Ha. f_equal. rewrite <- add_all_units. f_equal. cbn [map trans_units t_bid t_qty t_price t_source t_active].
      replace (b * nth i prices 0 * c + (1 - c) * (b * nth j prices 0)) with (b * (nth i prices 0 * c + (1 - c) * nth j prices 0)) by ring. reflexivity.
    - f_equal. rewrite <- add_all_units. f_equal. cbn [map trans_units t_bid t_qty t_price t_source t_active]. unfold trans_units; cbn [t_bid t_qty t_price t_source t_active].
      replace (a * 0) with 0 by ring. replace (b * 0) with 0 by ring. reflexivity.
  Qed.
  Lemma pairs_units c prices l : forall q tm, fold_left (trade_pair c (map (Qcmult b) prices)) l (map (Qcmult a) q, tmgr_units a b tm) =
    (map (Qcmult a) (fst (fold_left (trade_pair c prices) l (q, tm))), tmgr_units a b (snd (fold_left (trade_pair c prices) l (q, tm)))).
  Proof.
    induction l as [|x l IH]; intros q tm; cbn [fold_left]; [reflexivity|]. rewrite pair_units, IH. rewrite <- surjective_pairing. reflexivity.
  Qed.
  Lemma next_units d d' ps q act : Forall2 R d d' -> next_tmp d' ps (map (Qcmult a) q) act = next_tmp d ps q act.
  Proof.
    intros F. unfold next_tmp. rewrite (tb_lbl a b R HR _ _ (tb_buyers a b R HR _ _ F)), (tb_lbl a b R HR _ _ (tb_sellers a b R HR _ _ F)).
    assert (E : forall l, filter (fun i => qeqb (nth i (map (Qcmult a) q) 0) 0) l = filter (fun i => qeqb (nth i q 0) 0) l)
      by (intros l; apply filter_ext; intros i; rewrite nth_units; apply scale_eqb0, Ha).
    rewrite !E. reflexivity.
  Qed.
  Lemma loop_units d d' ps c prices r : Forall2 R d d' -> forall fuel k act tmp q tm g,
    p2p_loop fuel d' ps c (map (Qcmult b) prices) r k act tmp (map (Qcmult a) q) (tmgr_units a b tm) g
    = res_map (fun x => (tmgr_units a b (fst x), snd x)) (p2p_loop fuel d ps c prices r k act tmp q tm g).
  Proof.
    intros F. induction fuel as [|fuel IH]; intros k act tmp q tm g; cbn [p2p_loop]; rewrite scale_sum, scale_ltb0 by exact Ha.
    - destruct (_ && _); reflexivity.
    - destruct (_ && _); [|reflexivity]. destruct (pick_round _ _ _ _ _ _ _) as [[[tr act'] k']|]; cbn [bind res_map]; [|reflexivity].
      rewrite pairs_units. destruct (fold_left (trade_pair c prices) tr (q, tm)) as [q' tm'] eqn:E. cbn [fst snd]. rewrite (next_units d d') by exact F. apply IH.
  Qed.
  Lemma p2p_units d d' c r : Forall2 R d d' -> p2p_random d' c r = result_units a b (p2p_random d c r).
  Proof.
    intros F. unfold p2p_random. rewrite !all_pairs_lbl, (tb_lbl a b R HR _ _ (tb_buyers a b R HR _ _ F)), (tb_lbl a b R HR _ _ (tb_sellers a b R HR _ _ F)), <- (Forall2_len _ _ _ F).
    destruct (forallb _ _); [|reflexivity]. rewrite (tb_price a b R HR _ _ F), (tb_qty a b R HR _ _ F).
    change tm_init with (tmgr_units a b tm_init) at 1. rewrite (loop_units d d') by exact F.
    destruct (p2p_loop _ _ _ _ _ _ _ _ _ _ _ _) as [[tm g]|]; reflexivity.
  Qed.
End P2P.

Section Muda.
  Variables a b : Qc.
  Hypothesis Ha : 0 < a.
  Hypothesis Hb : 0 < b.
  Variable R : row -> row -> Prop.
  Hypothesis HR : forall r r', R r r' -> same_bid a b r r'.
  Hypothesis HW : forall r r' q, R r r' -> R (with_qty r q) (with_qty r' (a * q)).

  Lemma F2_app {A B} (T : A -> B -> Prop) l1 l1' l2 l2' : Forall2 T l1 l1' -> Forall2 T l2 l2' -> Forall2 T (l1 ++ l2) (l1' ++ l2').
  Proof. induction 1; cbn [app]; [trivial|]. intros K. constructor; auto. Qed.
  Lemma position_units q l : argmax_bool (map (fun c => qleb (a * q) c) (cumsum (map (Qcmult a) l))) = argmax_bool (map (fun c => qleb q c) (cumsum l)).
  Proof. rewrite scale_cumsum, map_map. f_equal. apply map_ext. intros c. apply scale_leb, Ha. Qed.
  Lemma cut_units l l' q : Forall2 R l l' ->
    match get_trading_bids l q, get_trading_bids l' (a * q) with Ok (m, i), Ok (m', i') => Forall2 R m m' /\ i' = i | Err e, Err e' => e' = e | _, _ => False end.
  Proof.
    intros F. unfold get_trading_bids. rewrite <- (Forall2_len _ _ _ F), (tb_qty a b R HR _ _ F), scale_sum, scale_ltb, position_units by exact Ha.
    set (i := if qltb q (qsum (map qty l)) then _ else _). rewrite (tb_qty a b R HR _ _ (F2_firstn R i _ _ F)), scale_sum.
    replace (a * q - a * qsum (map qty (firstn i l))) with (a * (q - qsum (map qty (firstn i l)))) by ring. set (diff := q - qsum (map qty (firstn i l))).
    assert (N := F2_nth R l l' F i). revert N. destruct (nth_error l i) as [r|], (nth_error l' i) as [r'|]; intros N; try contradiction; [|reflexivity].
    destruct (HR _ _ N) as (_ & Eq & _). rewrite Eq, scale_ltb by exact Ha. destruct (qltb diff (qty r)); [|split; [exact F|reflexivity]].
    split; [|reflexivity]. apply F2_app; [apply F2_firstn, F|]. constructor; [apply HW, N|]. constructor; [|apply F2_skipn, F].
    replace (a * qty r - a * diff) with (a * (qty r - diff)) by ring. apply HW, N.
  Qed.
  Lemma mk_units p l l' : Forall2 R l l' -> map (fun r => mkTrans (lbl r) (qty r) (b * p) (-1) false) l' = map (trans_units a b) (map (fun r => mkTrans (lbl r) (qty r) p (-1) false) l).
  Proof. intros F. apply (F2_map R _ _ _ l l' F). intros x y _ H. destruct (HR _ _ H) as (-> & -> & _). reflexivity. Qed.

  Variable S : sorter.
  Hypothesis HS : compares_prices S.
  Lemma query_buy p l l' : Forall2 R l l' -> Forall2 R (filter (fun r => nleb p (Fin (price r))) l) (filter (fun r => nleb (in_units b p) (Fin (price r))) l').
  Proof. intros F. apply F2_filter; [exact F|]. intros x y _ H. destruct (HR _ _ H) as (_ & _ & -> & _). apply (u_leb b Hb p (Fin (price x))). Qed.
  Lemma query_sell p l l' : Forall2 R l l' -> Forall2 R (filter (fun r => nleb (Fin (price r)) p) l) (filter (fun r => nleb (Fin (price r)) (in_units b p)) l').
  Proof. intros F. apply F2_filter; [exact F|]. intros x y _ H. destruct (HR _ _ H) as (_ & _ & -> & _). apply (u_leb b Hb (Fin (price x)) p). Qed.

  Definition core (long0 short0 : df) (total pr : Qc) : res (transmgr * df * nat * Qc) :=
    '(long_side, l_index) <- get_trading_bids long0 total ;;
    '(short_side, s_index) <- get_trading_bids short0 total ;;
    let mk := fun r => mkTrans (lbl r) (qty r) pr (-1) false in
    Ok (add_all (add_all tm_init (map mk (firstn (Datatypes.S s_index) short_side))) (map mk (firstn (Datatypes.S l_index) long_side)), long_side, l_index, total).
  Lemma core_units l l' h h' q pr : Forall2 R l l' -> Forall2 R h h' ->
    match core l h q pr, core l' h' (a * q) (b * pr) with
    | Err e, Err e' => e' = e
    | Ok (tm, l, i, q), Ok (tm', l', i', q') => tm' = tmgr_units a b tm /\ Forall2 R l l' /\ i' = i /\ q' = a * q
    | _, _ => False
    end.
  Proof.
    intros Fl Fh. unfold core. assert (K := cut_units _ _ q Fl). assert (K' := cut_units _ _ q Fh). 
    destruct (get_trading_bids l q) as [[ls li]|], (get_trading_bids l' (a * q)) as [[ls' li']|]; try contradiction; [|exact K].
    destruct (get_trading_bids h q) as [[ss si]|], (get_trading_bids h' (a * q)) as [[ss' si']|]; try contradiction; [|exact K'].
    destruct K as [Kl ->], K' as [Ks ->]. cbn [bind]. split; [|split; [exact Kl|split; reflexivity]].
    rewrite (mk_units pr _ _ (F2_firstn R _ _ _ Ks)), (mk_units pr _ _ (F2_firstn R _ _ _ Kl)).
    change tm_init with (tmgr_units a b tm_init) at 1. rewrite !add_all_units. reflexivity.
  Qed.
  (** the cleared sides, before fees *)
  Definition cleared (bids : df) (p : num) : option (res (transmgr * df * nat * Qc)) :=
    match buyers bids, sellers bids with
    | [], _ => None
    | _, [] => None
    | demand0, supply0 =>
        let demand := s_desc S (filter (fun r => nleb p (Fin (price r))) demand0) in
        let supply := s_asc S (filter (fun r => nleb (Fin (price r)) p) supply0) in
        let supply_quantity := qsum (map qty supply) in
        let demand_quantity := qsum (map qty demand) in
        let supply_long := qltb demand_quantity supply_quantity in
        let long0 := if supply_long then supply else demand in
        let short0 := if supply_long then demand else supply in
        let total := if supply_long then demand_quantity else supply_quantity in
        if qltb 0 total then
          Some match p with
          | Fin pr =>
              '(long_side, l_index) <- get_trading_bids long0 total ;;
              '(short_side, s_index) <- get_trading_bids short0 total ;;
              let mk := fun r => mkTrans (lbl r) (qty r) pr (-1) false in
              Ok (add_all (add_all tm_init (map mk (firstn (Datatypes.S s_index) short_side))) (map mk (firstn (Datatypes.S l_index) long_side)), long_side, l_index, total)
          | _ => Err Unreachable
          end
        else None
    end.
  Definition finish (p : num) (fees : list Qc) (x : option (res (transmgr * df * nat * Qc))) : res (transmgr * list Qc) :=
    match x with
    | None => Ok (tm_init, fees)
    | Some (Err e) => Err e
    | Some (Ok (tm, long_side, l_index, total)) =>
        match p with
        | Fin pr => fees' <- charge_users long_side l_index total pr (uniqueZ (map user (firstn (Datatypes.S l_index) long_side))) fees ;; Ok (tm, fees')
        | _ => Err Unreachable
        end
    end.
  Lemma solve_finish bids p fees : solve_market_side S bids p fees = finish p fees (cleared bids p).
  Proof.
    unfold solve_market_side, cleared. destruct (buyers bids); [reflexivity|]. destruct (sellers bids); [reflexivity|].
    cbv zeta. match goal with |- (if ?c then _ else _) = _ => destruct c; [|reflexivity] end. destruct p as [pr| | |]; try reflexivity. cbn [finish].
    destruct (get_trading_bids _ _) as [[ls li]|]; [|reflexivity]. cbn [bind]. destruct (get_trading_bids _ _) as [[ss si]|]; reflexivity.
  Qed.
  Lemma cleared_units d d' p : Forall2 R d d' ->
    match cleared d p, cleared d' (in_units b p) with
    | None, None => True
    | Some (Err e), Some (Err e') => e' = e
    | Some (Ok (tm, l, i, q)), Some (Ok (tm', l', i', q')) => tm' = tmgr_units a b tm /\ Forall2 R l l' /\ i' = i /\ q' = a * q
    | _, _ => False
    end.
  Proof.
    intros F. unfold cleared. assert (Fb := tb_buyers a b R HR _ _ F). assert (Fs := tb_sellers a b R HR _ _ F).
    destruct (buyers d) as [|b0 bl], (buyers d') as [|b1 bl']; [exact I|inversion Fb|inversion Fb|].
    destruct (sellers d) as [|s0 sl], (sellers d') as [|s1 sl']; [exact I|inversion Fs|inversion Fs|].
    assert (Db := tb_desc a b Hb R HR S HS _ _ (query_buy p _ _ Fb)). assert (Ds := tb_asc a b Hb R HR S HS _ _ (query_sell p _ _ Fs)).
    cbv zeta. set (dem := s_desc S (filter _ (b0 :: bl))) in *. set (sup := s_asc S (filter _ (s0 :: sl))) in *.
    set (dem' := s_desc S (filter _ (b1 :: bl'))) in *. set (sup' := s_asc S (filter _ (s1 :: sl'))) in *. clearbody dem sup dem' sup'.
    rewrite (tb_qty a b R HR _ _ Db), (tb_qty a b R HR _ _ Ds), !scale_sum, scale_ltb by exact Ha.
    set (c := qltb (qsum (map qty dem)) (qsum (map qty sup))).
    replace (if c then a * qsum (map qty dem) else a * qsum (map qty sup)) with (a * (if c then qsum (map qty dem) else qsum (map qty sup))) by (destruct c; reflexivity).
    set (q := if c then qsum (map qty dem) else qsum (map qty sup)). rewrite scale_ltb0 by exact Ha.
    destruct (qltb 0 q); [|exact I].
    assert (Fl : Forall2 R (if c then sup else dem) (if c then sup' else dem')) by (destruct c; assumption).
    assert (Fh : Forall2 R (if c then dem else sup) (if c then dem' else sup')) by (destruct c; assumption).
    destruct p as [pr| | |]; try reflexivity. cbn [in_units].
    exact (core_units _ _ _ _ q pr Fl Fh).
  Qed.
  (** whatever the users are called: the same transactions, unless there is an exception *)
  Lemma solve_trans_units d d' p fees fees' tm tm' f f' : Forall2 R d d' ->
    solve_market_side S d p fees = Ok (tm, f) -> solve_market_side S d' (in_units b p) fees' = Ok (tm', f') -> tm' = tmgr_units a b tm.
  Proof.
    intros F. rewrite !solve_finish. assert (K := cleared_units d d' p F). unfold finish. revert K.
    destruct (cleared d p) as [[[[[t l] i] q]|]|], (cleared d' (in_units b p)) as [[[[[t' l'] i'] q']|]|]; intros K; try contradiction; intros E E'; try discriminate.
    2: { inversion E. inversion E'. reflexivity. }
    destruct p as [pr| | |]; try discriminate. cbn [in_units] in E'.
    destruct (charge_users l i q pr _ fees); [|discriminate]. destruct (charge_users l' i' q' _ _ fees'); [|discriminate]. cbn [bind] in E, E'. destruct K as (K & _). congruence.
  Qed.

  Hypothesis HU : forall r r', R r r' -> user r' = user r.
  Definition RI (x y : nat * row) : Prop := fst y = fst x /\ R (snd x) (snd y).
  Lemma indexed_units l l' : Forall2 R l l' -> Forall2 RI (indexed l) (indexed l').
  Proof.
    intros F. unfold indexed. rewrite <- (Forall2_len _ _ _ F). generalize 0%nat. induction F as [|x y l l' H F IH]; intros n; cbn [length seq combine]; constructor; [split; [reflexivity|exact H]|apply IH].
  Qed.
  Lemma F2_rev {A B} (T : A -> B -> Prop) l l' : Forall2 T l l' -> Forall2 T (rev l) (rev l').
  Proof. induction 1; cbn [rev]; [constructor|]. apply F2_app; [assumption|]. constructor; [assumption|constructor]. Qed.
  Lemma set_last_units l l' q : Forall2 RI l l' -> Forall2 RI (set_last_qty l q) (set_last_qty l' (a * q)).
  Proof.
    intros F. unfold set_last_qty. assert (G := F2_rev _ _ _ F). inversion G as [|[i x] [j y] t t' [Hi Hx] Ht]; [constructor|].
    cbn [fst snd] in Hi, Hx. subst j. apply F2_app; [apply F2_rev, Ht|]. constructor; [split; [reflexivity|apply HW, Hx]|constructor].
  Qed.
  Lemma iq_units l l' : Forall2 RI l l' -> map (fun ir => qty (snd ir)) l' = map (Qcmult a) (map (fun ir => qty (snd ir)) l).
  Proof. intros F. apply (F2_map RI _ _ _ l l' F). intros x y _ [_ H]. destruct (HR _ _ H) as (_ & E & _). exact E. Qed.
  Lemma fee_units l l' i u q p : Forall2 RI l l' -> compute_fee l' i u (a * q) (b * p) = a * b * compute_fee l i u q p.
  Proof.
    intros F. unfold compute_fee. cbv zeta.
    assert (G : Forall2 RI (filter (fun ir => negb (Z.eqb (user (snd ir)) u)) l) (filter (fun ir => negb (Z.eqb (user (snd ir)) u)) l')).
    { apply F2_filter; [exact F|]. intros x y _ [_ H]. rewrite (HU _ _ H). reflexivity. }
    set (o := filter _ l) in *. set (o' := filter _ l') in *. clearbody o o'. destruct o as [|x t], o' as [|y t']; [ring|inversion G|inversion G|].
    set (O := x :: t) in *. set (O' := y :: t') in *. clearbody O O'. clear x t y t' F.
    rewrite <- (Forall2_len _ _ _ G), (iq_units _ _ G), scale_sum, scale_ltb, position_units by exact Ha.
    set (n := if qltb q _ then _ else _). rewrite (iq_units _ _ (F2_firstn RI n _ _ G)), scale_sum.
    replace (a * q - a * qsum (map (fun ir => qty (snd ir)) (firstn n O))) with (a * (q - qsum (map (fun ir => qty (snd ir)) (firstn n O)))) by ring.
    set (diff := q - _).
    assert (W : Forall2 RI
      (match nth_error O n with Some (_, r) => if qltb diff (qty r) then set_last_qty (firstn (Datatypes.S n) O) diff else firstn (Datatypes.S n) O | None => firstn (Datatypes.S n) O end)
      (match nth_error O' n with Some (_, r) => if qltb (a * diff) (qty r) then set_last_qty (firstn (Datatypes.S n) O') (a * diff) else firstn (Datatypes.S n) O' | None => firstn (Datatypes.S n) O' end)).
    { assert (G1 := F2_firstn RI (Datatypes.S n) _ _ G). assert (N := F2_nth RI O O' G n). revert N.
      destruct (nth_error O n) as [[i1 r1]|], (nth_error O' n) as [[i2 r2]|]; intros N; try contradiction; [|exact G1].
      destruct N as [_ N]. cbn [snd] in N. destruct (HR _ _ N) as (_ & -> & _). rewrite scale_ltb by exact Ha. destruct (qltb diff (qty r1)); [apply set_last_units, G1|exact G1]. }
    set (w := match nth_error O n with Some _ => _ | None => _ end) in *. set (w' := match nth_error O' n with Some _ => _ | None => _ end) in *. clearbody w w'.
    assert (V : Forall2 RI (filter (fun ir => Nat.ltb i (fst ir)) w) (filter (fun ir => Nat.ltb i (fst ir)) w')) by (apply F2_filter; [exact W|]; intros x y _ [-> _]; reflexivity).
    rewrite (F2_map RI (fun ir => (price (snd ir) - p) * qty (snd ir)) (fun ir => (price (snd ir) - b * p) * qty (snd ir)) (Qcmult (a * b)) _ _ V).
    2: { intros x y _ [_ H]. destruct (HR _ _ H) as (_ & -> & -> & _). ring. }
    rewrite scale_sum. assert (Hab : 0 < a * b) by (apply qmult_pos; assumption). unfold qabs.
    replace (qleb 0 (a * b * _)) with (qleb 0 (qsum (map (fun ir => (price (snd ir) - p) * qty (snd ir)) (filter (fun ir => Nat.ltb i (fst ir)) w)))).
    2: { rewrite <- (scale_leb (a * b) 0 _ Hab). replace (a * b * 0) with 0 by ring. reflexivity. }
    destruct (qleb 0 _); ring.
  Qed.
  Lemma set_fee_units f u v : set_fee (map (Qcmult (a * b)) f) u (a * b * v) = res_map (map (Qcmult (a * b))) (set_fee f u v).
  Proof.
    unfold set_fee. rewrite map_length. cbv zeta. destruct (_ && _); [cbn [res_map]; rewrite (set_nth_map (Qcmult (a * b))); reflexivity|].
    destruct (_ && _); [cbn [res_map]; rewrite (set_nth_map (Qcmult (a * b))); reflexivity|reflexivity].
  Qed.
  Lemma charge_units l l' i q p us : Forall2 R l l' -> forall f,
    charge_users l' i (a * q) (b * p) us (map (Qcmult (a * b)) f) = res_map (map (Qcmult (a * b))) (charge_users l i q p us f).
  Proof.
    intros F. induction us as [|u us IH]; intros f; cbn [charge_users]; [reflexivity|].
    rewrite (fee_units _ _ i u q p (indexed_units _ _ F)), set_fee_units. destruct (set_fee f u _) as [f1|]; cbn [res_map bind]; [apply IH|reflexivity].
  Qed.
  Lemma solve_units d d' p f : Forall2 R d d' -> solve_market_side S d' (in_units b p) (map (Qcmult (a * b)) f) =
    res_map (fun x => (tmgr_units a b (fst x), map (Qcmult (a * b)) (snd x))) (solve_market_side S d p f).
  Proof.
    intros F. rewrite !solve_finish. assert (K := cleared_units d d' p F). unfold finish. revert K.
    destruct (cleared d p) as [[[[[t l] i] q]|]|], (cleared d' (in_units b p)) as [[[[[t' l'] i'] q']|]|]; intros K; try contradiction; [|subst; reflexivity|reflexivity].
    destruct K as (-> & Fl & -> & ->). destruct p as [pr| | |]; try reflexivity. cbn [in_units].
    rewrite (F2_map_same R user user _ _ (F2_firstn R _ _ _ Fl)) by (intros x y _ H; apply HU, H). rewrite (charge_units _ _ i q pr _ Fl).
    destruct (charge_users l i q pr _ f); reflexivity.
  Qed.
  Lemma dup_units l l' : Forall2 R l l' -> dup_price_user l' = dup_price_user l.
  Proof.
    induction 1 as [|x y l l' H F IH]; cbn [dup_price_user]; [reflexivity|]. rewrite IH. f_equal. clear IH.
    induction F as [|x1 y1 l l' H1 F IH]; cbn [existsb]; [reflexivity|]. rewrite IH, (HU _ _ H), (HU _ _ H1). destruct (HR _ _ H) as (_ & _ & -> & _), (HR _ _ H1) as (_ & _ & -> & _).
    rewrite scale_eqb by exact Hb. reflexivity.
  Qed.
End Muda.

Section Whole.
  Variables a b : Qc.
  Hypothesis Ha : 0 < a.
  Hypothesis Hb : 0 < b.
  Variable S : sorter.
  Hypothesis HS : compares_prices S.
  Lemma loc_units (R : row -> row -> Prop) d d' ls : (forall r r', R r r' -> lbl r' = lbl r) -> Forall2 R d d' -> Forall2 R (loc d ls) (loc d' ls).
  Proof.
    intros K F. unfold loc. induction ls as [|i ls IH]; cbn [flat_map]; [constructor|]. apply F2_app; [|exact IH].
    apply F2_filter; [exact F|]. intros x y _ H. rewrite (K _ _ H). reflexivity.
  Qed.
  Lemma muda_units d d' fl : Forall2 (same_offer a b) d d' -> muda S d' fl = result_units a b (muda S d fl).
  Proof.
    intros F. assert (HR : forall r r', same_offer a b r r' -> same_bid a b r r') by (intros r r' H; apply H).
    assert (HU : forall r r', same_offer a b r r' -> user r' = user r) by (intros r r' H; apply H).
    assert (HW : forall r r' q, same_offer a b r r' -> same_offer a b (with_qty r q) (with_qty r' (a * q))) by (intros r r' q ((A1 & A2 & A3 & A4) & A5); repeat split; assumption).
    unfold muda, check_equal_price. rewrite (dup_units a b Hb _ HR HU _ _ (tb_buyers a b _ HR _ _ F)), (dup_units a b Hb _ HR HU _ _ (tb_sellers a b _ HR _ _ F)).
    destruct (_ || _); [reflexivity|]. rewrite (tb_lbl a b _ HR _ _ F). set (L := pick_left _ _). set (Rg := filter _ (map lbl d)).
    assert (FL := loc_units _ _ _ L (fun r r' H => proj1 (HR r r' H)) F). assert (FR := loc_units _ _ _ Rg (fun r r' H => proj1 (HR r r' H)) F).
    rewrite (tb_fcp a b Ha Hb _ HR S HS _ _ FL). destruct (find_competitive_price S (loc d L)) as [pl|]; [|reflexivity]. cbn [bind].
    rewrite (tb_fcp a b Ha Hb _ HR S HS _ _ FR). destruct (find_competitive_price S (loc d Rg)) as [pr|]; [|reflexivity]. cbn [bind].
    rewrite (F2_map_same _ user user _ _ F) by (intros x y _ H; apply HU, H).
    set (f0 := repeat 0 (length (uniqueZ (map user d)))).
    assert (E0 : f0 = map (Qcmult (a * b)) f0). { unfold f0. induction (length _) as [|n IH]; cbn [repeat map]; [reflexivity|]. rewrite <- IH. f_equal. ring. }
    rewrite E0 at 1. rewrite (solve_units a b Ha Hb _ HR HW S HS HU _ _ pr f0 FL). destruct (solve_market_side S (loc d L) pr f0) as [[tl f1]|]; [|reflexivity]. cbn [res_map bind fst snd].
    rewrite (solve_units a b Ha Hb _ HR HW S HS HU _ _ pl f1 FR). destruct (solve_market_side S (loc d Rg) pl f1) as [[tr f2]|]; [|reflexivity]. cbn [res_map bind fst snd result_units extra_units].
    f_equal. f_equal. unfold tm_merge. cbn [tmgr_units tm_trans]. change tm_init with (tmgr_units a b tm_init) at 1. rewrite !add_all_units. reflexivity.
  Qed.
  (** with other user names: the same transactions, if nothing is raised *)
  Lemma muda_trans_units d d' fl tm tm' l r pl pr f l' r' pl' pr' f' : Forall2 (same_bid a b) d d' ->
    muda S d fl = Ok (tm, XMuda l r pl pr f) -> muda S d' fl = Ok (tm', XMuda l' r' pl' pr' f') ->
    tm' = tmgr_units a b tm /\ l' = l /\ r' = r /\ pl' = in_units b pl /\ pr' = in_units b pr.
  Proof.
    intros F. assert (HR : forall r r', same_bid a b r r' -> same_bid a b r r') by auto.
    assert (HW : forall r r' q, same_bid a b r r' -> same_bid a b (with_qty r q) (with_qty r' (a * q))) by (intros x y q (A1 & A2 & A3 & A4); repeat split; assumption).
    unfold muda, check_equal_price. destruct (_ || _); [discriminate|]. destruct (_ || _); [discriminate|].
    rewrite (tb_lbl a b _ HR _ _ F). set (L := pick_left _ _). set (Rg := filter _ (map lbl d)).
    assert (FL := loc_units _ _ _ L (fun r r' H => proj1 (HR r r' H)) F). assert (FR := loc_units _ _ _ Rg (fun r r' H => proj1 (HR r r' H)) F).
    rewrite (tb_fcp a b Ha Hb _ HR S HS _ _ FL). destruct (find_competitive_price S (loc d L)) as [ql|]; [|discriminate]. cbn [bind].
    rewrite (tb_fcp a b Ha Hb _ HR S HS _ _ FR). destruct (find_competitive_price S (loc d Rg)) as [qr|]; [|discriminate]. cbn [bind].
    destruct (solve_market_side S (loc d L) qr _) as [[tl f1]|] eqn:E1; [|discriminate]. cbn [bind]. destruct (solve_market_side S (loc d Rg) ql _) as [[tr f2]|] eqn:E2; [|discriminate]. cbn [bind].
    destruct (solve_market_side S (loc d' L) _ _) as [[tl' f1']|] eqn:E1'; [|discriminate]. cbn [bind]. destruct (solve_market_side S (loc d' Rg) _ _) as [[tr' f2']|] eqn:E2'; [|discriminate]. cbn [bind].
    intros E E'. rewrite (solve_trans_units a b Ha Hb _ HR HW S HS _ _ _ _ _ _ _ _ _ FL E1 E1'), (solve_trans_units a b Ha Hb _ HR HW S HS _ _ _ _ _ _ _ _ _ FR E2 E2') in E'.
    inversion E; subst. inversion E'; subst. split; [|auto].
    unfold tm_merge. cbn [tmgr_units tm_trans]. change tm_init with (tmgr_units a b tm_init) at 1. rewrite !add_all_units. reflexivity.
  Qed.
End Whole.
