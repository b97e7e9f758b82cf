(** The mechanisms of /repo in rounded arithmetic.

    The other model files compute with exact rationals.  Here every arithmetic operation of the code is
    followed by a rounding.  A [rounding] is any monotone, odd and idempotent function; the rounding of
    IEEE 754 binary64 (to nearest, as long as nothing overflows) is one, and [f64] below is that rounding
    with an unbounded exponent.  Simplifications: no overflow, no signed zero.  Comparisons, minima and
    maxima do not round.

    numpy adds the elements of an array in an order that depends on its length, pandas' cumulative sums
    go from left to right.  A sum is therefore any function of a record [adder]. *)
From Verif Require Import QcTac Num ModelBase ModelCurves ModelHuang ModelMuda ModelP2P.

Record rounding := mkRounding {
  rnd :> Qc -> Qc;
  rnd_mono : forall x y, x <= y -> rnd x <= rnd y;
  rnd_idem : forall x, rnd (rnd x) = rnd x;
  rnd_opp : forall x, rnd (- x) = - rnd x }.

(** a value that is not changed by the rounding (a machine number) *)
Definition machine (R : rounding) (x : Qc) : Prop := R x = x.

(** [sums_to R l s]: [s] is the result of adding the elements of [l] in some order and bracketing *)
Inductive sums_to (R : rounding) : list Qc -> Qc -> Prop :=
| st_nil : sums_to R [] 0
| st_one x : sums_to R [x] x
| st_add l1 l2 a b : sums_to R l1 a -> sums_to R l2 b -> sums_to R (l1 ++ l2) (R (a + b))
| st_perm l l' s : Permutation l l' -> sums_to R l s -> sums_to R l' s.

Record adder (R : rounding) := mkAdder {
  asum :> list Qc -> Qc;
  asum_ok : forall l, sums_to R l (asum l) }.

Section Rounded.
  Variable R : rounding.
  Variable A : adder R.

  (** [np.cumsum], from left to right *)
  Fixpoint cumsum_from_r (acc : Qc) (l : list Qc) : list Qc :=
    match l with [] => [] | x :: r => R (acc + x) :: cumsum_from_r (R (acc + x)) r end.
  Definition cumsum_r (l : list Qc) : list Qc := cumsum_from_r 0 l.

  (** ** pymarket/bids/demand_curves.py *)
  Definition curve_rows_r (d : df) : curve :=
    combine (map Fin (cumsum_r (map qty d))) (map (fun r => Fin (price r)) d).
  (** demand_curves.py:6-76, 79-150 *)
  Definition demand_curve_r (S : sorter) (d : df) : curve * list nat :=
    let b := s_desc S (buyers d) in (curve_rows_r b ++ [(PInf, Fin 0)], map lbl b).
  Definition supply_curve_r (S : sorter) (d : df) : curve * list nat :=
    let s := s_asc S (sellers d) in (curve_rows_r s ++ [(PInf, PInf)], map lbl s).

  (** rounding of an extended number *)
  Definition nround (x : num) : num := match x with Fin q => Fin (R q) | _ => x end.
  (** demand_curves.py:287-293: [g_val * k + (1 - k) * f_val], three roundings and that of [1 - k] *)
  Definition mix_r (gv fv : num) (k : Qc) : num :=
    nround (nadd (nround (nmul gv (Fin k))) (nround (nmul (Fin (R (1 - k))) fv))).
  (** demand_curves.py:199-294 [intersect_stepwise]: only the ordinate involves arithmetic *)
  Definition intersect_stepwise_r (f g : curve) (k : Qc)
    : res (option num * option nat * option nat * num) :=
    fm <- col_max f ;;
    gm <- col_max g ;;
    let x_max := nmin fm gm in
    let xs := common_xs f g x_max in
    let pts := map (fun x => (x, get_value_stepwise x f, get_value_stepwise x g)) xs in
    x_ast <- scan pts None ;;
    let f_ast := option_map (fun x => argmax_bool (map (fun p => nleb x (fst p)) f)) x_ast in
    let g_ast := option_map (fun x => argmax_bool (map (fun p => nleb x (fst p)) g)) x_ast in
    g_val <- piece_value g_ast xs g ;;
    f_val <- piece_value f_ast xs f ;;
    match g_val, f_val with
    | Some gv, Some fv =>
        let both := mem_col x_ast f && mem_col x_ast g in
        let v :=
          match x_ast with
          | Some _ => if both then mix_r gv fv k else if mem_col x_ast f then gv else fv
          | None => mix_r gv fv k
          end in
        Ok (x_ast, f_ast, g_ast, v)
    | _, _ => Err TypeError
    end.

  (** ** pymarket/mechanisms/huang_auction.py *)
  (** huang_auction.py:54-64 *)
  Fixpoint uq_loop_r (fuel : nat) (quantity : list (option Qc)) (gap : Qc) (N : nat)
    (i_min : nat) (v_min : Qc) : res (list (option Qc) * Qc * nat) :=
    match fuel with
    | O => Err OutOfFuel
    | S k =>
        if qltb v_min (R (gap / qnat N)) then
          let quantity' := set_nth i_min None quantity in
          match nanargmin quantity' with
          | None => Err ValueError
          | Some (i, v) => uq_loop_r k quantity' (R (gap - v_min)) (N - 1) i v
          end
        else Ok (quantity, gap, N)
    end.
  (** huang_auction.py:8-69 [update_quantity] *)
  Definition update_quantity_r (quantity : list Qc) (gap : Qc) : res (list Qc) :=
    let q0 := map Some quantity in
    match nanargmin q0 with
    | None => Err ValueError
    | Some (i, v) =>
        '(q1, gap1, N1) <- uq_loop_r (S (length quantity)) q0 gap (length quantity) i v ;;
        let q2 := map (fun o => match o with Some x => x | None => 0 end) q1 in
        let q3 := map (fun x => R (x - R (gap1 / qnat N1))) q2 in
        match q3 with
        | [] => Err ValueError
        | x :: r => let mx := list_max x r in Ok (map (fun y => qmin mx (qmax y 0)) q3)
        end
    end.
  (** huang_auction.py:72-205 [huang_auction] *)
  Definition huang_auction_r (S : sorter) (bids : df) : res (transmgr * extra) :=
    let buy := fst (demand_curve_r S bids) in
    let sell := fst (supply_curve_r S bids) in
    '(q_, b_, s_, _) <- intersect_stepwise_r buy sell (qf 1 2) ;;
    match b_, s_ with
    | Some b, Some s =>
        match nth_error sell s, nth_error buy b with
        | Some (_, Fin price_sell), Some (_, Fin price_buy) =>
            let buying_bids := firstn b (s_desc S (buyers bids)) in
            let selling_bids := firstn s (s_asc S (sellers bids)) in
            let quantity_buy := map qty buying_bids in
            let quantity_sell := map qty selling_bids in
            if Nat.ltb 0 b && Nat.ltb 0 s then
              let gap := R (A quantity_sell - A quantity_buy) in
              '(qsell, qbuy) <-
                (if qltb 0 gap
                 then qs <- update_quantity_r quantity_sell gap ;; Ok (qs, quantity_buy)
                 else qb <- update_quantity_r quantity_buy (- gap) ;; Ok (quantity_sell, qb)) ;;
              let tm := add_all (add_all tm_init (emit selling_bids qsell price_sell))
                                (emit buying_bids qbuy price_buy) in
              Ok (tm, XHuang price_sell price_buy (A qbuy))
            else Ok (tm_init, XHuang price_sell price_buy (A quantity_buy))
        | Some (_, _), Some (_, _) => Err Unreachable
        | _, _ => Err IndexError
        end
    | _, _ => Ok (tm_init, XEmpty)
    end.

  (** ** pymarket/mechanisms/muda_auction.py *)
  (** muda_auction.py:229-334 [get_trading_bids] *)
  Definition get_trading_bids_r (bids : df) (quantity_traded : Qc) : res (df * nat) :=
    let bid_index :=
      if qltb quantity_traded (A (map qty bids))
      then argmax_bool (map (fun c => qleb quantity_traded c) (cumsum_r (map qty bids)))
      else (length bids - 1)%nat in
    let quantity_but_last := A (map qty (firstn bid_index bids)) in
    let diff := R (quantity_traded - quantity_but_last) in
    match nth_error bids bid_index with
    | None => Err IndexError
    | Some r =>
        if qltb diff (qty r) then
          Ok (firstn bid_index bids ++ [with_qty r diff; with_qty r (R (qty r - diff))]
                ++ skipn (S bid_index) bids, bid_index)
        else Ok (bids, bid_index)
    end.
  (** muda_auction.py:337-400 [compute_fee] *)
  Definition compute_fee_r (d : list (nat * row)) (index : nat) (u : Z) (quantity : Qc) (p : Qc) : Qc :=
    let others := filter (fun ir => negb (Z.eqb (user (snd ir)) u)) d in
    match others with
    | [] => 0
    | _ =>
        let qs := map (fun ir => qty (snd ir)) others in
        let new_index :=
          if qltb quantity (A qs)
          then argmax_bool (map (fun c => qleb quantity c) (cumsum_r qs))
          else (length others - 1)%nat in
        let new_winning := firstn (S new_index) others in
        let diff := R (quantity - A (map (fun ir => qty (snd ir)) (firstn new_index others))) in
        let new_winning' :=
          match nth_error others new_index with
          | Some (_, r) => if qltb diff (qty r) then set_last_qty new_winning diff else new_winning
          | None => new_winning
          end in
        let pure_new := filter (fun ir => Nat.ltb index (fst ir)) new_winning' in
        qabs (A (map (fun ir => R (R (price (snd ir) - p) * qty (snd ir))) pure_new))
    end.
  (** muda_auction.py:222-224 *)
  Fixpoint charge_users_r (long_side : df) (l_index : nat) (total p : Qc) (us : list Z) (fees : list Qc)
    : res (list Qc) :=
    match us with
    | [] => Ok fees
    | u :: r =>
        fees' <- set_fee fees u (compute_fee_r (indexed long_side) l_index u total p) ;;
        charge_users_r long_side l_index total p r fees'
    end.
  (** muda_auction.py:130-226 [solve_market_side_with_exogenous_price] *)
  Definition solve_market_side_r (S : sorter) (bids : df) (p : num) (fees : list Qc)
    : res (transmgr * list Qc) :=
    match buyers bids, sellers bids with
    | [], _ => Ok (tm_init, fees)
    | _, [] => Ok (tm_init, fees)
    | demand0, supply0 =>
        let demand := s_desc S (filter (fun r => nleb p (Fin (price r))) demand0) in
        let supply := s_asc S (filter (fun r => nleb (Fin (price r)) p) supply0) in
        let supply_quantity := A (map qty supply) in
        let demand_quantity := A (map qty demand) in
        let supply_long := qltb demand_quantity supply_quantity in
        let long0 := if supply_long then supply else demand in
        let short0 := if supply_long then demand else supply in
        let total := if supply_long then demand_quantity else supply_quantity in
        if qltb 0 total then
          match p with
          | Fin pr =>
              '(long_side, l_index) <- get_trading_bids_r long0 total ;;
              '(short_side, s_index) <- get_trading_bids_r short0 total ;;
              let mk := fun r => mkTrans (lbl r) (qty r) pr (-1) false in
              let tm := add_all (add_all tm_init (map mk (firstn (Datatypes.S s_index) short_side)))
                                (map mk (firstn (Datatypes.S l_index) long_side)) in
              let us := uniqueZ (map user (firstn (Datatypes.S l_index) long_side)) in
              fees' <- charge_users_r long_side l_index total pr us fees ;;
              Ok (tm, fees')
          | _ => Err Unreachable
          end
        else Ok (tm_init, fees)
    end.
  (** muda_auction.py:403-429 [find_competitive_price] *)
  Definition find_competitive_price_r (S : sorter) (bids : df) : res num :=
    let buy := fst (demand_curve_r S bids) in
    let sell := fst (supply_curve_r S bids) in
    '(_, _, _, p) <- intersect_stepwise_r buy sell (qf 1 2) ;;
    Ok p.
  (** muda_auction.py:12-127 [muda] *)
  Definition muda_r (S : sorter) (bids : df) (flips : list bool) : res (transmgr * extra) :=
    check_equal_price bids (
      let index := map lbl bids in
      let left := pick_left index flips in
      let right := filter (fun i => negb (existsb (Nat.eqb i) left)) index in
      pl <- find_competitive_price_r S (loc bids left) ;;
      pr <- find_competitive_price_r S (loc bids right) ;;
      let fees := repeat 0 (length (uniqueZ (map user bids))) in
      '(trans_left, fees1) <- solve_market_side_r S (loc bids left) pr fees ;;
      '(trans_right, fees2) <- solve_market_side_r S (loc bids right) pl fees1 ;;
      Ok (tm_merge trans_left trans_right, XMuda left right pl pr fees2)).

  (** ** pymarket/mechanisms/p2p_random.py *)
  (** p2p_random.py:113-124 *)
  Definition trade_pair_r (p_coef : Qc) (prices : list Qc) (st : list Qc * transmgr) (bs : nat * nat)
    : list Qc * transmgr :=
    let '(quantities, tm) := st in
    let '(b, s) := bs in
    let pb := nth b prices 0 in
    let ps := nth s prices 0 in
    let qb := nth b quantities 0 in
    let qs := nth s quantities 0 in
    if qleb ps pb then
      let q := qmin qb qs in
      let p := R (R (pb * p_coef) + R (R (1 - p_coef) * ps)) in
      let tb := mkTrans b q p (Z.of_nat s) (qltb 0 (R (qb - q))) in
      let ts := mkTrans s q p (Z.of_nat b) (qltb 0 (R (qs - q))) in
      let quantities1 := set_nth b (R (qb - q)) quantities in
      let quantities2 := set_nth s (R (nth s quantities1 0 - q)) quantities1 in
      (quantities2, add_all tm [tb; ts])
    else
      (quantities, add_all tm [mkTrans b 0 0 (Z.of_nat s) true; mkTrans s 0 0 (Z.of_nat b) true]).
  (** p2p_random.py:98-131 *)
  Fixpoint p2p_loop_r (fuel : nat) (d : df) (ps : list (nat * nat)) (p_coef : Qc) (prices : list Qc)
    (r : nat -> nat) (k : nat) (active tmp : list bool) (quantities : list Qc) (tm : transmgr)
    (gtl : list (list (nat * nat))) : res (transmgr * list (list (nat * nat))) :=
    if qltb 0 (A quantities) && existsb (fun b => b) tmp then
      match fuel with
      | O => Err OutOfFuel
      | S n =>
          '(trading, active', k') <- pick_round (length ps) ps r k active tmp [] ;;
          let '(quantities', tm') := fold_left (trade_pair_r p_coef prices) trading (quantities, tm) in
          p2p_loop_r n d ps p_coef prices r k' active' (next_tmp d ps quantities' active')
            quantities' tm' (gtl ++ [trading])
      end
    else Ok (tm, gtl).
  (** p2p_random.py:10-134 *)
  Definition p2p_random_r (bids : df) (p_coef : Qc) (r : nat -> nat) : res (transmgr * extra) :=
    let ps := all_pairs bids in
    if forallb (fun p => Nat.ltb (fst p) (length bids) && Nat.ltb (snd p) (length bids)) ps then
      let active := repeat true (length ps) in
      '(tm, gtl) <- p2p_loop_r (length ps) bids ps p_coef (map price bids) r 0 active active
                      (map qty bids) tm_init [] ;;
      Ok (tm, XP2P gtl)
    else Err IndexError.
End Rounded.

(** ** Exact arithmetic as a rounding *)
Definition exact : rounding := mkRounding (fun x => x) (fun x y H => H) (fun x => eq_refl) (fun x => eq_refl).

(** ** Sums of numpy *)
(** from left to right: numpy for fewer than eight elements, and python's [sum] *)
Definition seq_sum (R : rounding) (l : list Qc) : Qc := fold_left (fun a x => R (a + x)) l 0.
(** the elements at positions [j], [j + 8], [j + 16], ... *)
Fixpoint every8 (j : nat) (l : list Qc) : list Qc :=
  match l with
  | [] => []
  | x :: r => match j with O => x :: every8 7 r | S k => every8 k r end
  end.
(** numpy's pairwise summation (numpy/core/src/umath, [pairwise_sum]).  At most 128 elements: eight accumulators over
    the largest multiple of eight, combined in pairs, then the rest from left to right. *)
Definition np_block (R : rounding) (l : list Qc) : Qc :=
  if Nat.ltb (length l) 8 then seq_sum R l
  else
    let n := (length l - length l mod 8)%nat in
    let acc j := seq_sum R (every8 j (firstn n l)) in
    let s := R (R (R (acc 0%nat + acc 1%nat) + R (acc 2%nat + acc 3%nat)) +
                R (R (acc 4%nat + acc 5%nat) + R (acc 6%nat + acc 7%nat))) in
    fold_left (fun a x => R (a + x)) (skipn n l) s.
(** where a longer array is split: the largest multiple of eight up to half of its length *)
Definition np_half (n : nat) : nat := (n / 2 - (n / 2) mod 8)%nat.
(** More than 128 elements: the sums of the two parts are added; [fuel] bounds the depth. *)
Fixpoint np_pair (R : rounding) (fuel : nat) (l : list Qc) : Qc :=
  match fuel with
  | O => np_block R l
  | S k =>
      if Nat.leb (length l) 128 then np_block R l
      else R (np_pair R k (firstn (np_half (length l)) l) + np_pair R k (skipn (np_half (length l)) l))
  end.
Definition np_sum (R : rounding) (l : list Qc) : Qc := np_pair R (length l) l.
