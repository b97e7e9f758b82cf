(** The mechanisms of /repo for given operations of arithmetic.

    This is ModelRound.v with the four operations as parameters instead of exact operations followed by a rounding.  With
    rounded operations it is that model; with the operations of the doubles of [Floats.SpecFloat] below it is a run of the
    code on doubles.  A double is represented by its value here, so the sign of zero is lost.  An operation whose result is
    infinite or NaN has the value [junk], any number.  Comparisons, minima, maxima, negation and absolute value are those of
    the values (for doubles: property C96), and so is sorting. *)
From Coq Require Import Floats.SpecFloat.
From Verif Require Import QcTac Num ModelBase ModelCurves ModelHuang ModelMuda ModelMarket ModelStats ModelUniform ModelRound SpecIeee.

Record arith := mkArith {
  o_add : Qc -> Qc -> Qc;
  o_sub : Qc -> Qc -> Qc;
  o_mul : Qc -> Qc -> Qc;
  o_div : Qc -> Qc -> Qc }.

(** ** The two arithmetics *)
(** exact operations followed by a rounding *)
Definition rounded (R : rounding) : arith :=
  mkArith (fun x y => R (x + y)) (fun x y => R (x - y)) (fun x y => R (x * y)) (fun x y => R (x / y)).
(** the double with the value [q], for a [q] that a double can have *)
Definition to_double (q : Qc) : spec_float :=
  binary_normalize 53 1024 (Qnum (this q) * 2 ^ 1074 / Z.pos (Qden (this q))) (-1074) false.
(** the value of a double *)
Definition of_double (junk : Qc) (x : spec_float) : Qc :=
  match x with S754_zero _ | S754_finite _ _ _ => fval x | _ => junk end.
Definition on_doubles (junk : Qc) (op : spec_float -> spec_float -> spec_float) (x y : Qc) : Qc :=
  of_double junk (op (to_double x) (to_double y)).
Definition doubles (junk : Qc) : arith :=
  mkArith (on_doubles junk (SFadd 53 1024)) (on_doubles junk (SFsub 53 1024)) (on_doubles junk (SFmul 53 1024)) (on_doubles junk (SFdiv 53 1024)).

(** ** Sums of numpy, as in ModelRound.v *)
Definition seq_sum_o (O : arith) (l : list Qc) : Qc := fold_left (o_add O) l 0.
Definition np_block_o (O : arith) (l : list Qc) : Qc :=
  if Nat.ltb (length l) 8 then seq_sum_o O l
  else
    let n := (length l - length l mod 8)%nat in
    let acc j := seq_sum_o O (every8 j (firstn n l)) in
    let s := o_add O (o_add O (o_add O (acc 0%nat) (acc 1%nat)) (o_add O (acc 2%nat) (acc 3%nat)))
                     (o_add O (o_add O (acc 4%nat) (acc 5%nat)) (o_add O (acc 6%nat) (acc 7%nat))) in
    fold_left (o_add O) (skipn n l) s.
Fixpoint np_pair_o (O : arith) (fuel : nat) (l : list Qc) : Qc :=
  match fuel with
  | 0%nat => np_block_o O l
  | S k =>
      if Nat.leb (length l) 128 then np_block_o O l
      else o_add O (np_pair_o O k (firstn (np_half (length l)) l)) (np_pair_o O k (skipn (np_half (length l)) l))
  end.
Definition np_sum_o (O : arith) (l : list Qc) : Qc := np_pair_o O (length l) l.

Section Arithmetic.
  Variable O : arith.
  (** the sum of an array *)
  Variable A : list Qc -> Qc.

  (** [np.cumsum], from left to right *)
  Fixpoint cumsum_from_o (acc : Qc) (l : list Qc) : list Qc :=
    match l with [] => [] | x :: r => o_add O acc x :: cumsum_from_o (o_add O acc x) r end.
  Definition cumsum_o (l : list Qc) : list Qc := cumsum_from_o 0 l.

  (** ** pymarket/bids/demand_curves.py *)
  Definition curve_rows_o (d : df) : curve :=
    combine (map Fin (cumsum_o (map qty d))) (map (fun r => Fin (price r)) d).
  (** demand_curves.py:6-76, 79-150 *)
  Definition demand_curve_o (S : sorter) (d : df) : curve * list nat :=
    let b := s_desc S (buyers d) in (curve_rows_o b ++ [(PInf, Fin 0)], map lbl b).
  Definition supply_curve_o (S : sorter) (d : df) : curve * list nat :=
    let s := s_asc S (sellers d) in (curve_rows_o s ++ [(PInf, PInf)], map lbl s).

  (** products and sums of a price with infinity: as in exact arithmetic, but finite ones are those of the arithmetic *)
  Definition nmul_o (x y : num) : num := match x, y with Fin a, Fin b => Fin (o_mul O a b) | _, _ => nmul x y end.
  Definition nadd_o (x y : num) : num := match x, y with Fin a, Fin b => Fin (o_add O a b) | _, _ => nadd x y end.
  (** demand_curves.py:287-293: [g_val * k + (1 - k) * f_val] *)
  Definition mix_o (gv fv : num) (k : Qc) : num :=
    nadd_o (nmul_o gv (Fin k)) (nmul_o (Fin (o_sub O 1 k)) fv).
  (** demand_curves.py:199-294 [intersect_stepwise]: only the ordinate involves arithmetic *)
  Definition intersect_stepwise_o (f g : curve) (k : Qc)
    : res (option num * option nat * option nat * num) :=
    fm <- col_max f ;;
    gm <- col_max g ;;
    let x_max := nmin fm gm in
    let xs := common_xs f g x_max in
    let pts := map (fun x => (x, get_value_stepwise x f, get_value_stepwise x g)) xs in
    x_ast <- scan pts None ;;
    let f_ast := option_map (fun x => argmax_bool (map (fun p => nleb x (fst p)) f)) x_ast in
    let g_ast := option_map (fun x => argmax_bool (map (fun p => nleb x (fst p)) g)) x_ast in
    g_val <- piece_value g_ast xs g ;;
    f_val <- piece_value f_ast xs f ;;
    match g_val, f_val with
    | Some gv, Some fv =>
        let both := mem_col x_ast f && mem_col x_ast g in
        let v :=
          match x_ast with
          | Some _ => if both then mix_o gv fv k else if mem_col x_ast f then gv else fv
          | None => mix_o gv fv k
          end in
        Ok (x_ast, f_ast, g_ast, v)
    | _, _ => Err TypeError
    end.

  (** ** pymarket/mechanisms/huang_auction.py *)
  (** huang_auction.py:54-64 *)
  Fixpoint uq_loop_o (fuel : nat) (quantity : list (option Qc)) (gap : Qc) (N : nat)
    (i_min : nat) (v_min : Qc) : res (list (option Qc) * Qc * nat) :=
    match fuel with
    | 0%nat => Err OutOfFuel
    | S k =>
        if qltb v_min (o_div O gap (qnat N)) then
          let quantity' := set_nth i_min None quantity in
          match nanargmin quantity' with
          | None => Err ValueError
          | Some (i, v) => uq_loop_o k quantity' (o_sub O gap v_min) (N - 1) i v
          end
        else Ok (quantity, gap, N)
    end.
  (** huang_auction.py:8-69 [update_quantity] *)
  Definition update_quantity_o (quantity : list Qc) (gap : Qc) : res (list Qc) :=
    let q0 := map Some quantity in
    match nanargmin q0 with
    | None => Err ValueError
    | Some (i, v) =>
        '(q1, gap1, N1) <- uq_loop_o (S (length quantity)) q0 gap (length quantity) i v ;;
        let q2 := map (fun o => match o with Some x => x | None => 0 end) q1 in
        let q3 := map (fun x => o_sub O x (o_div O gap1 (qnat N1))) q2 in
        match q3 with
        | [] => Err ValueError
        | x :: r => let mx := list_max x r in Ok (map (fun y => qmin mx (qmax y 0)) q3)
        end
    end.
  (** huang_auction.py:72-205 [huang_auction] *)
  Definition huang_auction_o (S : sorter) (bids : df) : res (transmgr * extra) :=
    let buy := fst (demand_curve_o S bids) in
    let sell := fst (supply_curve_o S bids) in
    '(q_, b_, s_, _) <- intersect_stepwise_o buy sell (qf 1 2) ;;
    match b_, s_ with
    | Some b, Some s =>
        match nth_error sell s, nth_error buy b with
        | Some (_, Fin price_sell), Some (_, Fin price_buy) =>
            let buying_bids := firstn b (s_desc S (buyers bids)) in
            let selling_bids := firstn s (s_asc S (sellers bids)) in
            let quantity_buy := map qty buying_bids in
            let quantity_sell := map qty selling_bids in
            if Nat.ltb 0 b && Nat.ltb 0 s then
              let gap := o_sub O (A quantity_sell) (A quantity_buy) in
              '(qsell, qbuy) <-
                (if qltb 0 gap
                 then qs <- update_quantity_o quantity_sell gap ;; Ok (qs, quantity_buy)
                 else qb <- update_quantity_o quantity_buy (- gap) ;; Ok (quantity_sell, qb)) ;;
              let tm := add_all (add_all tm_init (emit selling_bids qsell price_sell))
                                (emit buying_bids qbuy price_buy) in
              Ok (tm, XHuang price_sell price_buy (A qbuy))
            else Ok (tm_init, XHuang price_sell price_buy (A quantity_buy))
        | Some (_, _), Some (_, _) => Err Unreachable
        | _, _ => Err IndexError
        end
    | _, _ => Ok (tm_init, XEmpty)
    end.

  (** ** pymarket/mechanisms/muda_auction.py *)
  (** muda_auction.py:229-334 [get_trading_bids] *)
  Definition get_trading_bids_o (bids : df) (quantity_traded : Qc) : res (df * nat) :=
    let bid_index :=
      if qltb quantity_traded (A (map qty bids))
      then argmax_bool (map (fun c => qleb quantity_traded c) (cumsum_o (map qty bids)))
      else (length bids - 1)%nat in
    let quantity_but_last := A (map qty (firstn bid_index bids)) in
    let diff := o_sub O quantity_traded quantity_but_last in
    match nth_error bids bid_index with
    | None => Err IndexError
    | Some r =>
        if qltb diff (qty r) then
          Ok (firstn bid_index bids ++ [with_qty r diff; with_qty r (o_sub O (qty r) diff)]
                ++ skipn (S bid_index) bids, bid_index)
        else Ok (bids, bid_index)
    end.
  (** muda_auction.py:337-400 [compute_fee] *)
  Definition compute_fee_o (d : list (nat * row)) (index : nat) (u : Z) (quantity : Qc) (p : Qc) : Qc :=
    let others := filter (fun ir => negb (Z.eqb (user (snd ir)) u)) d in
    match others with
    | [] => 0
    | _ =>
        let qs := map (fun ir => qty (snd ir)) others in
        let new_index :=
          if qltb quantity (A qs)
          then argmax_bool (map (fun c => qleb quantity c) (cumsum_o qs))
          else (length others - 1)%nat in
        let new_winning := firstn (S new_index) others in
        let diff := o_sub O quantity (A (map (fun ir => qty (snd ir)) (firstn new_index others))) in
        let new_winning' :=
          match nth_error others new_index with
          | Some (_, r) => if qltb diff (qty r) then set_last_qty new_winning diff else new_winning
          | None => new_winning
          end in
        let pure_new := filter (fun ir => Nat.ltb index (fst ir)) new_winning' in
        qabs (A (map (fun ir => o_mul O (o_sub O (price (snd ir)) p) (qty (snd ir))) pure_new))
    end.
  (** muda_auction.py:222-224 *)
  Fixpoint charge_users_o (long_side : df) (l_index : nat) (total p : Qc) (us : list Z) (fees : list Qc)
    : res (list Qc) :=
    match us with
    | [] => Ok fees
    | u :: r =>
        fees' <- set_fee fees u (compute_fee_o (indexed long_side) l_index u total p) ;;
        charge_users_o long_side l_index total p r fees'
    end.
  (** muda_auction.py:130-226 [solve_market_side_with_exogenous_price] *)
  Definition solve_market_side_o (S : sorter) (bids : df) (p : num) (fees : list Qc)
    : res (transmgr * list Qc) :=
    match buyers bids, sellers bids with
    | [], _ => Ok (tm_init, fees)
    | _, [] => Ok (tm_init, fees)
    | demand0, supply0 =>
        let demand := s_desc S (filter (fun r => nleb p (Fin (price r))) demand0) in
        let supply := s_asc S (filter (fun r => nleb (Fin (price r)) p) supply0) in
        let supply_quantity := A (map qty supply) in
        let demand_quantity := A (map qty demand) in
        let supply_long := qltb demand_quantity supply_quantity in
        let long0 := if supply_long then supply else demand in
        let short0 := if supply_long then demand else supply in
        let total := if supply_long then demand_quantity else supply_quantity in
        if qltb 0 total then
          match p with
          | Fin pr =>
              '(long_side, l_index) <- get_trading_bids_o long0 total ;;
              '(short_side, s_index) <- get_trading_bids_o short0 total ;;
              let mk := fun r => mkTrans (lbl r) (qty r) pr (-1) false in
              let tm := add_all (add_all tm_init (map mk (firstn (Datatypes.S s_index) short_side)))
                                (map mk (firstn (Datatypes.S l_index) long_side)) in
              let us := uniqueZ (map user (firstn (Datatypes.S l_index) long_side)) in
              fees' <- charge_users_o long_side l_index total pr us fees ;;
              Ok (tm, fees')
          | _ => Err Unreachable
          end
        else Ok (tm_init, fees)
    end.
  (** muda_auction.py:403-429 [find_competitive_price] *)
  Definition find_competitive_price_o (S : sorter) (bids : df) : res num :=
    let buy := fst (demand_curve_o S bids) in
    let sell := fst (supply_curve_o S bids) in
    '(_, _, _, p) <- intersect_stepwise_o buy sell (qf 1 2) ;;
    Ok p.
  (** muda_auction.py:12-127 [muda] *)
  Definition muda_o (S : sorter) (bids : df) (flips : list bool) : res (transmgr * extra) :=
    check_equal_price bids (
      let index := map lbl bids in
      let left := pick_left index flips in
      let right := filter (fun i => negb (existsb (Nat.eqb i) left)) index in
      pl <- find_competitive_price_o S (loc bids left) ;;
      pr <- find_competitive_price_o S (loc bids right) ;;
      let fees := repeat 0 (length (uniqueZ (map user bids))) in
      '(trans_left, fees1) <- solve_market_side_o S (loc bids left) pr fees ;;
      '(trans_right, fees2) <- solve_market_side_o S (loc bids right) pl fees1 ;;
      Ok (tm_merge trans_left trans_right, XMuda left right pl pr fees2)).

  (** ** docs/new_mechanism.ipynb *)
  (** docs/new_mechanism.ipynb:210-220, the loop over the long side; two sums and a difference *)
  Fixpoint uniform_long_o (l : df) (traded added p : Qc) : list trans :=
    match l with
    | [] => []
    | x :: r =>
        mkTrans (lbl x) (if qleb (o_add O (qty x) added) traded then qty x else o_sub O traded added) p (-1) false
        :: uniform_long_o r traded (o_add O added (qty x)) p
    end.
  (** docs/new_mechanism.ipynb:163-225 [uniform_price_mechanism]; [quantity.sum()] is numpy's sum, [A] *)
  Definition uniform_price_mechanism_o (S : sorter) (bids : df) : res (transmgr * extra) :=
    let buy := fst (demand_curve_o S bids) in
    let sell := fst (supply_curve_o S bids) in
    '(q_, b_, s_, price) <- intersect_stepwise_o buy sell (qf 1 2) ;;
    match b_ with
    | None => Err TypeError
    | Some b =>
        match s_ with
        | None => Err TypeError
        | Some s =>
            match q_, price with
            | Some q, Fin p =>
                let buying_bids := firstn (Datatypes.S b) (s_desc S (buyers bids)) in
                let selling_bids := firstn (Datatypes.S s) (s_asc S (sellers bids)) in
                let buying_quantity := A (map qty buying_bids) in
                let selling_quantity := A (map qty selling_bids) in
                let '(long_side, short_side) :=
                  if qltb selling_quantity buying_quantity then (buying_bids, selling_bids)
                  else (selling_bids, buying_bids) in
                let traded_quantity := A (map qty short_side) in
                let trans := add_all (add_all tm_init (uniform_short short_side p))
                               (uniform_long_o long_side traded_quantity 0 p) in
                Ok (trans, XUniform q (Fin p))
            | _, _ => Err Unreachable
            end
        end
    end.
  (** docs/new_mechanism.ipynb:238-268: run through the interface, without merging *)
  Definition uniform_run_o (S : sorter) (d : df) : res (transmgr * extra) :=
    mechanism None (uniform_price_mechanism_o S) d.
  (** ** pymarket/statistics *)
  (** the sum of a group of rows (pandas) *)
  Variable G : list Qc -> Qc.

  (** profits.py:107-125 [get_gain] *)
  Definition get_gain_o (price_x price_y : Qc) (buys : bool) (quantity : Qc) : Qc :=
    let gap := o_sub O price_y price_x in
    o_mul O (if buys then gap else - gap) quantity.
  (** profits.py:81-90: users without rows get 0, as does the sum of an empty group *)
  Definition player_profits_o (d : df) (ts : list trans) (val : row -> Qc) : list Qc :=
    map (fun u => G (map (fun tr => get_gain_o (t_price (fst tr)) (val (snd tr)) (buying (snd tr)) (t_qty (fst tr)))
                         (filter (fun tr => Z.eqb (user (snd tr)) u) (join ts d))))
        (users_sorted d).
  (** profits.py:92-102 *)
  Definition market_profit_o (d : df) (ts : list trans) (fees : list Qc) : Qc :=
    let merged := join ts d in
    let paid := A (map (fun tr => o_mul O (t_price (fst tr)) (t_qty (fst tr))) (filter (fun tr => buying (snd tr)) merged)) in
    let received := A (map (fun tr => o_mul O (t_price (fst tr)) (t_qty (fst tr))) (filter (fun tr => negb (buying (snd tr))) merged)) in
    o_add O (o_sub O paid received) (A fees).
  (** profits.py:6-104 [calculate_profits]; ValueError if no transaction belongs to a bid, as in [ModelStats.v] *)
  Definition calculate_profits_o (d : df) (ts : list trans) (rp : option dict) (fees : option (list Qc))
    : res profits * option dict :=
    let m := dict_fill (match rp with Some m => m | None => [] end) d in
    let fs := match fees with Some f => f | None => repeat 0 (length (uniqueZ (map user d))) end in
    let val := fun r => match dict_get m (lbl r) with Some v => v | None => price r end in
    (match join ts d with
     | [] => Err ValueError
     | _ => Ok (mkProfits (player_profits_o d ts price) (player_profits_o d ts val) (market_profit_o d ts fs))
     end, option_map (fun _ => m) rp).

  (** [if objective > 0: return x / objective else None] *)
  Definition ratio_o (x objective : Qc) : option Qc := if qltb 0 objective then Some (o_div O x objective) else None.
  (** maximum_traded_volume.py:122-131, after the program is solved *)
  Definition percentage_traded_o (objective : Qc) (ts : list trans) : option Qc :=
    ratio_o (o_div O (A (map t_qty ts)) (qz 2)) objective.
  (** maximum_aggregated_utility.py:157-174, after the program is solved *)
  Definition percentage_welfare_o (objective : Qc) (d : df) (ts : list trans) : option Qc :=
    let merged := join ts d in
    let mb := filter (fun tr => buying (snd tr)) merged in
    let ms := filter (fun tr => negb (buying (snd tr))) merged in
    let profit_buyers := A (map (fun tr => o_mul O (o_sub O (price (snd tr)) (t_price (fst tr))) (t_qty (fst tr))) mb) in
    let profit_sellers := A (map (fun tr => o_mul O (o_sub O (t_price (fst tr)) (price (snd tr))) (t_qty (fst tr))) ms) in
    ratio_o (o_add O profit_buyers profit_sellers) objective.
End Arithmetic.
