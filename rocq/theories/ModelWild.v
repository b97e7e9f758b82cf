(** pymarket/bids/demand_curves.py and pymarket/mechanisms/huang_auction.py on tables whose prices can be infinite or NaN.

    The other models have rational prices.  [Market.accept_bid] (market.py:102-118) accepts any float, and a price of
    [np.inf] is the natural way to say "at any price".  Quantities remain exact rationals here. *)
From Verif Require Import QcTac Num ModelBase ModelCurves ModelHuang ModelAny.

(** bids.py:21-28: a row of the table of bids; the price is a rational, infinite or NaN *)
Record wrow := mkWRow {
  w_lbl : nat; w_qty : Qc; w_price : num; w_user : Z; w_buying : bool; w_time : Qc; w_div : bool }.
Definition wdf := list wrow.

(** [bids[bids.buying]], [bids[bids.buying == False]] *)
Definition w_buyers (d : wdf) : wdf := filter w_buying d.
Definition w_sellers (d : wdf) : wdf := filter (fun x => negb (w_buying x)) d.

(** [sort_values('price')] and [sort_values('price', ascending=False)].  pandas puts NaN at the end in both cases
    ([na_position='last'] is the default); the order is otherwise as in [ModelBase.sorter]. *)
Definition up (a b : wrow) : Prop := w_price b = NaN \/ nleb (w_price a) (w_price b) = true.
Definition down (a b : wrow) : Prop := w_price b = NaN \/ nleb (w_price b) (w_price a) = true.
Record wsorter := mkWSorter {
  w_asc : wdf -> wdf;
  w_desc : wdf -> wdf;
  w_asc_perm : forall d, Permutation (w_asc d) d;
  w_desc_perm : forall d, Permutation (w_desc d) d;
  w_asc_sorted : forall d, StronglySorted up (w_asc d);
  w_desc_sorted : forall d, StronglySorted down (w_desc d) }.

(** demand_curves.py:70-76, 144-150, after sorting *)
Definition w_rows (d : wdf) : curve := combine (map Fin (cumsum (map w_qty d))) (map w_price d).
Definition w_demand (b : wdf) : curve := w_rows b ++ [(PInf, Fin 0)].
Definition w_supply (s : wdf) : curve := w_rows s ++ [(PInf, PInf)].

(** huang_auction.py:179-187 *)
Definition w_emit (d : wdf) (qs : list Qc) (p : num) : list (atrans Qc num) :=
  map (fun rq => mkATrans (w_lbl (fst rq)) (snd rq) p (-1) false) (combine d qs).

(** huang_auction.py:72-205 [huang_auction].  The TransactionManager is the list of its transactions; the result [None] is
    the empty dictionary, [Some (ps, pb, q)] the dictionary with [price_sell], [price_buy] and [quantity_traded]. *)
Definition w_huang (S : wsorter) (bids : wdf) : res (list (atrans Qc num) * option (num * num * Qc)) :=
  let buying := w_desc S (w_buyers bids) in
  let selling := w_asc S (w_sellers bids) in
  let buy := w_demand buying in
  let sell := w_supply selling in
  '(q_, b_, s_, _) <- intersect_stepwise buy sell (qf 1 2) ;;
  match b_, s_ with
  | Some b, Some s =>
      match nth_error sell s, nth_error buy b with
      | Some (_, price_sell), Some (_, price_buy) =>
          let buying_bids := firstn b buying in
          let selling_bids := firstn s selling in
          let quantity_buy := map w_qty buying_bids in
          let quantity_sell := map w_qty selling_bids in
          if Nat.ltb 0 b && Nat.ltb 0 s then
            let gap := qsum quantity_sell - qsum quantity_buy in
            '(qsell, qbuy) <-
              (if qltb 0 gap
               then qs <- update_quantity quantity_sell gap ;; Ok (qs, quantity_buy)
               else qb <- update_quantity quantity_buy (- gap) ;; Ok (quantity_sell, qb)) ;;
            Ok (w_emit selling_bids qsell price_sell ++ w_emit buying_bids qbuy price_buy, Some (price_sell, price_buy, qsum qbuy))
          else Ok ([], Some (price_sell, price_buy, qsum quantity_buy))
      | _, _ => Err IndexError
      end
  | _, _ => Ok ([], None)
  end.
