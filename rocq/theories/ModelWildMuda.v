(** pymarket/mechanisms/muda_auction.py on tables whose prices can be infinite or NaN (see ModelWild.v).

    Quantities are exact rationals; the list of transactions stands for the TransactionManager. *)
From Verif Require Import QcTac Num ModelBase ModelCurves ModelHuang ModelMuda ModelAny ModelWild.

(** decorators.py:39-47: [groupby] leaves out NaN prices and compares infinite ones like any other *)
Fixpoint w_dup (d : wdf) : bool :=
  match d with
  | [] => false
  | r :: t => existsb (fun s => neqb (w_price s) (w_price r) && Z.eqb (w_user s) (w_user r)) t || w_dup t
  end.
(** decorators.py:7-49 [check_equal_price] *)
Definition w_check {A} (bids : wdf) (k : res A) : res A := if w_dup (w_buyers bids) || w_dup (w_sellers bids) then Err NotImplementedError else k.

(** muda_auction.py:229-334 [get_trading_bids] *)
Definition w_with_qty (r : wrow) (q : Qc) : wrow := mkWRow (w_lbl r) q (w_price r) (w_user r) (w_buying r) (w_time r) (w_div r).
Definition w_trading_bids (bids : wdf) (quantity_traded : Qc) : res (wdf * nat) :=
  let bid_index :=
    if qltb quantity_traded (qsum (map w_qty bids)) then argmax_bool (map (fun c => qleb quantity_traded c) (cumsum (map w_qty bids)))
    else (length bids - 1)%nat in
  let diff := quantity_traded - qsum (map w_qty (firstn bid_index bids)) in
  match nth_error bids bid_index with
  | None => Err IndexError
  | Some r =>
      if qltb diff (w_qty r)
      then Ok (firstn bid_index bids ++ [w_with_qty r diff; w_with_qty r (w_qty r - diff)] ++ skipn (S bid_index) bids, bid_index)
      else Ok (bids, bid_index)
  end.

(** [a - b] and [np.abs] *)
Definition nopp (a : num) : num := match a with Fin q => Fin (- q) | PInf => NInf | NInf => PInf | NaN => NaN end.
Definition nsub (a b : num) : num := nadd a (nopp b).
Definition nabs (a : num) : num := match a with Fin q => Fin (qabs q) | NInf => PInf | _ => a end.
(** [Series.sum()] skips NaN (pandas, [skipna=True]) *)
Definition nsum_skip (l : list num) : num := fold_left nadd (filter (fun x => match x with NaN => false | _ => true end) l) (Fin 0).

Definition w_set_last (l : list (nat * wrow)) (q : Qc) : list (nat * wrow) :=
  match rev l with
  | [] => []
  | (i, r) :: t => rev t ++ [(i, w_with_qty r q)]
  end.
(** muda_auction.py:337-400 [compute_fee]; the frame after [reset_index] is a list of positions and rows *)
Definition w_fee (d : list (nat * wrow)) (index : nat) (u : Z) (quantity : Qc) (p : num) : num :=
  let others := filter (fun ir => negb (Z.eqb (w_user (snd ir)) u)) d in
  match others with
  | [] => Fin 0
  | _ =>
      let qs := map (fun ir => w_qty (snd ir)) others in
      let new_index := if qltb quantity (qsum qs) then argmax_bool (map (fun c => qleb quantity c) (cumsum qs)) else (length others - 1)%nat in
      let new_winning := firstn (S new_index) others in
      let diff := quantity - qsum (map (fun ir => w_qty (snd ir)) (firstn new_index others)) in
      let new_winning' :=
        match nth_error others new_index with
        | Some (_, r) => if qltb diff (w_qty r) then w_set_last new_winning diff else new_winning
        | None => new_winning
        end in
      let pure_new := filter (fun ir => Nat.ltb index (fst ir)) new_winning' in
      nabs (nsum_skip (map (fun ir => nmul (nsub (w_price (snd ir)) p) (Fin (w_qty (snd ir)))) pure_new))
  end.
(** [fees[u] = fee], as in ModelMuda.v *)
Definition w_set_fee (fees : list num) (u : Z) (fee : num) : res (list num) :=
  let n := Z.of_nat (length fees) in
  if (0 <=? u)%Z && (u <? n)%Z then Ok (set_nth (Z.to_nat u) fee fees)
  else if (- n <=? u)%Z && (u <? 0)%Z then Ok (set_nth (Z.to_nat (n + u)) fee fees)
  else Err IndexError.
(** muda_auction.py:217-224 *)
Fixpoint w_charge (long_side : wdf) (l_index : nat) (total : Qc) (p : num) (us : list Z) (fees : list num) : res (list num) :=
  match us with
  | [] => Ok fees
  | u :: r =>
      fees' <- w_set_fee fees u (w_fee (combine (seq 0 (length long_side)) long_side) l_index u total p) ;;
      w_charge long_side l_index total p r fees'
  end.

(** muda_auction.py:130-226 [solve_market_side_with_exogenous_price] *)
Definition w_half (S : wsorter) (bids : wdf) (p : num) (fees : list num) : res (list (atrans Qc num) * list num) :=
  match w_buyers bids, w_sellers bids with
  | [], _ => Ok ([], fees)
  | _, [] => Ok ([], fees)
  | demand0, supply0 =>
      let demand := w_desc S (filter (fun r => nleb p (w_price r)) demand0) in
      let supply := w_asc S (filter (fun r => nleb (w_price r) p) supply0) in
      let supply_quantity := qsum (map w_qty supply) in
      let demand_quantity := qsum (map w_qty demand) in
      let supply_long := qltb demand_quantity supply_quantity in
      let long0 := if supply_long then supply else demand in
      let short0 := if supply_long then demand else supply in
      let total := if supply_long then demand_quantity else supply_quantity in
      if qltb 0 total then
        '(long_side, l_index) <- w_trading_bids long0 total ;;
        '(short_side, s_index) <- w_trading_bids short0 total ;;
        let mk := fun r => mkATrans (w_lbl r) (w_qty r) p (-1) false in
        let us := uniqueZ (map w_user (firstn (Datatypes.S l_index) long_side)) in
        fees' <- w_charge long_side l_index total p us fees ;;
        Ok (map mk (firstn (Datatypes.S s_index) short_side) ++ map mk (firstn (Datatypes.S l_index) long_side), fees')
      else Ok ([], fees)
  end.

(** muda_auction.py:403-429 [find_competitive_price] *)
Definition w_comp_price (S : wsorter) (bids : wdf) : res num :=
  '(_, _, _, p) <- intersect_stepwise (w_demand (w_desc S (w_buyers bids))) (w_supply (w_asc S (w_sellers bids))) (qf 1 2) ;;
  Ok p.

(** [bids.loc[labels]] *)
Definition w_loc (d : wdf) (ls : list nat) : wdf := flat_map (fun i => filter (fun r => Nat.eqb (w_lbl r) i) d) ls.

(** the dictionary of muda_auction.py:120-126 *)
Record wextra := mkWExtra { e_left : list nat; e_right : list nat; e_price_left : num; e_price_right : num; e_fees : list num }.

(** muda_auction.py:12-127 [muda]; [flips] as in ModelMuda.v *)
Definition w_muda (S : wsorter) (bids : wdf) (flips : list bool) : res (list (atrans Qc num) * wextra) :=
  w_check bids (
    let index := map w_lbl bids in
    let left := pick_left index flips in
    let right := filter (fun i => negb (existsb (Nat.eqb i) left)) index in
    pl <- w_comp_price S (w_loc bids left) ;;
    pr <- w_comp_price S (w_loc bids right) ;;
    let fees := repeat (Fin 0) (length (uniqueZ (map w_user bids))) in
    '(trans_left, fees1) <- w_half S (w_loc bids left) pr fees ;;
    '(trans_right, fees2) <- w_half S (w_loc bids right) pl fees1 ;;
    Ok (trans_left ++ trans_right, mkWExtra left right pl pr fees2)).
