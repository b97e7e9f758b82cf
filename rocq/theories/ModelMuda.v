(** Model of pymarket/mechanisms/muda_auction.py and pymarket/utils/decorators.py. *)
From Verif Require Import QcTac Num ModelBase ModelCurves ModelHuang.

(** [Series.unique()]: first occurrences in order *)
Fixpoint uniqueZ (l : list Z) : list Z :=
  match l with
  | [] => []
  | x :: r => x :: filter (fun y => negb (Z.eqb y x)) (uniqueZ r)
  end.

(** decorators.py:39-47: [df.groupby(['price','user'])['user'].count() > 1] for some group *)
Fixpoint dup_price_user (d : df) : bool :=
  match d with
  | [] => false
  | r :: t => existsb (fun s => qeqb (price s) (price r) && Z.eqb (user s) (user r)) t
              || dup_price_user t
  end.
(** decorators.py:7-49 [check_equal_price] *)
Definition check_equal_price {A} (bids : df) (k : res A) : res A :=
  if dup_price_user (buyers bids) || dup_price_user (sellers bids)
  then Err NotImplementedError else k.

(** muda_auction.py:229-334 [get_trading_bids]: rows in order with the reset index being the
    position; a split bid occurs twice, keeping its label in the [bid] column. *)
Definition with_qty (r : row) (q : Qc) : row :=
  mkRow (lbl r) q (price r) (user r) (buying r) (time r) (divisible r).

Definition get_trading_bids (bids : df) (quantity_traded : Qc) : res (df * nat) :=
  let bid_index :=
    if qltb quantity_traded (qsum (map qty bids))
    then argmax_bool (map (fun c => qleb quantity_traded c) (cumsum (map qty bids)))
    else (length bids - 1)%nat in
  let quantity_but_last := qsum (map qty (firstn bid_index bids)) in
  let diff := quantity_traded - quantity_but_last in
  match nth_error bids bid_index with
  | None => Err IndexError
  | Some r =>
      if qltb diff (qty r) then
        Ok (firstn bid_index bids ++ [with_qty r diff; with_qty r (qty r - diff)]
              ++ skipn (S bid_index) bids, bid_index)
      else Ok (bids, bid_index)
  end.

(** A frame after [reset_index]: position and row. *)
Definition indexed (d : df) : list (nat * row) := combine (seq 0 (length d)) d.

Definition set_last_qty (l : list (nat * row)) (q : Qc) : list (nat * row) :=
  match rev l with
  | [] => []
  | (i, r) :: t => rev t ++ [(i, with_qty r q)]
  end.

(** muda_auction.py:337-400 [compute_fee] *)
Definition compute_fee (d : list (nat * row)) (index : nat) (u : Z) (quantity : Qc) (p : Qc) : Qc :=
  let others := filter (fun ir => negb (Z.eqb (user (snd ir)) u)) d in
  match others with
  | [] => 0
  | _ =>
      let qs := map (fun ir => qty (snd ir)) others in
      let new_index :=
        if qltb quantity (qsum qs)
        then argmax_bool (map (fun c => qleb quantity c) (cumsum qs))
        else (length others - 1)%nat in
      let new_winning := firstn (S new_index) others in
      let diff := quantity - qsum (map (fun ir => qty (snd ir)) (firstn new_index others)) in
      let new_winning' :=
        match nth_error others new_index with
        | Some (_, r) => if qltb diff (qty r) then set_last_qty new_winning diff else new_winning
        | None => new_winning
        end in
      let pure_new := filter (fun ir => Nat.ltb index (fst ir)) new_winning' in
      qabs (qsum (map (fun ir => (price (snd ir) - p) * qty (snd ir)) pure_new))
  end.

(** [fees[u] = fee] on a numpy array/list: negative indices count from the end *)
Definition set_fee (fees : list Qc) (u : Z) (fee : Qc) : res (list Qc) :=
  let n := Z.of_nat (length fees) in
  if (0 <=? u)%Z && (u <? n)%Z then Ok (set_nth (Z.to_nat u) fee fees)
  else if (- n <=? u)%Z && (u <? 0)%Z then Ok (set_nth (Z.to_nat (n + u)) fee fees)
  else Err IndexError.

(** muda_auction.py:222-224 *)
Fixpoint charge_users (long_side : df) (l_index : nat) (total p : Qc) (us : list Z) (fees : list Qc)
  : res (list Qc) :=
  match us with
  | [] => Ok fees
  | u :: r =>
      fees' <- set_fee fees u (compute_fee (indexed long_side) l_index u total p) ;;
      charge_users long_side l_index total p r fees'
  end.

(** muda_auction.py:130-226 [solve_market_side_with_exogenous_price].
    With a non finite price at most one of the two queries is nonempty and the last branch
    is never taken (shown in MudaFacts.v), hence [Unreachable]. *)
Definition solve_market_side (S : sorter) (bids : df) (p : num) (fees : list Qc)
  : res (transmgr * list Qc) :=
  match buyers bids, sellers bids with
  | [], _ => Ok (tm_init, fees)
  | _, [] => Ok (tm_init, fees)
  | demand0, supply0 =>
      let demand := s_desc S (filter (fun r => nleb p (Fin (price r))) demand0) in
      let supply := s_asc S (filter (fun r => nleb (Fin (price r)) p) supply0) in
      let supply_quantity := qsum (map qty supply) in
      let demand_quantity := qsum (map qty demand) in
      let supply_long := qltb demand_quantity supply_quantity in
      let long0 := if supply_long then supply else demand in
      let short0 := if supply_long then demand else supply in
      let total := if supply_long then demand_quantity else supply_quantity in
      if qltb 0 total then
        match p with
        | Fin pr =>
            '(long_side, l_index) <- get_trading_bids long0 total ;;
            '(short_side, s_index) <- get_trading_bids short0 total ;;
            let mk := fun r => mkTrans (lbl r) (qty r) pr (-1) false in
            let tm := add_all (add_all tm_init (map mk (firstn (Datatypes.S s_index) short_side)))
                              (map mk (firstn (Datatypes.S l_index) long_side)) in
            let us := uniqueZ (map user (firstn (Datatypes.S l_index) long_side)) in
            fees' <- charge_users long_side l_index total pr us fees ;;
            Ok (tm, fees')
        | _ => Err Unreachable
        end
      else Ok (tm_init, fees)
  end.

(** muda_auction.py:403-429 [find_competitive_price] *)
Definition find_competitive_price (S : sorter) (bids : df) : res num :=
  let buy := fst (demand_curve_from_bids S bids) in
  let sell := fst (supply_curve_from_bids S bids) in
  '(_, _, _, p) <- intersect_stepwise buy sell (qf 1 2) ;;
  Ok p.

(** [bids.loc[labels]]: the rows with these labels, in the order of the labels *)
Definition loc (d : df) (ls : list nat) : df :=
  flat_map (fun i => filter (fun r => Nat.eqb (lbl r) i) d) ls.

(** muda_auction.py:106: the labels whose random draw exceeded 0.5.  [flips] holds the outcome of
    [r.rand() > 0.5] for each row in order; missing entries count as False. *)
Fixpoint pick_left (ls : list nat) (flips : list bool) : list nat :=
  match ls, flips with
  | i :: r, true :: fl => i :: pick_left r fl
  | _ :: r, false :: fl => pick_left r fl
  | _, _ => []
  end.

(** muda_auction.py:12-127 [muda] *)
Definition muda (S : sorter) (bids : df) (flips : list bool) : res (transmgr * extra) :=
  check_equal_price bids (
    let index := map lbl bids in
    let left := pick_left index flips in
    let right := filter (fun i => negb (existsb (Nat.eqb i) left)) index in
    pl <- find_competitive_price S (loc bids left) ;;
    pr <- find_competitive_price S (loc bids right) ;;
    let fees := repeat 0 (length (uniqueZ (map user bids))) in
    '(trans_left, fees1) <- solve_market_side S (loc bids left) pr fees ;;
    '(trans_right, fees2) <- solve_market_side S (loc bids right) pl fees1 ;;
    Ok (tm_merge trans_left trans_right, XMuda left right pl pr fees2)).
