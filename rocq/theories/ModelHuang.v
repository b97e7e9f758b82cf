(** Model of pymarket/mechanisms/huang_auction.py. *)
From Verif Require Import QcTac Num ModelBase ModelCurves.

(** The [extra] dictionaries returned by the mechanisms (huang_auction.py:199-203,
    muda_auction.py:121-126, p2p_random.py:133, mechanism.py:139); [XUniform] is the dictionary of the
    mechanism developed in docs/new_mechanism.ipynb. *)
Inductive extra :=
| XEmpty
| XHuang (price_sell price_buy quantity_traded : Qc)
| XMuda (left right : list nat) (price_left price_right : num) (fees : list Qc)
| XP2P (trading_list : list (list (nat * nat)))
| XUniform (clearing_quantity clearing_price : num).

(** [np.nanargmin]/[np.nanmin]: first position of the minimum among non-NaN entries
    ([None] is NaN); both raise ValueError when all entries are NaN. *)
Fixpoint nanargmin_from (i : nat) (l : list (option Qc)) (best : option (nat * Qc))
  : option (nat * Qc) :=
  match l with
  | [] => best
  | None :: r => nanargmin_from (S i) r best
  | Some v :: r =>
      nanargmin_from (S i) r
        (match best with
         | None => Some (i, v)
         | Some (_, w) => if qltb v w then Some (i, v) else best
         end)
  end.
Definition nanargmin (l : list (option Qc)) : option (nat * Qc) := nanargmin_from 0 l None.

Definition qnat (n : nat) : Qc := qz (Z.of_nat n).

(** huang_auction.py:54-64, the [while not end] loop *)
Fixpoint uq_loop (fuel : nat) (quantity : list (option Qc)) (gap : Qc) (N : nat)
  (i_min : nat) (v_min : Qc) : res (list (option Qc) * Qc * nat) :=
  match fuel with
  | O => Err OutOfFuel
  | S k =>
      if qltb v_min (gap / qnat N) then
        let quantity' := set_nth i_min None quantity in
        match nanargmin quantity' with
        | None => Err ValueError
        | Some (i, v) => uq_loop k quantity' (gap - v_min) (N - 1) i v
        end
      else Ok (quantity, gap, N)
  end.

(** [quantity.max()] *)
Definition list_max (x : Qc) (l : list Qc) : Qc := fold_left qmax l x.

(** huang_auction.py:8-69 [update_quantity] *)
Definition update_quantity (quantity : list Qc) (gap : Qc) : res (list Qc) :=
  let q0 := map Some quantity in
  match nanargmin q0 with
  | None => Err ValueError
  | Some (i, v) =>
      '(q1, gap1, N1) <- uq_loop (S (length quantity)) q0 gap (length quantity) i v ;;
      let q2 := map (fun o => match o with Some x => x | None => 0 end) q1 in
      let q3 := map (fun x => x - gap1 / qnat N1) q2 in
      match q3 with
      | [] => Err ValueError
      | x :: r =>
          let mx := list_max x r in
          Ok (map (fun y => qmin mx (qmax y 0)) q3)
      end
  end.

(** huang_auction.py:179-187: one transaction per (bid, quantity) *)
Definition emit (d : df) (qs : list Qc) (p : Qc) : list trans :=
  map (fun rq => mkTrans (lbl (fst rq)) (snd rq) p (-1) false) (combine d qs).

(** huang_auction.py:72-205 [huang_auction].  [price_sell]/[price_buy] are entries of the
    curve arrays; if one were infinite the model says [Unreachable] (shown impossible). *)
Definition huang_auction (S : sorter) (bids : df) : res (transmgr * extra) :=
  let buy := fst (demand_curve_from_bids S bids) in
  let sell := fst (supply_curve_from_bids S bids) in
  '(q_, b_, s_, _) <- intersect_stepwise buy sell (qf 1 2) ;;
  match b_, s_ with
  | Some b, Some s =>
      match nth_error sell s, nth_error buy b with
      | Some (_, Fin price_sell), Some (_, Fin price_buy) =>
          let buying_bids := firstn b (s_desc S (buyers bids)) in
          let selling_bids := firstn s (s_asc S (sellers bids)) in
          let quantity_buy := map qty buying_bids in
          let quantity_sell := map qty selling_bids in
          if Nat.ltb 0 b && Nat.ltb 0 s then
            let gap := qsum quantity_sell - qsum quantity_buy in
            '(qsell, qbuy) <-
              (if qltb 0 gap
               then qs <- update_quantity quantity_sell gap ;; Ok (qs, quantity_buy)
               else qb <- update_quantity quantity_buy (- gap) ;; Ok (quantity_sell, qb)) ;;
            let tm := add_all (add_all tm_init (emit selling_bids qsell price_sell))
                              (emit buying_bids qbuy price_buy) in
            Ok (tm, XHuang price_sell price_buy (qsum qbuy))
          else Ok (tm_init, XHuang price_sell price_buy (qsum quantity_buy))
      | Some (_, _), Some (_, _) => Err Unreachable
      | _, _ => Err IndexError
      end
  | _, _ => Ok (tm_init, XEmpty)
  end.
