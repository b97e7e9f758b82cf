(** Statements about bids whose prices may be negative, and about raising all prices by the same amount. *)
From Verif Require Import QcTac Num ModelBase ModelHuang.

(** nobody loses, except for buyers who bid less than 0 and pay 0 *)
Definition nearly_rational (d : df) (tl : list trans) : Prop :=
  forall t r, In t tl -> In r d -> lbl r = t_bid t ->
    if buying r then t_price t <= price r \/ t_price t = 0 /\ price r < 0 else price r <= t_price t.

(** the price of every bid raised by [c] *)
Definition bid_raised (c : Qc) (r : row) : row :=
  mkRow (lbl r) (qty r) (price r + c) (user r) (buying r) (time r) (divisible r).
Definition raised (c : Qc) (d : df) : df := map (bid_raised c) d.
(** the results with prices raised by [c]; quantities and fees stay *)
Definition num_raised (c : Qc) (x : num) : num := match x with Fin q => Fin (q + c) | _ => x end.
Definition trans_raised (c : Qc) (t : trans) : trans :=
  mkTrans (t_bid t) (t_qty t) (t_price t + c) (t_source t) (t_active t).
Definition extra_raised (c : Qc) (x : extra) : extra :=
  match x with
  | XHuang ps pb q => XHuang (ps + c) (pb + c) q
  | XMuda l r pl pr f => XMuda l r (num_raised c pl) (num_raised c pr) f
  | XUniform q p => XUniform q (num_raised c p)
  | _ => x
  end.
Definition result_raised (c : Qc) (x : res (transmgr * extra)) : res (transmgr * extra) :=
  match x with
  | Ok (tm, e) => Ok (mkTM (n_trans tm) (map (trans_raised c) (tm_trans tm)), extra_raised c e)
  | Err e => Err e
  end.
(** the same, but the price of a meeting without trade may stay 0 *)
Definition deal_raised (c : Qc) (t t' : trans) : Prop :=
  t' = trans_raised c t \/ t' = t /\ t_qty t = 0 /\ t_price t = 0.
