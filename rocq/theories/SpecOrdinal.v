(** The same market with prices on another scale. *)
From Verif Require Import QcTac Num ModelBase ModelHuang.

(** a strictly increasing scale that keeps zero *)
Definition rescaling (h : Qc -> Qc) : Prop := h 0 = 0 /\ forall x y, x < y -> h x < h y.
(** the bid with its price on the other scale *)
Definition rescale (h : Qc -> Qc) (r : row) : row := mkRow (lbl r) (qty r) (h (price r)) (user r) (buying r) (time r) (divisible r).
Definition rescale_num (h : Qc -> Qc) (x : num) : num := match x with Fin q => Fin (h q) | _ => x end.
Definition rescale_trans (h : Qc -> Qc) (t : trans) : trans := mkTrans (t_bid t) (t_qty t) (h (t_price t)) (t_source t) (t_active t).
(** what remains of a transaction when its price is forgotten *)
Definition unpriced (t : trans) : nat * Qc * Z * bool := (t_bid t, t_qty t, t_source t, t_active t).
(** the same transactions up to their prices *)
Definition same_but_price (tm tm' : transmgr) : Prop := n_trans tm' = n_trans tm /\ map unpriced (tm_trans tm') = map unpriced (tm_trans tm).
