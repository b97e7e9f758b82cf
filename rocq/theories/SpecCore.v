(** What a bid gains with its transactions, who would rather have the trade of somebody else, and groups of bids that
    do better by trading among themselves.  Independent of the model of the mechanisms. *)
From Verif Require Import QcTac Num ModelBase Spec SpecTrade SpecMuda.

(** what bid [r] gains with the transactions *)
Definition own_gain (tl : list trans) (r : row) : Qc :=
  qsumf (fun t => gain (t_price t) r * t_qty t) (filter (fun t => Nat.eqb (t_bid t) (lbl r)) tl).
(** at price [p] bid [r] trades what is best for it: everything if it gains, nothing if it loses *)
Definition content (p : Qc) (tl : list trans) (r : row) : Prop :=
  (0 < gain p r -> traded_by (lbl r) tl = qty r) /\ (gain p r < 0 -> traded_by (lbl r) tl = 0).
(** bid [r] would gain more with the transaction [t], as far as it can use its quantity, than with its own *)
Definition envies (tl : list trans) (r : row) (t : trans) : Prop :=
  own_gain tl r < gain (t_price t) r * qmin (qty r) (t_qty t).
(** what bid [r] adds to the surplus with the quantity [x] *)
Definition adds (r : row) (x : Qc) : Qc := if buying r then price r * x else - (price r * x).
(** the bids [g] could trade the quantities [y] among themselves and gain more in total than they do *)
Definition blocks (tl : list trans) (g : df) (y : row -> Qc) : Prop :=
  (forall r, In r g -> 0 <= y r /\ y r <= qty r) /\
  qsumf y (filter buying g) = qsumf y (filter (fun r => negb (buying r)) g) /\
  qsumf (own_gain tl) g < qsumf (fun r => adds r (y r)) g.
