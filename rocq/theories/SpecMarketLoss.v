(** Half of the last decimal that [Market.run] keeps of a price. *)
From Verif Require Import QcTac Num.

(** [merge_same_price] (bids/processing.py lines 79-270, [prec=5], rounding at line 248) moves a price by at most this much.
    Exact arithmetic: the rounding of doubles is not included. *)
Definition half_step : Qc := qf 1 200000.
