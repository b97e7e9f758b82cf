(** What is said about the traded volume with infinite and NaN prices. *)
From Verif Require Import QcTac Num ModelBase ModelHuang ModelAny ModelWild SpecWild SpecAlloc.

(** The table with rational prices: [P] and [- P] instead of infinite prices; a buyer at NaN bids less than everybody asks, a seller at
    NaN asks for more than everybody bids. *)
Definition cap_nan (P : Qc) (x : wrow) : row :=
  mkRow (w_lbl x) (w_qty x) (match w_price x with NaN => if w_buying x then - (P + P) else P + P | p => cap P p end) (w_user x) (w_buying x) (w_time x) (w_div x).

(** Amounts for pairs of labels, within the quantities of the bids, between bids that accept each other's price; no comparison with NaN
    is true, so bids at NaN have no part in it. *)
Definition w_alloc (d : wdf) (a : alloc) : Prop :=
  (forall b s, In b (w_buyers d) -> In s (w_sellers d) -> 0 <= a (w_lbl b) (w_lbl s)) /\
  (forall b, In b (w_buyers d) -> qsumf (fun s => a (w_lbl b) (w_lbl s)) (w_sellers d) <= w_qty b) /\
  (forall s, In s (w_sellers d) -> qsumf (fun b => a (w_lbl b) (w_lbl s)) (w_buyers d) <= w_qty s) /\
  (forall b s, In b (w_buyers d) -> In s (w_sellers d) -> nleb (w_price s) (w_price b) = false -> a (w_lbl b) (w_lbl s) = 0).
Definition w_volume (d : wdf) (a : alloc) : Qc := qsumf (fun b => qsumf (fun s => a (w_lbl b) (w_lbl s)) (w_sellers d)) (w_buyers d).
