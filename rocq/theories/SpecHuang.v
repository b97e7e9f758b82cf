(** Specifications for the Huang auction.  Only bid rows, transactions, aggregate
    demand and supply occur here. *)
From Verif Require Import QcTac Num ModelBase ModelHuang Spec SpecTrade SpecMuda.

(** [c] is the largest quantity that can be traded at one price, and [pb] and [ps] are the prices of
    the buyer and of the seller in whose bids the [c]-th unit lies, best bids first; [ps < pb] *)
Definition Marginal (d : df) (ps pb c : Qc) : Prop :=
  0 < c /\ ps < pb /\
  demand_above d pb < c /\ c <= demand_at d pb /\
  supply_below d ps < c /\ c <= supply_at d ps /\
  forall p, qmin (demand_at d p) (supply_at d p) <= c.

(** sellers ask a positive price *)
Definition asks_pos (d : df) : Prop := forall r, In r d -> buying r = false -> 0 < price r.

(** the bid is strictly better than the price setter of its side *)
Definition wins (ps pb : Qc) (r : row) : bool := if buying r then qltb pb (price r) else qltb (price r) ps.

(** a report of [u] that only changes prices *)
Definition misprice (u : Z) (r r' : row) : Prop := misreport u r r' /\ qty r' = qty r.
