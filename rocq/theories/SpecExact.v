(** When a competitive price exists and what it is, and which meetings make no deal. *)
From Verif Require Import QcTac Num ModelBase Spec SpecTrade SpecHuang.

(** no level of prices is common to both curves over some quantity: at the price 0 the supply is covered by
    the bids above 0, and at no positive price do buyers and sellers of exactly that price overlap *)
Definition gap_free (d : df) : Prop := supply_at d 0 <= demand_above d 0 /\
  forall p, 0 < p -> qmin (demand_at d p) (supply_at d p) <= qmax (demand_above d p) (supply_below d p).

(** some buyer bids more than some seller asks *)
Definition can_trade (d : df) : Prop :=
  exists rb rs, In rb d /\ In rs d /\ buying rb = true /\ buying rs = false /\ price rs < price rb.

(** the price when the [c]-th unit lies in bids at [ps] and [pb] *)
Definition price_of_marginal (d : df) (ps pb c p : Qc) : Prop :=
  c = demand_at d pb /\ c = supply_at d ps /\ p = (ps + pb) / qz 2 \/
  c = demand_at d pb /\ c < supply_at d ps /\ (p = ps \/ p = (ps + pb) / qz 2) \/
  c < demand_at d pb /\ c = supply_at d ps /\ (p = pb \/ p = (ps + pb) / qz 2).

(** the two parties of a meeting cannot agree: the buyer bids less than the seller asks *)
Definition no_deal (x y : row) : Prop := if buying x then price x < price y else price y < price x.
