(** Specification for markets whose bids come from the data set generator. *)
From Verif Require Import QcTac ModelBase ModelHuang ModelDatasets ModelMarket Spec SpecTrade.

(** a new market after these bids have been accepted, in this order *)
Definition market_of (bs : list bid) : market := fold_left (fun m b => fst (accept_bid m b)) bs market_init.
(** its table of bids *)
Definition table_of (bs : list bid) : df := get_df (mk_bm (market_of bs)).
(** [bs] can be the answer of [generate], whatever is drawn and whatever the positive grid size is *)
Definition made (nb ns : nat) (os ob : Qc) (bs : list bid) : Prop := exists r eps, 0 < eps /\ generate nb ns os ob r eps = Ok bs.

(** every bid is below every ask / every bid is above every ask *)
Definition all_below (d : df) : Prop := forall b s, In b d -> In s d -> buying b = true -> buying s = false -> price b < price s.
Definition all_above (d : df) : Prop := forall b s, In b d -> In s d -> buying b = true -> buying s = false -> price s < price b.
(** nothing changes hands *)
Definition idle (tl : list trans) : Prop := forall t, In t tl -> t_qty t = 0.
