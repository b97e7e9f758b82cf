(** What is said about [Market.run('huang')] with infinite and NaN prices. *)
From Verif Require Import QcTac Num ModelBase ModelMerge ModelAny ModelWild ModelWildMarket Spec SpecWild.

(** labels are positions, as in every table of [BidManager.get_df] *)
Definition w_positions (d : wdf) : Prop := map w_lbl d = seq 0 (length d).
(** there is a bid with a price on side [b] *)
Definition priced (b : bool) (d : wdf) : Prop := exists x, In x d /\ w_buying x = b /\ w_price x <> NaN.
(** the bid with its price rounded to five digits *)
Definition round_row (x : wrow) : wrow := mkWRow (w_lbl x) (w_qty x) (n_round 5 (w_price x)) (w_user x) (w_buying x) (w_time x) (w_div x).
(** [y] is [x], or both have the price NaN and the same user; quantity, side, time and divisibility can differ *)
Definition nan_alike (x y : wrow) : Prop := x = y \/ (w_price x = NaN /\ w_price y = NaN /\ w_user x = w_user y /\ w_lbl x = w_lbl y).
(** what a run gives to the bid [i] *)
Definition w_gets (ts : list (atrans Qc num)) (i : nat) : Qc := qsumf x_qty (filter (fun t => Nat.eqb (x_bid t) i) ts).
(** all bids are bids to buy, and all at one price after rounding *)
Definition w_lone_price (d : wdf) : Prop := exists k, d <> [] /\ forall x, In x d -> w_buying x = true /\ n_round 5 (w_price x) = k.
