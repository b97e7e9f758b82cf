(** Specifications for merging and splitting in rounded arithmetic. *)
From Verif Require Import QcTac ModelBase ModelMerge ModelRound ModelRoundMarket.

(** the bids of the table on the side of [r] whose rounded price is the price of [r], in table order *)
Definition group_of_r (R : rounding) (prec : Z) (d : df) (r : row) : df :=
  filter (fun x => Bool.eqb (buying x) (buying r) && qeqb (np_round_r R prec (price x)) (price r)) d.
(** the bids that are merged with [x], itself included *)
Definition peers (R : rounding) (prec : Z) (d : df) (x : row) : df :=
  filter (fun y => Bool.eqb (buying y) (buying x) && qeqb (np_round_r R prec (price y)) (np_round_r R prec (price x))) d.

(** [l] distributes the transaction [t] over the bids with identifiers [rows]: same price, source and
    flag, quantity shared in proportion to the quantities of the bids, with two roundings *)
Definition Split_r (R : rounding) (A : adder R) (d : df) (rows : list nat) (t : trans) (l : list trans) : Prop :=
  exists rs, map lbl rs = rows /\ (forall r, In r rs -> In r d) /\
    l = map (fun r => mkTrans (lbl r) (R (t_qty t * R (qty r / A (map qty rs)))) (t_price t) (t_source t) (t_active t)) rs.

(** the price [x] is small compared with the precision [u] of the arithmetic: rounding [x * 10^prec]
    moves it by much less than one half *)
Definition small_price (u : Qc) (prec : Z) (x : Qc) : Prop := qz 6 * u * x * pow10 prec < 1 - u.

(** rounding a machine number to an integer gives a machine number *)
Definition rints (R : rounding) : Prop := forall x, 0 <= x -> machine R x -> machine R (qz (rint x)).
