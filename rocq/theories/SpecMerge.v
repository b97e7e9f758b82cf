(** Specifications for merging bids of equal (rounded) price and for splitting transactions back. *)
From Verif Require Import QcTac ModelBase ModelMerge.

(** the bids of the table on the side of [r] whose rounded price is the price of [r], in table order;
    [np_round] is the model of numpy's rounding, itself characterised by C14_rounding *)
Definition group_of (prec : Z) (d : df) (r : row) : df :=
  filter (fun x => Bool.eqb (buying x) (buying r) && qeqb (np_round prec (price x)) (price r)) d.

(** [l] distributes the transaction [t] over the bids with identifiers [rows]: same price, source and
    flag, quantity shared in proportion to the quantities of the bids *)
Definition Split (d : df) (rows : list nat) (t : trans) (l : list trans) : Prop :=
  exists rs, map lbl rs = rows /\ (forall r, In r rs -> In r d) /\
    l = map (fun r => mkTrans (lbl r) (t_qty t * (qty r / qsumf qty rs)) (t_price t) (t_source t) (t_active t)) rs /\
    qsumf t_qty l = t_qty t.

(** the bid with its price rounded *)
Definition rounded (prec : Z) (r : row) : row :=
  mkRow (lbl r) (qty r) (np_round prec (price r)) (user r) (buying r) (time r) (divisible r).

(** there is a bid, nobody sells, and all the bids have the same price once rounded by [rnd] *)
Definition lone_price (rnd : Qc -> Qc) (d : df) : Prop :=
  d <> [] /\ (forall r, In r d -> buying r = true) /\ forall r x, In r d -> In x d -> rnd (price r) = rnd (price x).
