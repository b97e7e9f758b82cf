(** Statements about a person who submits any bids under any number of names.
    Independent of the model of the mechanism. *)
From Verif Require Import QcTac Num ModelBase ModelHuang Spec SpecTrade SpecMuda.

(** the rows submitted under one of the names; the other rows *)
Definition named (W : list Z) (r : row) : bool := existsb (Z.eqb (user r)) W.
Definition by_names (W : list Z) (d : df) : df := filter (named W) d.
Definition not_by_names (W : list Z) (d : df) : df := filter (fun r => negb (named W r)) d.
(** the quantity that the names trade, what is paid for it, and their fees *)
Definition names_qty (d : df) (W : list Z) (tl : list trans) : Qc := qsumf (fun r => traded_by (lbl r) tl) (by_names W d).
Definition names_pay (d : df) (W : list Z) (tl : list trans) : Qc :=
  qsumf (fun r => qsumf (fun t => t_price t * t_qty t) (filter (fun t => Nat.eqb (t_bid t) (lbl r)) tl)) (by_names W d).
Definition names_fee (W : list Z) (fees : list Qc) : Qc := qsumf (fee_of fees) W.

(** [y] says how a person with the true bids [D] on side [b] uses the quantity [X] that it has bought (some of it may be
    useless), or where it takes the quantity [X] that it has sold from *)
Definition uses (b : bool) (D : df) (X : Qc) (y : nat -> Qc) : Prop :=
  (forall r, In r D -> 0 <= y (lbl r) /\ y (lbl r) <= qty r) /\
  if b then qsumf (fun r => y (lbl r)) D <= X else qsumf (fun r => y (lbl r)) D = X.
(** what the person gains if [m] is the money paid or received *)
Definition use_gain (b : bool) (D : df) (y : nat -> Qc) (m : Qc) : Qc :=
  if b then qsumf (fun r => price r * y (lbl r)) D - m else m - qsumf (fun r => price r * y (lbl r)) D.
(** [v] is what the others on side [b] of [h] lose at the price [p] because the names [W] are there *)
Definition GroupFee (h : df) (p : Qc) (b : bool) (W : list Z) (tl : list trans) (v : Qc) : Prop :=
  let others := not_by_names W (side_of b h) in
  best_gain others p (side_qty (negb b) h p) (fill_gain others p (fun i => traded_by i tl) + v).
