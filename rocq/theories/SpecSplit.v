(** One bid sent as several.  Independent of the model of the mechanisms. *)
From Verif Require Import QcTac ModelBase SpecTrade SpecMuda.

(** the rows [l] are pieces of the row [r]: same side and price, positive quantities that add up; they may have other users *)
Definition pieces_of (r : row) (l : df) : Prop :=
  0 < qty r /\ (forall x, In x l -> 0 < qty x /\ price x = price r /\ buying x = buying r) /\ qsumf qty l = qty r.

(** what user [v] keeps: the profit of the transactions minus the fee *)
Definition net (d : df) (tl : list trans) (fees : list Qc) (v : Z) : Qc := profit d v tl - fee_of fees v.
