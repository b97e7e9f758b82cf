(** The book of a market: the bids of each side at each price, prices rounded to five decimals. *)
From Verif Require Import QcTac ModelBase ModelMerge.

Definition level (d : df) (b : bool) (p : Qc) : df := filter (fun x => Bool.eqb (buying x) b && qeqb (np_round 5 (price x)) p) d.
(** there are bids at the same levels, and the same quantity at each level *)
Definition same_book (d d' : df) : Prop :=
  forall b p, (level d b p = [] <-> level d' b p = []) /\ qsumf qty (level d b p) = qsumf qty (level d' b p).
(** [l] replaces [b]: same side, same rounded price, same quantity in total *)
Definition pieces (b : bid) (l : list bid) : Prop :=
  l <> [] /\ (forall x, In x l -> b_buying x = b_buying b /\ np_round 5 (b_price x) = np_round 5 (b_price b)) /\ qsumf b_qty l = b_qty b.
