(** Specification for a bid that is replaced by a better one.  Only rows occur here. *)
From Verif Require Import QcTac ModelBase.

(** [r'] is on the same side as [r], has the same label, at least the same quantity, and names a strictly better price *)
Definition better (r r' : row) : Prop :=
  lbl r' = lbl r /\ buying r' = buying r /\ qty r <= qty r' /\ if buying r then price r < price r' else price r' < price r.
(** the same price but a larger quantity, where none of [others] on the same side names that price *)
Definition larger (others : df) (r r' : row) : Prop :=
  lbl r' = lbl r /\ buying r' = buying r /\ qty r <= qty r' /\ price r' = price r /\
  forall x, In x others -> buying x = buying r -> price x <> price r.
(** the same for bids as they are submitted *)
Definition better_bid (b b' : bid) : Prop :=
  b_buying b' = b_buying b /\ b_qty b <= b_qty b' /\ if b_buying b then b_price b < b_price b' else b_price b' < b_price b.
