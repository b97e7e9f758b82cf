(** How much can be traded at a single price.  Independent of the mechanisms. *)
From Verif Require Import QcTac ModelBase Spec.

(** at price [p] the smaller of what is wanted and what is offered can change hands *)
Definition tradable_at (d : df) (p : Qc) : Qc := qmin (demand_at d p) (supply_at d p).
(** [c] is the largest quantity that can be traded at one price *)
Definition best_at_one_price (d : df) (c : Qc) : Prop :=
  (forall p, tradable_at d p <= c) /\ exists p, tradable_at d p = c.
