(** Specification for tables whose quantities can have any sign. *)
From Verif Require Import QcTac ModelBase Spec SpecMerge SpecHuang.

(** there is a bid such that the bids of its side that are at least as good add up to less than 0 *)
Definition short (d : df) : Prop :=
  exists r, In r d /\ (if buying r then demand_at d (price r) else supply_at d (price r)) < 0.
(** there are a buyer and a seller *)
Definition two_sided (d : df) : Prop := (exists r, In r d /\ buying r = true) /\ exists r, In r d /\ buying r = false.

(** there are a buyer and a seller who are better than the price setters *)
Definition both_win (d : df) (ps pb : Qc) : Prop :=
  exists b s, In b d /\ In s d /\ buying b = true /\ buying s = false /\ wins ps pb b = true /\ wins ps pb s = true.
(** with prices rounded to five decimals, there is trade, and one of the bids that trade has together with the bids of the
    same side at the same price no quantity *)
Definition zero_wins (d : df) : Prop :=
  exists ps pb c, Marginal (map (rounded 5) d) ps pb c /\ both_win (map (rounded 5) d) ps pb /\
    exists x, In x d /\ wins ps pb (rounded 5 x) = true /\ qsumf qty (group_of 5 d (rounded 5 x)) = 0.
