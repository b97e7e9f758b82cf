(** Specifications for the statistics in rounded arithmetic: the sizes the errors are measured against. *)
From Verif Require Import QcTac ModelBase Spec SpecTrade SpecMuda SpecStats SpecRound.

(** the gains and losses of user [u] without their signs *)
Definition user_stake (v : row -> Qc) (d : df) (u : Z) (tl : list trans) : Qc :=
  qsumf (fun r => qsumf (fun t => qabs (gain_at v (t_price t) r * t_qty t)) (filter (fun t => Nat.eqb (t_bid t) (lbl r)) tl)) (by_user u d).
(** those of everybody *)
Definition stake (v : row -> Qc) (d : df) (tl : list trans) : Qc :=
  qsumf (fun r => qsumf (fun t => qabs (gain_at v (t_price t) r * t_qty t)) (filter (fun t => Nat.eqb (t_bid t) (lbl r)) tl)) d.
(** how many transactions user [u] has *)
Definition deals (d : df) (u : Z) (tl : list trans) : nat := list_sum (map (fun r => count_of r tl) (by_user u d)).
(** the payments of both sides without their signs *)
Definition turnover (d : df) (tl : list trans) : Qc :=
  qsumf (fun t => qabs (t_price t * t_qty t)) (filter (on_side true d) tl) + qsumf (fun t => qabs (t_price t * t_qty t)) (filter (on_side false d) tl).
(** the number of transactions of the side that has more of them *)
Definition longest_side (d : df) (tl : list trans) : nat :=
  Nat.max (length (filter (on_side true d) tl)) (length (filter (on_side false d) tl)).
