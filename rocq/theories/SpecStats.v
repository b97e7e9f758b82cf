(** Specifications for the statistics: gains, payments, surplus.  Independent of the model of the
    statistics. *)
From Verif Require Import QcTac Num ModelBase Spec SpecTrade SpecMuda.

(** gain per unit of bid [r] at price [p] when the bid is worth [v r] *)
Definition gain_at (v : row -> Qc) (p : Qc) (r : row) : Qc := if buying r then v r - p else p - v r.
(** some transaction belongs to a bid of the table *)
Definition some_deal (d : df) (tl : list trans) : Prop := exists t r, In t tl /\ In r d /\ lbl r = t_bid t.
(** what user [u] gains with the transactions *)
Definition user_gain (v : row -> Qc) (d : df) (u : Z) (tl : list trans) : Qc :=
  qsumf (fun r => qsumf (fun t => gain_at v (t_price t) r * t_qty t) (filter (fun t => Nat.eqb (t_bid t) (lbl r)) tl)) (by_user u d).
(** what the buying ([true]) or selling bids pay or receive *)
Definition money (side : bool) (d : df) (tl : list trans) : Qc :=
  qsumf (fun t => t_price t * t_qty t) (filter (on_side side d) tl).
(** worth of what the buyers get minus worth of what the sellers give *)
Definition traded_surplus (v : row -> Qc) (d : df) (tl : list trans) : Qc :=
  qsumf (fun r => (if buying r then v r else - v r) * traded_by (lbl r) tl) d.
(** the value of a bid according to a dictionary, its price if there is no entry *)
Fixpoint entry (m : list (nat * Qc)) (i : nat) : option Qc :=
  match m with [] => None | (j, v) :: r => if Nat.eqb j i then Some v else entry r i end.
Definition worth (m : option (list (nat * Qc))) (r : row) : Qc :=
  match m with
  | None => price r
  | Some m => match entry m (lbl r) with Some v => v | None => price r end
  end.
