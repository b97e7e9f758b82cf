(** Specifications for markets that clear one half at a given price: gains, fillings, fees.
    Independent of the model of the mechanism (ModelHuang is needed for the type [extra] of results). *)
From Verif Require Import QcTac Num ModelBase ModelHuang Spec SpecTrade.

(** gain per unit of bid [r] at price [p] *)
Definition gain (p : Qc) (r : row) : Qc := if buying r then price r - p else p - price r.
(** the rows of one side ([true] = buying); the rows of a user; the rows of the others *)
Definition side_of (b : bool) (d : df) : df := filter (fun r => Bool.eqb (buying r) b) d.
Definition by_user (u : Z) (d : df) : df := filter (fun r => Z.eqb (user r) u) d.
Definition not_by (u : Z) (d : df) : df := filter (fun r => negb (Z.eqb (user r) u)) d.
(** quantity of the side that is willing to trade at [p] *)
Definition side_qty (b : bool) (d : df) (p : Qc) : Qc := if b then demand_at d p else supply_at d p.
(** the side with more quantity, buyers in case of a tie *)
Definition long_side (d : df) (p : Qc) : bool := negb (qltb (demand_at d p) (supply_at d p)).

(** a way to distribute at most [Q] among the rows: [y] gives the quantity for each label *)
Definition fill (d : df) (Q : Qc) (y : nat -> Qc) : Prop :=
  (forall r, In r d -> 0 <= y (lbl r) /\ y (lbl r) <= qty r) /\ qsumf (fun r => y (lbl r)) d <= Q.
Definition fill_gain (d : df) (p : Qc) (y : nat -> Qc) : Qc := qsumf (fun r => gain p r * y (lbl r)) d.
(** [v] is the largest total gain of a distribution of at most [Q] *)
Definition best_gain (d : df) (p Q v : Qc) : Prop :=
  (exists y, fill d Q y /\ fill_gain d p y = v) /\ forall y, fill d Q y -> fill_gain d p y <= v.

(** what user [u] gains with transactions [tl] when its bids are those of [d] *)
Definition profit (d : df) (u : Z) (tl : list trans) : Qc :=
  qsumf (fun r => qsumf (fun t => gain (t_price t) r * t_qty t) (filter (fun t => Nat.eqb (t_bid t) (lbl r)) tl)) (by_user u d).
(** the entry of [u] in the list of fees *)
Definition fee_of (fees : list Qc) (u : Z) : Qc := nth (Z.to_nat u) fees 0.
(** [u] takes part in a transaction with a bid of side [b] *)
Definition trades_on (b : bool) (d : df) (tl : list trans) (u : Z) : Prop :=
  exists t r, In t tl /\ In r d /\ lbl r = t_bid t /\ buying r = b /\ user r = u.
(** the rows whose label is in the list *)
Definition rows_in (ls : list nat) (d : df) : df := filter (fun r => existsb (Nat.eqb (lbl r)) ls) d.
(** [v] is what [u] has to pay for trading on the long side of the rows [h] at price [p]: the best total
    gain of the others on that side, had [u] not been there, minus what they gained; nothing if [u]
    does not trade on the long side *)
Definition HalfFee (h : df) (p : num) (tl : list trans) (u : Z) (v : Qc) : Prop :=
  match p with
  | Fin q =>
      let l := long_side h q in
      let others := not_by u (side_of l h) in
      (trades_on l h tl u ->
         best_gain others q (side_qty (negb l) h q) (fill_gain others q (fun i => traded_by i tl) + v)) /\
      (~ trades_on l h tl u -> v = 0)
  | _ => v = 0
  end.
(** a report of [u]: its bids may have another price and a smaller quantity, the rest is unchanged *)
Definition misreport (u : Z) (r r' : row) : Prop :=
  lbl r' = lbl r /\ user r' = user r /\ buying r' = buying r /\ 0 <= qty r' /\ qty r' <= qty r /\ (user r <> u -> r' = r).

(** [h] is one of the two halves and [p] the price it trades at *)
Definition half_of (ex : extra) (d h : df) (p : num) : Prop :=
  match ex with XMuda l r pl pr _ => (h = rows_in l d /\ p = pr) \/ (h = rows_in r d /\ p = pl) | _ => False end.
(** the most that can be traded in [h] at the price [p] *)
Definition volume (h : df) (p : num) : Qc := match p with Fin q => qmin (demand_at h q) (supply_at h q) | _ => 0 end.
(** one user has two bids at the same price on the same side *)
Definition repeated_price (d : df) : Prop :=
  exists r1 r2, In r1 d /\ In r2 d /\ lbl r1 <> lbl r2 /\ buying r1 = buying r2 /\ price r1 = price r2 /\ user r1 = user r2.
