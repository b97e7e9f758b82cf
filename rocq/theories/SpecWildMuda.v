(** What is said about MUDA on tables with infinite and NaN prices. *)
From Verif Require Import QcTac Num ModelBase ModelHuang ModelAny ModelWild ModelWildMuda Spec SpecWild.

(** the bid accepts the price [p]; never if one of the two is NaN *)
Definition accepts (p : num) (x : wrow) : bool := if w_buying x then nleb p (w_price x) else nleb (w_price x) p.
Definition w_demand_at (p : num) (d : wdf) : Qc := qsumf w_qty (filter (fun x => w_buying x && accepts p x) d).
Definition w_supply_at (p : num) (d : wdf) : Qc := qsumf w_qty (filter (fun x => negb (w_buying x) && accepts p x) d).
(** the rows whose label is in the list *)
Definition w_rows_in (ls : list nat) (d : wdf) : wdf := filter (fun x => existsb (Nat.eqb (w_lbl x)) ls) d.
(** quantity that the transactions give to bids of the side [b] of [d], to the bid [i] *)
Definition w_moved (b : bool) (d : wdf) (ts : list (atrans Qc num)) : Qc :=
  qsumf x_qty (filter (fun t => existsb (fun x => Nat.eqb (w_lbl x) (x_bid t) && Bool.eqb (w_buying x) b) d) ts).
Definition w_traded_by (i : nat) (ts : list (atrans Qc num)) : Qc := qsumf x_qty (filter (fun t => Nat.eqb (x_bid t) i) ts).

(** the bid [x] is strictly better than [y] *)
Definition w_better (x y : wrow) : Prop := nltb (if w_buying x then w_price y else w_price x) (if w_buying x then w_price x else w_price y) = true.
(** The bids [h] traded at the price [p]: all transactions at this price, each for another bid that accepts it; as much as possible is bought
    and sold; better bids first. *)
Record HalfFair (h : wdf) (p : num) (ts : list (atrans Qc num)) : Prop := mkHalfFair {
  hf_trans : forall t, In t ts -> x_price t = p /\ x_source t = (-1)%Z /\ x_active t = false /\ 0 <= x_qty t /\
    exists x, In x h /\ w_lbl x = x_bid t /\ accepts p x = true;
  hf_once : NoDup (map x_bid ts);
  hf_feasible : forall x, In x h -> w_traded_by (w_lbl x) ts <= w_qty x;
  hf_volume : forall b, w_moved b h ts = qmin (w_demand_at p h) (w_supply_at p h);
  hf_priority : forall x y, In x h -> In y h -> w_buying x = w_buying y -> w_better x y -> w_traded_by (w_lbl x) ts < w_qty x ->
    w_traded_by (w_lbl y) ts = 0 }.

(** a fee: a nonnegative number or infinite, not NaN *)
Definition fee_like (v : num) : Prop := v = PInf \/ exists q, v = Fin q /\ 0 <= q.
(** the transaction of the main model *)
Definition same_trans (t : trans) : atrans Qc num := mkATrans (t_bid t) (t_qty t) (Fin (t_price t)) (t_source t) (t_active t).
(** the result of the main model with prices and fees as extended numbers *)
Definition lift_run (x : transmgr * extra) : list (atrans Qc num) * wextra :=
  (map same_trans (tm_trans (fst x)), match snd x with XMuda l r pl pr f => mkWExtra l r pl pr (map Fin f) | _ => mkWExtra [] [] NaN NaN [] end).
