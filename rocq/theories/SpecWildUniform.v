(** What is said about the uniform price mechanism on tables with infinite and NaN prices. *)
From Verif Require Import QcTac Num ModelBase ModelHuang ModelAny ModelWild Spec SpecWild SpecWildMuda.

(** the mean of two prices, in the order of demand_curves.py:300 *)
Definition mean_price (ask bid : num) : num := nadd (nmul ask (Fin (qf 1 2))) (nmul (Fin (1 - qf 1 2)) bid).
(** one transaction at the price [p] for each bid, in full *)
Definition in_full (l : wdf) (p : num) : list (atrans Qc num) := map (fun x => mkATrans (w_lbl x) (w_qty x) p (-1) false) l.
(** the first bids in full, the last one with the quantity [q] *)
Definition last_part (l : wdf) (r : wrow) (q : Qc) (p : num) : list (atrans Qc num) := in_full l p ++ [mkATrans (w_lbl r) q p (-1) false].

(** A clearing of the buyers [B] and the sellers [L], in the order of their prices: [rb] and [rs] are the last ones that trade; the side with
    less quantity trades in full, the other one up to the same quantity.  The price is the one of the last bid of the side with more, or the mean. *)
Definition Cleared (B L : wdf) (ts : list (atrans Qc num)) (q : Qc) (p : num) : Prop :=
  exists B1 rb B2 L1 rs L2, B = B1 ++ rb :: B2 /\ L = L1 ++ rs :: L2 /\ nltb (w_price rs) (w_price rb) = true /\
    let b := qsumf w_qty (B1 ++ [rb]) in
    let s := qsumf w_qty (L1 ++ [rs]) in
    q = qmin b s /\ qsumf w_qty B1 <= q /\ qsumf w_qty L1 <= q /\
    (s < b /\ p = w_price rb /\ ts = in_full (L1 ++ [rs]) p ++ last_part B1 rb (q - qsumf w_qty B1) p \/
     b < s /\ p = w_price rs /\ ts = in_full (B1 ++ [rb]) p ++ last_part L1 rs (q - qsumf w_qty L1) p \/
     b = s /\ p = mean_price (w_price rs) (w_price rb) /\ ts = in_full (B1 ++ [rb]) p ++ last_part L1 rs (q - qsumf w_qty L1) p).

(** no seller asks for a negative price *)
Definition asks_not_negative (d : wdf) : Prop := forall x, In x d -> w_buying x = false -> nltb (w_price x) (Fin 0) = false.
(** the transactions without their prices *)
Definition no_price (t : atrans Qc num) : nat * Qc * Z * bool := (x_bid t, x_qty t, x_source t, x_active t).
Definition no_price_q (t : trans) : nat * Qc * Z * bool := (t_bid t, t_qty t, t_source t, t_active t).

(** what a transaction of the side [b] at the price [p] looks like: within the bid, and its price is respected *)
Definition fair_trans (d : wdf) (b : bool) (p : num) (t : atrans Qc num) : Prop :=
  exists x, In x d /\ w_buying x = b /\ x_bid t = w_lbl x /\ 0 <= x_qty t /\ x_qty t <= w_qty x /\ x_price t = p /\ x_source t = (-1)%Z /\ x_active t = false /\ respects x t.
(** the result of the main model with extended numbers as prices *)
Definition lift_uniform (x : transmgr * extra) : list (atrans Qc num) * option (num * num) :=
  (map same_trans (tm_trans (fst x)), match snd x with XUniform q p => Some (q, p) | _ => None end).
(** the same transactions and the same clearing quantity; prices can differ *)
Definition same_but_prices (r : res (list (atrans Qc num) * option (num * num))) (r' : res (transmgr * extra)) : Prop :=
  match r, r' with
  | Ok (ts, None), Ok (tm, e) => ts = [] /\ tm_trans tm = [] /\ e = XEmpty
  | Ok (ts, Some (q, _)), Ok (tm, e) => map no_price ts = map no_price_q (tm_trans tm) /\ exists p, e = XUniform q p
  | Err e, Err e' => e = e'
  | _, _ => False
  end.
