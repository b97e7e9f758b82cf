(** What is said about tables with infinite and NaN prices. *)
From Verif Require Import QcTac Num ModelBase ModelHuang ModelAny ModelWild Spec.

Definition w_qty_nonneg (d : wdf) : Prop := forall x, In x d -> 0 <= w_qty x.
Definition w_qty_pos (d : wdf) : Prop := forall x, In x d -> 0 < w_qty x.
Definition no_nan (d : wdf) : Prop := forall x, In x d -> w_price x <> NaN.
Definition no_negative (d : wdf) : Prop := forall x, In x d -> nltb (w_price x) (Fin 0) = false.
Definition not_nan (x : wrow) : bool := match w_price x with NaN => false | _ => true end.

(** quantity wanted at any price, and quantity offered *)
Definition at_any_price (x : wrow) : bool := match w_price x with PInf => true | _ => false end.
Definition wanted_at_any_price (d : wdf) : Qc := qsumf w_qty (filter (fun x => w_buying x && at_any_price x) d).
Definition wanted (d : wdf) : Qc := qsumf w_qty (filter w_buying d).
Definition offered (d : wdf) : Qc := qsumf w_qty (filter (fun x => negb (w_buying x)) d).

(** the table with [P] and [- P] instead of infinite prices *)
Definition cap (P : Qc) (x : num) : Qc := match x with Fin q => q | PInf => P | NInf => - P | NaN => 0 end.
Definition cap_row (P : Qc) (x : wrow) : row :=
  mkRow (w_lbl x) (w_qty x) (cap P (w_price x)) (w_user x) (w_buying x) (w_time x) (w_div x).
(** [P] is larger than every finite price *)
Definition beyond (P : Qc) (d : wdf) : Prop := 0 < P /\ forall x q, In x d -> w_price x = Fin q -> - P < q /\ q < P.

(** the same transactions and the same dictionary, with [P] and [- P] instead of infinite prices *)
Definition cap_trans (P : Qc) (t : atrans Qc num) : trans := mkTrans (x_bid t) (x_qty t) (cap P (x_price t)) (x_source t) (x_active t).
Definition cap_extra (P : Qc) (e : option (num * num * Qc)) : extra :=
  match e with None => XEmpty | Some (ps, pb, q) => XHuang (cap P ps) (cap P pb) q end.
Definition same_run (P : Qc) (r : res (list (atrans Qc num) * option (num * num * Qc))) (r' : res (transmgr * extra)) : Prop :=
  match r, r' with
  | Ok (ts, e), Ok (tm, e') => tm_trans tm = map (cap_trans P) ts /\ e' = cap_extra P e
  | Err e, Err e' => e = e'
  | _, _ => False
  end.

(** a row of a table with rational prices *)
Definition wrow_of (x : row) : wrow := mkWRow (lbl x) (qty x) (Fin (price x)) (user x) (buying x) (time x) (divisible x).

(** bid [i] of the table trades *)
Definition w_trades (ts : list (atrans Qc num)) (i : nat) : Prop := exists t, In t ts /\ x_bid t = i /\ 0 < x_qty t.
(** the transaction respects the limit price of the bid [x] *)
Definition respects (x : wrow) (t : atrans Qc num) : Prop :=
  nleb (if w_buying x then x_price t else w_price x) (if w_buying x then w_price x else x_price t) = true.

(** the two curves of the table cross at the quantity [x] *)
Definition curves_cross (S : wsorter) (d : wdf) (x : num) : Prop :=
  Crossing (w_demand (w_desc S (w_buyers d))) (w_supply (w_asc S (w_sellers d))) x.
(** there is a NaN bid on a side of which the other bids are used up at the crossing *)
Definition nan_blocks (S : wsorter) (d : wdf) : Prop :=
  exists x, curves_cross S (filter not_nan d) x /\
    ((exists r, In r d /\ w_price r = NaN /\ w_buying r = true) /\ x = Fin (wanted (filter not_nan d)) \/
     (exists r, In r d /\ w_price r = NaN /\ w_buying r = false) /\ x = Fin (offered (filter not_nan d))).
