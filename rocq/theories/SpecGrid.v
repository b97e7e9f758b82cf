(** Data on which a rounding makes no error: multiples of a step, below a bound. *)
From Verif Require Import QcTac ModelBase ModelHuang ModelMuda ModelRound.

(** [x] is a multiple of the step [g] *)
Definition on_grid (g x : Qc) : Prop := exists z : Z, x = qz z * g.
(** the rounding keeps all multiples of [g] up to [B] *)
Definition no_error (R : rounding) (g B : Qc) : Prop := forall x, on_grid g x -> qabs x <= B -> R x = x.
(** quantities are multiples of [gq], not below 0 and in total at most [T]; prices are multiples of [gp] and at most [P] *)
Definition gridded (gq gp T P : Qc) (d : df) : Prop :=
  (forall r, In r d -> 0 <= qty r /\ on_grid gq (qty r) /\ on_grid gp (price r) /\ qabs (price r) <= P) /\ qsumf qty d <= T.
(** the same trade of the same bid at the same price, in quantities that differ by at most [2 u] times that of the bid *)
Definition same_trade (u : Qc) (d : df) (t t' : trans) : Prop :=
  t_bid t = t_bid t' /\ t_price t = t_price t' /\ t_source t = t_source t' /\ t_active t = t_active t' /\
  exists x, In x d /\ lbl x = t_bid t /\ qabs (t_qty t - t_qty t') <= (u + u) * qty x.
(** the same errors, or the same prices and the same trades *)
Definition same_result (u : Qc) (d : df) (r r' : res (transmgr * extra)) : Prop :=
  match r, r' with
  | Ok (tm, ex), Ok (tm', ex') =>
      n_trans tm = n_trans tm' /\ Forall2 (same_trade u d) (tm_trans tm) (tm_trans tm') /\
      match ex, ex' with
      | XHuang a b _, XHuang a' b' _ => a = a' /\ b = b'
      | _, _ => ex = ex'
      end
  | Err e, Err e' => e = e'
  | _, _ => False
  end.
(** the same for transactions and for a list of prices *)
Definition gridded_trades (gq gp T P : Qc) (ts : list trans) : Prop :=
  (forall t, In t ts -> 0 <= t_qty t /\ on_grid gq (t_qty t) /\ on_grid gp (t_price t) /\ qabs (t_price t) <= P) /\ qsumf t_qty ts <= T.
Definition gridded_prices (gp P : Qc) (l : list Qc) : Prop := forall x, In x l -> on_grid gp x /\ qabs x <= P.
(** whole numbers: quantities in total at most [T], prices of at most [P] in absolute value *)
Definition whole_table (T P : Z) (d : df) : Prop :=
  (forall r, In r d -> (exists m, (0 <= m)%Z /\ qty r = qz m) /\ (exists n, (Z.abs n <= P)%Z /\ price r = qz n)) /\ qsumf qty d <= qz T.
