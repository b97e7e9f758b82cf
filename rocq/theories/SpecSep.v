(** Tables on which rounding cannot change who trades: sums of the best bids of the two sides are not close. *)
From Verif Require Import QcTac Num ModelBase ModelHuang.

(** [B] are best buyers: the others do not bid more; [L] are best sellers: the others do not ask less *)
Definition best_buyers (d B : df) : Prop :=
  exists B', Permutation (filter buying d) (B ++ B') /\ forall x y, In x B -> In y B' -> price y <= price x.
Definition best_sellers (d L : df) : Prop :=
  exists L', Permutation (filter (fun r => negb (buying r)) d) (L ++ L') /\ forall x y, In x L -> In y L' -> price x <= price y.
(** every quantity is larger than [e], and so is the difference of what some best buyers ask for and some best sellers offer *)
Definition separated (e : Qc) (d : df) : Prop :=
  (forall r, In r d -> e < qty r) /\
  forall B L, B <> [] -> L <> [] -> best_buyers d B -> best_sellers d L -> e < qabs (qsumf qty B - qsumf qty L).
(** what rounding with relative error [u] can add up to on the bids [d] *)
Definition slack (u : Qc) (d : df) : Qc := qnat (2 * length d + 6) * (u * (1 + u) ^ (2 * length d)) * qsumf qty d.
(** the same trade, in quantities that differ by at most [e] *)
Definition alike (e : Qc) (t t' : trans) : Prop :=
  t_bid t = t_bid t' /\ t_price t = t_price t' /\ t_source t = t_source t' /\ t_active t = t_active t' /\ qabs (t_qty t - t_qty t') <= e.
(** the same outcome of an auction, in quantities that differ by at most [e]; the total traded by at most twice as much *)
Definition alike_extra (e : Qc) (x x' : extra) : Prop :=
  match x, x' with
  | XEmpty, XEmpty => True
  | XHuang ps pb q, XHuang ps' pb' q' => ps = ps' /\ pb = pb' /\ qabs (q - q') <= e + e
  | _, _ => False
  end.
Definition alike_outcome (e : Qc) (r r' : res (transmgr * extra)) : Prop :=
  match r, r' with
  | Ok (tm, x), Ok (tm', x') => Forall2 (alike e) (tm_trans tm) (tm_trans tm') /\ alike_extra e x x'
  | Err a, Err a' => a = a'
  | _, _ => False
  end.
(** MUDA: the same halves, prices and trades, in quantities that differ by at most [e] *)
Definition alike_muda (e : Qc) (r r' : res (transmgr * extra)) : Prop :=
  match r, r' with
  | Ok (tm, XMuda l g pl pg fees), Ok (tm', XMuda l' g' pl' pg' fees') =>
      Forall2 (alike e) (tm_trans tm) (tm_trans tm') /\ l = l' /\ g = g' /\ pl = pl' /\ pg = pg' /\ length fees = length fees'
  | Err a, Err a' => a = a'
  | _, _ => False
  end.
(** the uniform price mechanism: the same price and trades, in quantities that differ by at most [e] *)
Definition alike_uniform (e : Qc) (r r' : res (transmgr * extra)) : Prop :=
  match r, r' with
  | Ok (tm, XUniform q p), Ok (tm', XUniform q' p') =>
      Forall2 (alike e) (tm_trans tm) (tm_trans tm') /\ p = p' /\ match q, q' with Fin c, Fin c' => qabs (c - c') <= e | _, _ => q = q' end
  | Err a, Err a' => a = a'
  | _, _ => False
  end.
(** Peer to peer trading matches any buyers and sellers: every difference of what some buyers ask for and some sellers
    offer is larger than [e], and so is every quantity *)
Definition part_of (l P : df) : Prop := exists P', Permutation l (P ++ P').
Definition all_separated (e : Qc) (d : df) : Prop :=
  (forall r, In r d -> e < qty r) /\
  forall B L, B <> [] -> L <> [] -> part_of (filter buying d) B -> part_of (filter (fun r => negb (buying r)) d) L -> e < qabs (qsumf qty B - qsumf qty L).
(** the same trade, in quantities that differ by at most [e] and at prices that differ by at most [k] times the price *)
Definition alike_deal (e k : Qc) (t t' : trans) : Prop :=
  t_bid t = t_bid t' /\ t_source t = t_source t' /\ t_active t = t_active t' /\ qabs (t_qty t - t_qty t') <= e /\ qabs (t_price t - t_price t') <= k * t_price t.
(** the same meetings in the same rounds *)
Definition alike_p2p (e k : Qc) (r r' : res (transmgr * extra)) : Prop :=
  match r, r' with
  | Ok (tm, XP2P l), Ok (tm', XP2P l') => Forall2 (alike_deal e k) (tm_trans tm) (tm_trans tm') /\ l = l'
  | Err a, Err a' => a = a'
  | _, _ => False
  end.
