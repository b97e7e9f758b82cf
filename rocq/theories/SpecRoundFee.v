(** What a fee of MUDA is in rounded arithmetic: the externality, up to an error. *)
From Verif Require Import QcTac Num ModelBase ModelHuang ModelRound Spec SpecTrade SpecMuda SpecRound.

(** the error in quantities for [k] bids: a multiple of the unit roundoff [u], times the quantity of all rows of [h] *)
Definition fee_eps (k : nat) (u : Qc) (h : df) : Qc := qnat (k + 3) * (u * (1 + u) ^ (k + 4)) * qsumf qty h.
(** [f] is, up to [5 * eps] times the largest distance between a bid and the price [q], what user [v] owes for trading on side
    [b] of [h]: the best total gain of the others, had [v] not been there, minus what they gained; and it is at most what [v]
    gains, up to [7 * eps] times that distance *)
Definition close_fee (h : df) (q : Qc) (b : bool) (tl : list trans) (v : Z) (eps f : Qc) : Prop :=
  let others := not_by v (side_of b h) in
  forall W, (forall r, In r h -> qabs (price r - q) <= W) ->
    (forall g, best_gain others q (side_qty (negb b) h q) g ->
       qabs (f - (g - fill_gain others q (fun i => traded_by i tl))) <= qz 5 * (eps * W)) /\
    f <= profit h v tl + qz 7 * (eps * W).
(** side [b] is the longer one, up to [eps] *)
Definition nearly_long (h : df) (p : num) (b : bool) (eps : Qc) : Prop :=
  forall q, p = Fin q -> side_qty (negb b) h q <= side_qty b h q + eps.
(** the fees [fees'] after the half [h] at the price [p], when side [b] is charged *)
Definition half_fees (h : df) (p : num) (b : bool) (tl : list trans) (eps : Qc) (fees fees' : list Qc) : Prop :=
  forall v, (0 <= v)%Z ->
    (trades_on b h tl v -> exists q, p = Fin q /\ close_fee h q b tl v eps (fee_of fees' v)) /\
    (~ trades_on b h tl v -> fee_of fees' v = fee_of fees v).
