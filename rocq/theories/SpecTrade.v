(** Specifications about lists of transactions for a table of bids.  Independent of the mechanisms. *)
From Verif Require Import QcTac ModelBase.

(** the transaction is for a bid of the given side ([true] = buying) of the table *)
Definition on_side (side : bool) (d : df) (t : trans) : bool :=
  existsb (fun r => Nat.eqb (lbl r) (t_bid t) && Bool.eqb (buying r) side) d.
(** total quantity bought / sold *)
Definition bought (d : df) (tl : list trans) : Qc := qsumf t_qty (filter (on_side true d) tl).
Definition sold (d : df) (tl : list trans) : Qc := qsumf t_qty (filter (on_side false d) tl).
(** total quantity traded by the bid with identifier [i] *)
Definition traded_by (i : nat) (tl : list trans) : Qc := qsumf t_qty (filter (fun t => Nat.eqb (t_bid t) i) tl).
(** every transaction refers to a bid of the table *)
Definition refer (d : df) (tl : list trans) : Prop :=
  forall t, In t tl -> exists r, In r d /\ lbl r = t_bid t.
(** no transaction has a negative quantity, no bid trades more than its quantity *)
Definition feasible (d : df) (tl : list trans) : Prop :=
  (forall t, In t tl -> 0 <= t_qty t) /\ (forall r, In r d -> traded_by (lbl r) tl <= qty r).
(** nobody trades at a price worse than its bid *)
Definition rational (d : df) (tl : list trans) : Prop :=
  forall t r, In t tl -> In r d -> lbl r = t_bid t ->
    if buying r then t_price t <= price r else price r <= t_price t.
(** no bid appears in two transactions *)
Definition once (tl : list trans) : Prop := NoDup (map t_bid tl).

(** transactions made by successive meetings of a buying and a selling bid: two per meeting, the
    buyer's first, with the same quantity and price, each naming the other bid as source *)
Inductive Meetings : list (nat * nat) -> list trans -> Prop :=
| Meet_nil : Meetings [] []
| Meet_cons b s L tb ts tl : t_bid tb = b -> t_bid ts = s ->
    t_source tb = Z.of_nat s -> t_source ts = Z.of_nat b ->
    t_qty tb = t_qty ts -> t_price tb = t_price ts -> Meetings L tl -> Meetings ((b, s) :: L) (tb :: ts :: tl).
