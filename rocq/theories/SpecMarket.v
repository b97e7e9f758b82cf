(** Specifications about call sequences and statistics used in the statements of the properties. *)
From Verif Require Import QcTac Num ModelBase ModelHuang ModelMarket ModelStats.

(** the bids accepted by a sequence of calls *)
Definition accepted (ops : list op) : list bid :=
  flat_map (fun o => match o with OAccept b => [b] | _ => [] end) ops.

(** sensible calls: positive quantities, nonnegative prices and users, p2p weights in [0,1] *)
Definition bid_ok (b : bid) : Prop := 0 < b_qty b /\ 0 <= b_price b /\ (0 <= b_user b)%Z.
Definition op_ok (o : op) : Prop :=
  match o with OAccept b => bid_ok b | ORun (AP2P c _) => 0 <= c /\ c <= 1 | _ => True end.

(** [t], [x] is the result of the last run that did not raise; each run sees the bids accepted so far *)
Inductive LastRun (S : sorter) : list op -> transmgr -> extra -> Prop :=
| LR_none : LastRun S [] (mkTM 0 []) XEmpty
| LR_run ops a t x : run_algo S a (rows_from 0 (accepted ops)) = Ok (t, x) -> LastRun S (ops ++ [ORun a]) t x
| LR_raise ops a e t x : run_algo S a (rows_from 0 (accepted ops)) = Err e -> LastRun S ops t x -> LastRun S (ops ++ [ORun a]) t x
| LR_bid ops b t x : LastRun S ops t x -> LastRun S (ops ++ [OAccept b]) t x
| LR_stats ops rp ex t x : LastRun S ops t x -> LastRun S (ops ++ [OStats rp ex]) t x.

(** all bids on one side, or none at all *)
Definition one_sided (d : df) : Prop := (forall r, In r d -> buying r = true) \/ (forall r, In r d -> buying r = false).
