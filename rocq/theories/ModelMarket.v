(** Model of pymarket/mechanisms/mechanism.py and pymarket/market.py. *)
From Verif Require Import QcTac Num ModelBase ModelCurves ModelHuang ModelMuda ModelP2P ModelMerge.

(** mechanism.py:130-139 [Mechanism._run] *)
Definition mech_run0 (algo : df -> res (transmgr * extra)) (bids : df) : res (transmgr * extra) :=
  let nb := length (buyers bids) in
  if Nat.eqb nb 0 || Nat.eqb nb (length bids) then Ok (tm_init, XEmpty) else algo bids.

(** mechanism.py:130-139 [Mechanism._run] on the table made by [merge_same_price].  When one side of the
    market is empty, [pd.concat] (bids/processing.py:258) joins a table with an empty one and every column
    becomes a column of floats: the printed table of mechanism.py:113-116 shows [buying] as [1.0].  Then
    [bids.loc[bids['buying']]] (mechanism.py:134) is no selection by truth values but a look up of the rows
    with the labels [0.0] or [1.0].  With sellers only the label 0 exists, and it is found once per row:
    N rows, so the run is empty.  With buyers only the label 1 exists unless the merged table has a single
    row, and then pandas raises [KeyError]. *)
Definition lone_buyer (bids : df) : bool := match bids with [r] => buying r | _ => false end.
Definition merged_run (algo : df -> res (transmgr * extra)) (bids : df) : res (transmgr * extra) :=
  if lone_buyer bids then Err KeyError else mech_run0 algo bids.

(** mechanism.py:72-80,82-128,141-168,170-174: construct a [Mechanism] and [run] it.  [merge] is
    [Some smp] for [merge=True] (with the sampling oracle and the global id counter). *)
Definition mechanism (merge : option ((nat -> nat) * Z)) (algo : df -> res (transmgr * extra))
  (bids : df) : res (transmgr * extra) :=
  match merge with
  | None => mech_run0 algo bids
  | Some (smp, cnt) =>
      '(new_bids, maping, _) <- merge_same_price 5 smp bids cnt ;;
      '(trans, ex) <- merged_run algo new_bids ;;
      '(trans', _) <- split_transactions_merged_players trans bids maping None ;;
      Ok (trans', ex)
  end.

(** The mechanisms registered in market.py:8-12, with the random choices of the run as data;
    [AUnknown] is any other key. *)
Inductive algo :=
| AHuang (smp : nat -> nat) (counter : Z)
| AMuda (flips : list bool)
| AP2P (p_coef : Qc) (r : nat -> nat)
| AUnknown.

(** market.py:8-12 [MECHANISM], huang_auction.py:208-231, muda_auction.py:432-445,
    p2p_random.py:137-152 *)
Definition run_algo (S : sorter) (a : algo) (d : df) : res (transmgr * extra) :=
  match a with
  | AHuang smp cnt => mechanism (Some (smp, cnt)) (huang_auction S) d
  | AMuda flips => mechanism None (fun b => muda S b flips) d
  | AP2P c r => mechanism None (fun b => p2p_random b c r) d
  | AUnknown => Err KeyError
  end.

(** market.py:96-100 *)
Record market := mkMarket { mk_bm : bidmgr; mk_trans : transmgr; mk_extra : extra }.
Definition market_init : market := mkMarket bm_init tm_init XEmpty.

(** market.py:102-118 [accept_bid] *)
Definition accept_bid (m : market) (b : bid) : market * nat :=
  let '(bm', i) := add_bid (mk_bm m) b in
  (mkMarket bm' (mk_trans m) (mk_extra m), i).

(** market.py:120-155 [run]: new state and result; an exception leaves the state alone. *)
Definition market_run (S : sorter) (m : market) (a : algo) : market * res (transmgr * extra) :=
  match run_algo S a (get_df (mk_bm m)) with
  | Ok (t, x) => (mkMarket (mk_bm m) t x, Ok (t, x))
  | Err e => (m, Err e)
  end.
