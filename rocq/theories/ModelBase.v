(** Model of the storage layer: bids, dataframes, transactions.
    pymarket/bids/bids.py, pymarket/transactions/transactions.py. *)
From Verif Require Import QcTac Num.

(** ** Exceptions as values *)
Inductive exn :=
| ValueError | TypeError | IndexError | KeyError | AttributeError
| NotImplementedError | ZeroDivisionError
| NaNProduced   (* the code does not raise here but computes 0/0 = nan *)
| OutOfFuel     (* bookkeeping of fuelled loops, shown unreachable *)
| Unreachable.  (* branches shown unreachable *)

Inductive res (A : Type) := Ok (a : A) | Err (e : exn).
Arguments Ok {A} a.
Arguments Err {A} e.

Definition bind {A B} (x : res A) (k : A -> res B) : res B :=
  match x with Ok a => k a | Err e => Err e end.
Notation "x <- e ;; k" := (bind e (fun x => k)) (at level 61, e at next level, right associativity).
Notation "' p <- e ;; k" := (bind e (fun p => k))
  (at level 61, p pattern, e at next level, right associativity).

(** ** Bids *)

(** The tuple stored for a bid: bids.py:76 [new_bid]. Quantities, prices and times
    are exact rationals; user identifiers are integers (bids.py:53). *)
Record bid := mkBid {
  b_qty : Qc; b_price : Qc; b_user : Z; b_buying : bool; b_time : Qc; b_div : bool }.

(** bids.py:30-32 [BidManager.__init__]: the attributes [n_bids] and [bids]. *)
Record bidmgr := mkBM { n_bids : nat; bm_bids : list bid }.
Definition bm_init : bidmgr := mkBM 0 [].

(** bids.py:34-80 [BidManager.add_bid]: append, increment, return [n_bids - 1]. *)
Definition add_bid (bm : bidmgr) (b : bid) : bidmgr * nat :=
  let bm' := mkBM (S (n_bids bm)) (bm_bids bm ++ [b]) in
  (bm', n_bids bm' - 1)%nat.

(** A row of a bid dataframe: index label and the six columns (bids.py:21-28). *)
Record row := mkRow {
  lbl : nat; qty : Qc; price : Qc; user : Z; buying : bool; time : Qc; divisible : bool }.
Definition df := list row.

Definition row_of (i : nat) (b : bid) : row :=
  mkRow i (b_qty b) (b_price b) (b_user b) (b_buying b) (b_time b) (b_div b).

Fixpoint rows_from (i : nat) (l : list bid) : df :=
  match l with [] => [] | b :: r => row_of i b :: rows_from (S i) r end.

(** bids.py:82-108 [BidManager.get_df]: one row per stored bid, index 0..n-1. *)
Definition get_df (bm : bidmgr) : df := rows_from 0 (bm_bids bm).

(** ** Boolean selection and sorting of dataframes *)

(** [bids[bids.buying]], [bids.loc[bids['buying']]] *)
Definition buyers (d : df) : df := filter buying d.
(** [bids[bids.buying == False]], [bids.loc[~bids['buying']]] *)
Definition sellers (d : df) : df := filter (fun r => negb (buying r)) d.

(** [df.sort_values('price')] and [df.sort_values('price', ascending=False)].
    numpy's quicksort is not stable, so the model only knows that the result is a
    permutation of the rows in price order; it is a function of the frame.  *)
Record sorter := mkSorter {
  s_asc : df -> df;
  s_desc : df -> df;
  s_asc_perm : forall d, Permutation (s_asc d) d;
  s_desc_perm : forall d, Permutation (s_desc d) d;
  s_asc_sorted : forall d, StronglySorted (fun a b => price a <= price b) (s_asc d);
  s_desc_sorted : forall d, StronglySorted (fun a b => price b <= price a) (s_desc d) }.

(** ** Transactions *)

(** transactions.py:67 [new_trans]. [t_source] is -1 when there is no counterparty. *)
Record trans := mkTrans {
  t_bid : nat; t_qty : Qc; t_price : Qc; t_source : Z; t_active : bool }.

(** transactions.py:25-29 *)
Record transmgr := mkTM { n_trans : nat; tm_trans : list trans }.
Definition tm_init : transmgr := mkTM 0 [].

(** transactions.py:31-71 [add_transaction] *)
Definition add_transaction (tm : transmgr) (t : trans) : transmgr * nat :=
  let tm' := mkTM (S (n_trans tm)) (tm_trans tm ++ [t]) in
  (tm', n_trans tm' - 1)%nat.

(** the [for ... : trans.add_transaction(...)] loops *)
Definition add_all (tm : transmgr) (l : list trans) : transmgr :=
  fold_left (fun acc t => fst (add_transaction acc t)) l tm.

(** transactions.py:101-144 [merge]: a fresh manager, all of self, then all of other. *)
Definition tm_merge (self other : transmgr) : transmgr :=
  add_all (add_all tm_init (tm_trans self)) (tm_trans other).

(** ** Small array helpers *)

(** [np.cumsum] *)
Fixpoint cumsum_from (acc : Qc) (l : list Qc) : list Qc :=
  match l with [] => [] | x :: r => (acc + x) :: cumsum_from (acc + x) r end.
Definition cumsum (l : list Qc) : list Qc := cumsum_from 0 l.

(** [np.argmax] of a boolean array: index of the first True, 0 if there is none. *)
Fixpoint first_true (l : list bool) : option nat :=
  match l with
  | [] => None
  | true :: _ => Some 0%nat
  | false :: r => option_map S (first_true r)
  end.
Definition argmax_bool (l : list bool) : nat :=
  match first_true l with Some i => i | None => 0%nat end.

(** [a[i] = v] for a valid position (no effect otherwise; callers check) *)
Fixpoint set_nth {A} (i : nat) (v : A) (l : list A) : list A :=
  match l, i with
  | [], _ => []
  | _ :: r, O => v :: r
  | x :: r, S j => x :: set_nth j v r
  end.
