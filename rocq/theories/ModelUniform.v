(** Model of the uniform price mechanism that docs/new_mechanism.ipynb develops as the example of how to
    add a mechanism to the library (cell "def uniform_price_mechanism", lines 163-225 of the file, and
    the wrapping class and registration, lines 238-268). *)
From Verif Require Import QcTac Num ModelBase ModelCurves ModelHuang ModelMarket.

(** docs/new_mechanism.ipynb:205-208, one transaction for each bid of the short side *)
Definition uniform_short (l : df) (p : Qc) : list trans :=
  map (fun x => mkTrans (lbl x) (qty x) p (-1) false) l.

(** docs/new_mechanism.ipynb:210-220, the loop over the long side; [added] is [quantity_added] *)
Fixpoint uniform_long (l : df) (traded added p : Qc) : list trans :=
  match l with
  | [] => []
  | x :: r =>
      mkTrans (lbl x) (if qleb (qty x + added) traded then qty x else traded - added) p (-1) false
      :: uniform_long r traded (added + qty x) p
  end.

(** docs/new_mechanism.ipynb:163-225 [uniform_price_mechanism].  When the curves do not cross the
    positions are None and [b_ + 1] raises TypeError.  The price is an entry of the curve arrays or a mean of two;
    if it were infinite the model says [Unreachable] (shown impossible). *)
Definition uniform_price_mechanism (S : sorter) (bids : df) : res (transmgr * extra) :=
  let buy := fst (demand_curve_from_bids S bids) in
  let sell := fst (supply_curve_from_bids S bids) in
  '(q_, b_, s_, price) <- intersect_stepwise buy sell (qf 1 2) ;;
  match b_ with
  | None => Err TypeError
  | Some b =>
      match s_ with
      | None => Err TypeError
      | Some s =>
          match q_, price with
          | Some q, Fin p =>
              let buying_bids := firstn (Datatypes.S b) (s_desc S (buyers bids)) in
              let selling_bids := firstn (Datatypes.S s) (s_asc S (sellers bids)) in
              let buying_quantity := qsum (map qty buying_bids) in
              let selling_quantity := qsum (map qty selling_bids) in
              let '(long_side, short_side) :=
                if qltb selling_quantity buying_quantity then (buying_bids, selling_bids)
                else (selling_bids, buying_bids) in
              let traded_quantity := qsum (map qty short_side) in
              let trans := add_all (add_all tm_init (uniform_short short_side p))
                             (uniform_long long_side traded_quantity 0 p) in
              Ok (trans, XUniform q (Fin p))
          | _, _ => Err Unreachable
          end
      end
  end.

(** docs/new_mechanism.ipynb:238-268: the mechanism run through the interface, without merging *)
Definition uniform_run (S : sorter) (d : df) : res (transmgr * extra) :=
  mechanism None (uniform_price_mechanism S) d.
(** and through the market (market.py:120-155) *)
Definition market_run_uniform (S : sorter) (m : market) : market * res (transmgr * extra) :=
  match uniform_run S (get_df (mk_bm m)) with
  | Ok (t, x) => (mkMarket (mk_bm m) t x, Ok (t, x))
  | Err e => (m, Err e)
  end.
