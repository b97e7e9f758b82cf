(** The uniform price mechanism of docs/new_mechanism.ipynb in rounded arithmetic (see ModelUniform.v and ModelRound.v). *)
From Verif Require Import QcTac Num ModelBase ModelCurves ModelHuang ModelMarket ModelUniform ModelRound.

Section Rounded.
  Variable R : rounding.
  Variable A : adder R.

  (** docs/new_mechanism.ipynb:210-220, the loop over the long side; both sums and the difference are rounded *)
  Fixpoint uniform_long_r (l : df) (traded added p : Qc) : list trans :=
    match l with
    | [] => []
    | x :: r =>
        mkTrans (lbl x) (if qleb (R (qty x + added)) traded then qty x else R (traded - added)) p (-1) false
        :: uniform_long_r r traded (R (added + qty x)) p
    end.
  (** docs/new_mechanism.ipynb:163-225 [uniform_price_mechanism]; [quantity.sum()] is numpy's sum, [A] *)
  Definition uniform_price_mechanism_r (S : sorter) (bids : df) : res (transmgr * extra) :=
    let buy := fst (demand_curve_r R S bids) in
    let sell := fst (supply_curve_r R S bids) in
    '(q_, b_, s_, price) <- intersect_stepwise_r R buy sell (qf 1 2) ;;
    match b_ with
    | None => Err TypeError
    | Some b =>
        match s_ with
        | None => Err TypeError
        | Some s =>
            match q_, price with
            | Some q, Fin p =>
                let buying_bids := firstn (Datatypes.S b) (s_desc S (buyers bids)) in
                let selling_bids := firstn (Datatypes.S s) (s_asc S (sellers bids)) in
                let buying_quantity := A (map qty buying_bids) in
                let selling_quantity := A (map qty selling_bids) in
                let '(long_side, short_side) :=
                  if qltb selling_quantity buying_quantity then (buying_bids, selling_bids)
                  else (selling_bids, buying_bids) in
                let traded_quantity := A (map qty short_side) in
                let trans := add_all (add_all tm_init (uniform_short short_side p))
                               (uniform_long_r long_side traded_quantity 0 p) in
                Ok (trans, XUniform q (Fin p))
            | _, _ => Err Unreachable
            end
        end
    end.
  (** docs/new_mechanism.ipynb:238-268: run through the interface, without merging *)
  Definition uniform_run_r (S : sorter) (d : df) : res (transmgr * extra) :=
    mechanism None (uniform_price_mechanism_r S) d.
End Rounded.
