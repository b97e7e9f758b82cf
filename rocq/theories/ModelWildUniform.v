(** The uniform price mechanism of docs/new_mechanism.ipynb (see ModelUniform.v) on tables whose prices can be infinite or NaN. *)
From Verif Require Import QcTac Num ModelBase ModelCurves ModelHuang ModelAny ModelWild.

(** docs/new_mechanism.ipynb:205-208, one transaction for each bid of the short side *)
Definition w_uniform_short (l : wdf) (p : num) : list (atrans Qc num) := map (fun x => mkATrans (w_lbl x) (w_qty x) p (-1) false) l.

(** docs/new_mechanism.ipynb:210-220, the loop over the long side; [added] is [quantity_added] *)
Fixpoint w_uniform_long (l : wdf) (traded added : Qc) (p : num) : list (atrans Qc num) :=
  match l with
  | [] => []
  | x :: r =>
      mkATrans (w_lbl x) (if qleb (w_qty x + added) traded then w_qty x else traded - added) p (-1) false
      :: w_uniform_long r traded (added + w_qty x) p
  end.

(** docs/new_mechanism.ipynb:163-225 [uniform_price_mechanism].  The TransactionManager is the list of its transactions; the pair is the
    dictionary ([clearing quantity], [clearing price]).  Without a crossing [b_ + 1] raises TypeError. *)
Definition w_uniform (S : wsorter) (bids : wdf) : res (list (atrans Qc num) * option (num * num)) :=
  let buying := w_desc S (w_buyers bids) in
  let selling := w_asc S (w_sellers bids) in
  '(q_, b_, s_, price) <- intersect_stepwise (w_demand buying) (w_supply selling) (qf 1 2) ;;
  match b_, s_, q_ with
  | Some b, Some s, Some q =>
      let buying_bids := firstn (Datatypes.S b) buying in
      let selling_bids := firstn (Datatypes.S s) selling in
      let buying_quantity := qsum (map w_qty buying_bids) in
      let selling_quantity := qsum (map w_qty selling_bids) in
      let '(long_side, short_side) :=
        if qltb selling_quantity buying_quantity then (buying_bids, selling_bids) else (selling_bids, buying_bids) in
      let traded_quantity := qsum (map w_qty short_side) in
      Ok (w_uniform_short short_side price ++ w_uniform_long long_side traded_quantity 0 price, Some (q, price))
  | _, _, _ => Err TypeError
  end.

(** mechanism.py:130-139: a table with one side only is not given to the mechanism; [None] is the empty dictionary *)
Definition w_uniform_run (S : wsorter) (bids : wdf) : res (list (atrans Qc num) * option (num * num)) :=
  let nb := length (w_buyers bids) in
  if Nat.eqb nb 0 || Nat.eqb nb (length bids) then Ok ([], None) else w_uniform S bids.
