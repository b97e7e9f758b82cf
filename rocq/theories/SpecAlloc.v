(** Allocations: how much each buying bid buys from each selling bid.  Independent of the model of the
    statistics and of the mechanisms. *)
From Verif Require Import QcTac ModelBase.

Definition alloc := nat -> nat -> Qc.   (* buyer label, seller label *)
Definition all_b (d : df) : df := filter buying d.
Definition all_s (d : df) : df := filter (fun r => negb (buying r)) d.
Definition alloc_ok (d : df) (x : alloc) : Prop :=
  (forall b s, In b (all_b d) -> In s (all_s d) -> 0 <= x (lbl b) (lbl s)) /\
  (forall b, In b (all_b d) -> qsumf (fun s => x (lbl b) (lbl s)) (all_s d) <= qty b) /\
  (forall s, In s (all_s d) -> qsumf (fun b => x (lbl b) (lbl s)) (all_b d) <= qty s).
(** only pairs with bid >= ask trade *)
Definition alloc_compat (d : df) (x : alloc) : Prop :=
  forall b s, In b (all_b d) -> In s (all_s d) -> price b < price s -> x (lbl b) (lbl s) = 0.
Definition volume (d : df) (x : alloc) : Qc :=
  qsumf (fun b => qsumf (fun s => x (lbl b) (lbl s)) (all_s d)) (all_b d).
(** welfare when bid [r] is worth [v r] per unit *)
Definition welfare (d : df) (v : row -> Qc) (x : alloc) : Qc :=
  qsumf (fun b => qsumf (fun s => (v b - v s) * x (lbl b) (lbl s)) (all_s d)) (all_b d).

(** ** Clearing prices, when bid [r] is worth [v r] per unit *)
Definition wanted_above (d : df) (v : row -> Qc) (p : Qc) : Qc := qsumf qty (filter (fun r => qltb p (v r)) (all_b d)).
Definition wanted_at (d : df) (v : row -> Qc) (p : Qc) : Qc := qsumf qty (filter (fun r => qleb p (v r)) (all_b d)).
Definition offered_below (d : df) (v : row -> Qc) (p : Qc) : Qc := qsumf qty (filter (fun r => qltb (v r) p) (all_s d)).
Definition offered_at (d : df) (v : row -> Qc) (p : Qc) : Qc := qsumf qty (filter (fun r => qleb (v r) p) (all_s d)).
(** buyers that gain can be served, sellers that gain can sell *)
Definition clearing (d : df) (v : row -> Qc) (p : Qc) : Prop :=
  wanted_above d v p <= offered_at d v p /\ offered_below d v p <= wanted_at d v p.
(** total gain if everybody could trade all its quantity at price [p] when it wants to *)
Definition surplus (d : df) (v : row -> Qc) (p : Qc) : Qc :=
  qsumf (fun b => qty b * qmax 0 (v b - p)) (all_b d) + qsumf (fun s => qty s * qmax 0 (p - v s)) (all_s d).
