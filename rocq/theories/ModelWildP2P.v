(** pymarket/mechanisms/p2p_random.py on tables whose prices can be infinite or NaN (see ModelWild.v).

    The mechanism of ModelAny.v with exact quantities and extended prices; the list of transactions stands for the
    TransactionManager. *)
From Verif Require Import QcTac Num ModelBase ModelHuang ModelAny ModelWild.

(** p2p_random.py:115 [prices[b] * p_coef + (1 - p_coef) * prices[s]], for a rational coefficient *)
Definition w_mix (c : Qc) (pb ps : num) : num := nadd (nmul pb (Fin c)) (nmul (Fin (1 - c)) ps).
(** p2p_random.py:98-131: prices are compared as floats, quantities are exact *)
Definition ops_w (c : Qc) : ops num Qc num :=
  mkOps nleb (w_mix c) (Fin 0) 0 qmin (fun x y => x - y) (fun x => qltb 0 x) (fun x => qeqb x 0) (fun l => qltb 0 (qsum l)).
Definition arow_w (x : wrow) : arow num Qc := mkARow (w_lbl x) (w_qty x) (w_price x) (w_buying x).
(** p2p_random.py:10-134 [p2p_random] *)
Definition w_p2p (c : Qc) (d : wdf) (r : nat -> nat) : res (list (atrans Qc num) * list (list (nat * nat))) := a_run (ops_w c) (map arow_w d) r.
