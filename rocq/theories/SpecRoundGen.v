(** Bids made by the generator in rounded arithmetic. *)
From Verif Require Import QcTac Num ModelBase ModelHuang ModelDatasets ModelRound ModelRoundDatasets.

(** the step of the grid that is used for at most [mx] bids of a side *)
Definition grid_step (R : rounding) (mx : nat) (eps : Qc) : Qc := if qltb (R (1 / eps)) (qnat mx) then R (R (1 / qnat mx) / qz 2) else eps.
(** the integers up to [n] are machine numbers; binary64: up to 2^53 *)
Definition whole (R : rounding) (n : nat) : Prop := forall i, (i <= n)%nat -> machine R (qnat i).
