(** Property C76: the uniform price mechanism of the documentation in rounded arithmetic, in particular in double
    precision. *)
From Verif Require Import QcTac Num ModelBase ModelCurves ModelHuang ModelMuda ModelMarket ModelUniform ModelRound ModelFloat ModelRoundUniform
  Spec SpecTrade SpecRound Sorter Conform RoundFacts RoundTop RoundWitness RoundUniform RoundUniformTop RoundUniformWitness PropertiesRoundMarket.

(** Without rounding it is the exact model. *)
Theorem C76_rounded_model : forall (A : adder exact) (S : sorter) (d : df), uniform_run_r exact A S d = uniform_run S d.
Proof. exact uniform_run_exact. Qed.
Print Assumptions C76_rounded_model.

(** C76. With any rounding and any numpy sum: all transactions have one price, the computed competitive price, every bid
    has at most one, never of more than its quantity, and, if half a machine number is a machine number ([halves], true of double precision), nobody
    trades at a price worse than its bid. *)
Theorem C76_uniform_rounded :
  forall (R : rounding) (A : adder R) (S : sorter) (d : df), qty_nonneg d -> price_nonneg d -> machine_qty R d -> labels_unique d ->
    forall tm ex, uniform_run_r R A S d = Ok (tm, ex) ->
    once (tm_trans tm) /\ refer d (tm_trans tm) /\
    (tm_trans tm = [] \/ exists c p, ex = XUniform (Fin c) (Fin p) /\ find_competitive_price_r R S d = Ok (Fin p) /\
       forall t, In t (tm_trans tm) -> t_price t = p /\ t_source t = (-1)%Z /\ t_active t = false) /\
    (forall t r, In t (tm_trans tm) -> In r d -> lbl r = t_bid t -> t_qty t <= qty r) /\
    (halves R -> machine_price R d -> rational d (tm_trans tm)).
Proof. exact run_uniform_summary. Qed.
Print Assumptions C76_uniform_rounded.
(** With buyers and sellers it raises exactly if the computed curves do not cross. *)
Theorem C76_uniform_runs :
  forall (R : rounding) (A : adder R) (S : sorter) (d : df) (b s : row), qty_nonneg d -> price_nonneg d ->
    In b d -> In s d -> buying b = true -> buying s = false ->
    uniform_run_r R A S d = Err TypeError /\ (forall x, ~ Crossing (fst (demand_curve_r R S d)) (fst (supply_curve_r R S d)) x) \/
    exists tm c p, uniform_run_r R A S d = Ok (tm, XUniform (Fin c) (Fin p)) /\ Crossing (fst (demand_curve_r R S d)) (fst (supply_curve_r R S d)) (Fin c).
Proof. exact (fun R A S d b s Hq Hp => run_uniform_runs R A S d Hq Hp b s). Qed.
Print Assumptions C76_uniform_runs.
(** If numpy's sums are the running sums, no quantity is negative and the run is feasible; it is balanced up to rounding. *)
Theorem C76_uniform_running_sums :
  forall (R : rounding) (A : adder R) (S : sorter) (d : df) (u : Qc), qty_nonneg d -> price_nonneg d -> machine_qty R d -> labels_unique d ->
    (forall l, (length l <= length d)%nat -> A l = seq_sum R l) -> rel_error R u ->
    forall tm ex, uniform_run_r R A S d = Ok (tm, ex) ->
    feasible d (tm_trans tm) /\
    qabs (bought d (tm_trans tm) - sold d (tm_trans tm)) <= (qnat (2 * length d) * (u * (1 + u) ^ length d) + u) * qsumf qty d.
Proof. exact (fun R A S d u Hq Hp Hm Hu => run_uniform_seq R A S d Hq Hp Hm Hu u). Qed.
Print Assumptions C76_uniform_running_sums.
(** This is so in double precision with less than eight bids. *)
Theorem C76_uniform_double_small :
  forall (S : sorter) (d : df), qty_nonneg d -> price_nonneg d -> machine_qty f64 d -> machine_price f64 d -> labels_unique d -> (length d < 8)%nat ->
    forall tm ex, uniform_run_r f64 (np_adder f64) S d = Ok (tm, ex) ->
    feasible d (tm_trans tm) /\ rational d (tm_trans tm) /\
    qabs (bought d (tm_trans tm) - sold d (tm_trans tm)) <=
      (qnat (2 * length d) * (p2 (-53) * (1 + p2 (-53)) ^ length d) + p2 (-53)) * qsumf qty d.
Proof. exact run_uniform_small. Qed.
Print Assumptions C76_uniform_double_small.
(** With any sum, quantities are not below zero and the run is balanced up to the rounding errors of the sums. *)
Theorem C76_uniform_any_sums :
  forall (R : rounding) (A : adder R) (S : sorter) (d : df) (u : Qc), qty_nonneg d -> price_nonneg d -> machine_qty R d -> labels_unique d ->
    rel_error R u -> forall tm ex, uniform_run_r R A S d = Ok (tm, ex) ->
    let D := qnat (length d) * (u * (1 + u) ^ length d) * qsumf qty d in
    (forall t, In t (tm_trans tm) -> - (qz 2 * (1 + u) * D) <= t_qty t) /\
    qabs (bought d (tm_trans tm) - sold d (tm_trans tm)) <= (qnat (2 * length d + 2) * (1 + u)) * D + u * qsumf qty d.
Proof. exact (fun R A S d u Hq Hp Hm Hu => run_uniform_any R A S d Hq Hp Hm Hu u). Qed.
Print Assumptions C76_uniform_any_sums.
(** The errors happen in double precision: somebody is given a negative quantity (eight buyers), and more is bought than
    sold (three bids). *)
Theorem C76_nonneg_refuted :
  exists (S : sorter) (d : df) tm ex, labels_unique d /\ qty_nonneg d /\ price_nonneg d /\ machine_qty f64 d /\ machine_price f64 d /\
    uniform_run_r f64 (np_adder f64) S d = Ok (tm, ex) /\ exists t, In t (tm_trans tm) /\ t_qty t < 0.
Proof. exact dip_witness. Qed.
Print Assumptions C76_nonneg_refuted.
Theorem C76_balance_refuted :
  exists (S : sorter) (d : df) tm ex, labels_unique d /\ qty_nonneg d /\ price_nonneg d /\ machine_qty f64 d /\ machine_price f64 d /\
    (length d < 8)%nat /\ uniform_run_r f64 (np_adder f64) S d = Ok (tm, ex) /\ sold d (tm_trans tm) < bought d (tm_trans tm).
Proof. exact uneven_witness. Qed.
Print Assumptions C76_balance_refuted.

(** A buyer of 1.1 and sellers of 0.1 and 2: the second seller sells 1.1 - 0.1 = 1. *)
Example C76_example :
  shown (uniform_run_r f64 (np_adder f64) SS (frame [B (tenth 11) (qz 9) 0; A (tenth 1) (qz 1) 1; A (qz 2) (qz 2) 2])) =
  Some [(0%nat, this (tenth 11), 2%Q); (1%nat, this (tenth 1), 2%Q); (2%nat, 1%Q, 2%Q)].
Proof. vm_compute. reflexivity. Qed.
