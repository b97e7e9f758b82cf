(** C82: the fees of MUDA in floating point are the exact externalities, up to a rounding error. *)
From Verif Require Import QcTac Num ModelBase ModelHuang ModelMuda ModelRound ModelFloat Spec SpecTrade SpecMuda SpecRound SpecRoundFee
  Sorter RoundFacts RoundTop RoundFeeMuda.

(** For every rounding with a relative error of at most [u] and sums from left to right of up to [k] bids on a side: each half has a side that is the longer
    one up to the error, and whoever trades there is charged the loss of the others up to the error, and no more than its own
    gain up to the error; nobody else is charged.  The fee from the right half replaces that of the left one. *)
Theorem C82_fee_close : forall (R : rounding) (A : adder R) (S : sorter) (d : df) (fl : list bool), qty_nonneg d -> labels_unique d ->
  machine_qty R d -> (forall r, In r d -> (0 <= user r)%Z) ->
  forall k, (forall b, (length (side_of b d) <= k)%nat) -> (forall l, (length l <= k + 1)%nat -> A l = seq_sum R l) ->
  forall u, rel_error R u -> forall tm ex, muda_r R A S d fl = Ok (tm, ex) ->
  exists l r pl pr fees tlL tlR bl br fees1, ex = XMuda l r pl pr fees /\ tm_trans tm = tlL ++ tlR /\
    (forall t, In t tlL -> In (t_bid t) l) /\ (forall t, In t tlR -> In (t_bid t) r) /\
    nearly_long (rows_in l d) pr bl (fee_eps k u (rows_in l d)) /\ nearly_long (rows_in r d) pl br (fee_eps k u (rows_in r d)) /\
    half_fees (rows_in l d) pr bl tlL (fee_eps k u (rows_in l d)) [] fees1 /\
    half_fees (rows_in r d) pl br tlR (fee_eps k u (rows_in r d)) fees1 fees.
Proof. exact muda_fees_r. Qed.
Print Assumptions C82_fee_close.

(** In double precision with numpy's sums this holds for up to six bids on each side. *)
Theorem C82_fee_double : forall (S : sorter) (d : df) (fl : list bool) tm ex, qty_nonneg d -> labels_unique d -> machine_qty f64 d ->
  (forall r, In r d -> (0 <= user r)%Z) -> (forall b, (length (side_of b d) < 7)%nat) -> muda_r f64 (np_adder f64) S d fl = Ok (tm, ex) ->
  exists l r pl pr fees tlL tlR bl br fees1, ex = XMuda l r pl pr fees /\ tm_trans tm = tlL ++ tlR /\
    (forall t, In t tlL -> In (t_bid t) l) /\ (forall t, In t tlR -> In (t_bid t) r) /\
    nearly_long (rows_in l d) pr bl (fee_eps 6 (p2 (-53)) (rows_in l d)) /\
    nearly_long (rows_in r d) pl br (fee_eps 6 (p2 (-53)) (rows_in r d)) /\
    half_fees (rows_in l d) pr bl tlL (fee_eps 6 (p2 (-53)) (rows_in l d)) [] fees1 /\
    half_fees (rows_in r d) pl br tlR (fee_eps 6 (p2 (-53)) (rows_in r d)) fees1 fees.
Proof. exact muda_fees_small. Qed.
Print Assumptions C82_fee_double.

(** The bound is sharp where it should be: with the error 0 the fee is the externality, and at most the gain. *)
Theorem C82_fee_exact : forall h q b tl v f, close_fee h q b tl v 0 f ->
  (forall g, best_gain (not_by v (side_of b h)) q (side_qty (negb b) h q) g -> f = g - fill_gain (not_by v (side_of b h)) q (fun i => traded_by i tl)) /\
  f <= profit h v tl.
Proof. exact close_fee_exact. Qed.
Print Assumptions C82_fee_exact.
Theorem C82_no_error : forall k h, fee_eps k 0 h = 0.
Proof. exact fee_eps_zero. Qed.
Print Assumptions C82_no_error.

(** With eight bids on one side numpy adds up in another order than the running sums, and a fee can exceed six times the gain. *)
Theorem C82_fee_gain_refuted : exists (S : sorter) (d : df) (fl : list bool) tm l r pl pr fees v, labels_unique d /\ qty_nonneg d /\ price_nonneg d /\
  machine_qty f64 d /\ machine_price f64 d /\ muda_r f64 (np_adder f64) S d fl = Ok (tm, XMuda l r pl pr fees) /\
  0 < profit d v (tm_trans tm) /\ qz 6 * profit d v (tm_trans tm) < fee_of fees v.
Proof. exact lost_fee. Qed.
Print Assumptions C82_fee_gain_refuted.

(** Three sellers and a buyer in the left half: two sellers trade and pay fees, which differ from the exact ones. *)
Example C82_small_run :
  match muda_r f64 (np_adder f64) stable_sorter small small_flips, muda stable_sorter small small_flips with
  | Ok (tm, XMuda _ _ _ _ f), Ok (_, XMuda _ _ _ _ f') =>
      qltb 0 (fee_of f 0) && qltb 0 (fee_of f 1) && negb (qeqb (fee_of f 0) (fee_of f' 0)) && Nat.eqb (length (tm_trans tm)) 3
  | _, _ => false
  end = true.
Proof. vm_compute. reflexivity. Qed.
Example C82_small_bound : forallb (fun r => qltb 0 (qty r)) small = true /\ (forall b, (length (side_of b small) < 7)%nat) /\
  qltb (fee_eps 6 (p2 (-53)) small) (qf 1 10000000000000) = true.
Proof. split; [vm_compute; reflexivity|]. split; [intros []; vm_compute; lia | vm_compute; reflexivity]. Qed.
