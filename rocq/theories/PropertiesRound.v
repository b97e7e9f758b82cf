(** Properties C55 - C57: the mechanisms in rounded arithmetic, in particular in double precision. *)
From Verif Require Import QcTac Num ModelBase ModelCurves ModelHuang ModelMuda ModelP2P ModelRound ModelFloat
  Spec SpecTrade SpecMuda SpecRound Sorter Conform RoundFacts RoundHuang RoundError RoundMuda RoundTop RoundWitness.

(** The rounded mechanisms without rounding are the exact ones; double precision is a rounding with a
    relative error of 2^-53 in which halves are exact. *)
Theorem C55_rounded_model :
  (forall (A : adder exact) d c r, p2p_random_r exact A d c r = p2p_random d c r) /\
  (forall (A : adder exact) S d, huang_auction_r exact A S d = huang_auction S d) /\
  (forall (A : adder exact) S d fl, muda_r exact A S d fl = muda S d fl) /\
  rel_error f64 (p2 (-53)) /\ halves f64.
Proof. exact (conj p2p_exact (conj huang_exact (conj muda_exact (conj f64_rel f64_halves)))). Qed.
Print Assumptions C55_rounded_model.

(** C55. Peer to peer in any rounded arithmetic: it does not raise, every transaction is of a bid, not negative,
    as much is bought as is sold (exactly), and the transactions are those of the meetings, each of which happens once. *)
Theorem C55_p2p_rounded :
  forall (R : rounding) (A : adder R) (d : df) (c : Qc) (r : nat -> nat), map lbl d = seq 0 (length d) -> qty_nonneg d -> machine_qty R d ->
    exists tm gtl, p2p_random_r R A d c r = Ok (tm, XP2P gtl) /\
      refer d (tm_trans tm) /\ (forall t, In t (tm_trans tm) -> 0 <= t_qty t) /\
      bought d (tm_trans tm) = sold d (tm_trans tm) /\ Meetings (concat gtl) (tm_trans tm) /\ NoDup (concat gtl) /\
      (forall T, In T gtl -> T <> [] /\ NoDup (flat_map (fun p => [fst p; snd p]) T)).
Proof. exact p2p_r_safe. Qed.
Print Assumptions C55_p2p_rounded.
(** no bid trades more than its quantity, up to one rounding per transaction; of a buyer and a seller that
    could trade one is exhausted, up to the same error *)
Theorem C55_p2p_quantities :
  forall (R : rounding) (A : adder R) (d : df) (c : Qc) (r : nat -> nat), map lbl d = seq 0 (length d) -> qty_nonneg d -> machine_qty R d ->
    forall u, rel_error R u -> forall tm ex, p2p_random_r R A d c r = Ok (tm, ex) ->
    (forall x, In x d -> traded_by (lbl x) (tm_trans tm) <= qty x + qnat (count_of x (tm_trans tm)) * (u * qty x)) /\
    (forall x y, In x d -> In y d -> buying x = true -> buying y = false -> price y <= price x ->
       exists z, (z = x \/ z = y) /\ qty z - qnat (count_of z (tm_trans tm)) * (u * qty z) <= traded_by (lbl z) (tm_trans tm)).
Proof. exact p2p_r_fill. Qed.
Print Assumptions C55_p2p_quantities.
(** with the default coefficient 1/2 nobody trades at a price worse than its bid, not even by a rounding *)
Theorem C55_p2p_price :
  forall (R : rounding) (A : adder R) (d : df) (c : Qc) (r : nat -> nat), map lbl d = seq 0 (length d) -> qty_nonneg d -> machine_qty R d ->
    forall tm ex, c = qf 1 2 -> halves R -> machine_price R d -> p2p_random_r R A d c r = Ok (tm, ex) ->
    forall t x, In t (tm_trans tm) -> In x d -> lbl x = t_bid t -> t_qty t <> 0 ->
      if buying x then t_price t <= price x else price x <= t_price t.
Proof. exact p2p_r_price_half. Qed.
Print Assumptions C55_p2p_price.
(** with any other coefficient only up to three roundings *)
Theorem C55_p2p_price_near :
  forall (R : rounding) (A : adder R) (d : df) (c : Qc) (r : nat -> nat), map lbl d = seq 0 (length d) -> qty_nonneg d -> machine_qty R d ->
    forall tm ex u, rel_error R u -> u <= 1 -> 0 <= c -> c <= 1 -> price_nonneg d -> p2p_random_r R A d c r = Ok (tm, ex) ->
    forall t x, In t (tm_trans tm) -> In x d -> lbl x = t_bid t -> t_qty t <> 0 ->
      if buying x then t_price t <= price x * ((1 + u) * (1 + u) * (1 + u)) else price x * ((1 - u) * (1 - u) * (1 - u)) <= t_price t.
Proof. exact p2p_r_price_near. Qed.
Print Assumptions C55_p2p_price_near.
(** the errors happen: in double precision a bid can trade more than its quantity ... *)
Theorem C55_p2p_feasible_refuted :
  exists (d : df) (r : nat -> nat) tm ex, map lbl d = seq 0 (length d) /\ qty_nonneg d /\ price_nonneg d /\ machine_qty f64 d /\ machine_price f64 d /\
    p2p_random_r f64 (np_adder f64) d (qf 1 2) r = Ok (tm, ex) /\ exists x, In x d /\ qty x < traded_by (lbl x) (tm_trans tm).
Proof. exact overfill_witness. Qed.
Print Assumptions C55_p2p_feasible_refuted.
(** ... and a buyer can pay more than its bid *)
Theorem C55_p2p_rational_refuted :
  exists (d : df) (c : Qc) (r : nat -> nat) tm ex, map lbl d = seq 0 (length d) /\ qty_nonneg d /\ price_nonneg d /\ machine_qty f64 d /\ machine_price f64 d /\
    machine f64 c /\ 0 <= c /\ c <= 1 /\ p2p_random_r f64 (np_adder f64) d c r = Ok (tm, ex) /\
    exists t x, In t (tm_trans tm) /\ In x d /\ lbl x = t_bid t /\ t_qty t <> 0 /\ buying x = true /\ price x < t_price t.
Proof. exact dear_witness. Qed.
Print Assumptions C55_p2p_rational_refuted.

Definition shown (o : res (transmgr * extra)) : option (list (nat * Q * Q)) :=
  match o with Ok (tm, _) => Some (map (fun t => (t_bid t, this (t_qty t), this (t_price t))) (tm_trans tm)) | Err _ => None end.
(** 0.3 bought from sellers of 0.1 and 0.3 at prices of 1 and 2: the second deal is of 0.3 - 0.1, which
    is 0.19999999999999998 *)
Example C55_example :
  shown (p2p_random_r f64 (np_adder f64) (frame [B (tenth 3) (qz 3) 0; A (tenth 1) (qz 1) 1; A (tenth 3) (qz 2) 2]) (qf 1 2) (fun _ => 0%nat)) =
  Some [(0%nat, this (tenth 1), 2%Q); (1%nat, this (tenth 1), 2%Q);
        (0%nat, this (f64 (tenth 3 - tenth 1)), (5 # 2)%Q); (2%nat, this (f64 (tenth 3 - tenth 1)), (5 # 2)%Q)] /\
  f64 (tenth 3 - tenth 1) < tenth 2.
Proof. split; vm_compute; reflexivity. Qed.

(** C56. Huang's auction in any rounded arithmetic: one transaction per bid, within its quantity, at prices no
    worse than the bid, sellers at one price and buyers at one, larger price. *)
Theorem C56_huang_rounded :
  forall (R : rounding) (A : adder R) (S : sorter) (d : df), qty_nonneg d -> price_nonneg d -> machine_qty R d -> labels_unique d ->
    forall tm ex, huang_auction_r R A S d = Ok (tm, ex) ->
    once (tm_trans tm) /\ refer d (tm_trans tm) /\ feasible d (tm_trans tm) /\ rational d (tm_trans tm) /\
    (forall t, In t (tm_trans tm) -> t_source t = (-1)%Z /\ t_active t = false) /\
    (tm_trans tm = [] \/ exists ps pb q, ex = XHuang ps pb q) /\
    (forall ps pb q, ex = XHuang ps pb q -> ps < pb /\
       forall t r, In t (tm_trans tm) -> In r d -> lbl r = t_bid t -> t_price t = if buying r then pb else ps).
Proof. exact huang_r_summary. Qed.
Print Assumptions C56_huang_rounded.
(** what is bought and what is sold differ by accumulated rounding only *)
Theorem C56_huang_imbalance :
  forall (R : rounding) (u : Qc), rel_error R u -> forall (A : adder R) (S : sorter) (d : df),
    qty_nonneg d -> price_nonneg d -> machine_qty R d -> labels_unique d ->
    forall tm ex, huang_auction_r R A S d = Ok (tm, ex) ->
    qabs (bought d (tm_trans tm) - sold d (tm_trans tm)) <= qnat (2 * length d + 2) * (u * (1 + u) ^ length d) * qsumf qty d.
Proof. exact huang_r_balance. Qed.
Print Assumptions C56_huang_imbalance.
(** the only exception is the one of an all-removed [update_quantity] *)
Theorem C56_huang_errors :
  forall (R : rounding) (A : adder R) (S : sorter) (d : df), qty_nonneg d -> price_nonneg d -> machine_qty R d ->
    huang_auction_r R A S d = Err ValueError \/ exists tm ex, huang_auction_r R A S d = Ok (tm, ex).
Proof. exact huang_r_total. Qed.
Print Assumptions C56_huang_errors.
(** in double precision it is raised on bids on which the exact auction succeeds *)
Theorem C56_huang_total_refuted :
  exists (S : sorter) (d : df), labels_unique d /\ qty_nonneg d /\ price_nonneg d /\ machine_qty f64 d /\ machine_price f64 d /\
    huang_auction_r f64 (np_adder f64) S d = Err ValueError /\ exists tm ex, huang_auction S d = Ok (tm, ex).
Proof. exact gap_witness. Qed.
Print Assumptions C56_huang_total_refuted.
(** and the quantities need not balance: more can be sold than is bought *)
Theorem C56_huang_balance_refuted :
  exists (S : sorter) (d : df) tm ex, labels_unique d /\ qty_nonneg d /\ price_nonneg d /\ machine_qty f64 d /\ machine_price f64 d /\
    huang_auction_r f64 (np_adder f64) S d = Ok (tm, ex) /\ bought d (tm_trans tm) < sold d (tm_trans tm).
Proof. exact tilt_witness. Qed.
Print Assumptions C56_huang_balance_refuted.
(** 0.20000000000000007 sold, 0.2 bought *)
Example C56_example :
  shown (huang_auction_r f64 (np_adder f64) stable_sorter tilt) =
  Some [(0%nat, 0%Q, 5%Q); (1%nat, this (f64 (qf 20000000000000007 100000000000000000)), 5%Q); (3%nat, this (tenth 2), 7%Q)].
Proof. vm_compute. reflexivity. Qed.

(** The sums of numpy: from left to right for less than eight elements, in pairs for eight, the last ones one by one, and
    more than 128 elements are split at a multiple of eight. *)
Theorem C57_numpy_sums :
  forall (R : rounding),
    (forall l, (length l < 8)%nat -> np_adder R l = seq_sum R l) /\
    (forall a b c d e f g h, np_adder R [a; b; c; d; e; f; g; h] = R (R (R (R a + R b) + R (R c + R d)) + R (R (R e + R f) + R (R g + R h)))) /\
    (forall l x, (8 <= length l)%nat -> (length l < 128)%nat -> (length (l ++ [x]) mod 8 <> 0)%nat -> np_adder R (l ++ [x]) = R (np_adder R l + x)) /\
    (forall l m, (128 < length (l ++ m))%nat -> length l = ((length (l ++ m)) / 2 - ((length (l ++ m)) / 2) mod 8)%nat ->
       np_adder R (l ++ m) = R (np_adder R l + np_adder R m)).
Proof. exact (fun R => conj (np_sum_short R) (conj (np_sum_eight R) (conj (np_sum_snoc R) (np_sum_split R)))). Qed.
Print Assumptions C57_numpy_sums.

(** C57. MUDA in any rounded arithmetic, with any order of summation: transactions of bids, one per bid, never more than
    the bid's quantity nor at a worse price, at the price of the other half; fees are not negative. *)
Theorem C57_muda_rounded :
  forall (R : rounding) (A : adder R) (S : sorter) (d : df) (fl : list bool), labels_unique d ->
    forall tm ex, muda_r R A S d fl = Ok (tm, ex) ->
    refer d (tm_trans tm) /\ once (tm_trans tm) /\
    (forall t r, In t (tm_trans tm) -> In r d -> lbl r = t_bid t -> t_qty t <= qty r) /\ rational d (tm_trans tm) /\
    (forall t, In t (tm_trans tm) -> t_source t = (-1)%Z /\ t_active t = false) /\
    (exists l r pl pr fees, ex = XMuda l r pl pr fees /\ Permutation (l ++ r) (map lbl d) /\
       find_competitive_price_r R S (rows_in l d) = Ok pl /\ find_competitive_price_r R S (rows_in r d) = Ok pr /\
       (forall t, In t (tm_trans tm) -> In (t_bid t) l /\ pr = Fin (t_price t) \/ In (t_bid t) r /\ pl = Fin (t_price t)) /\
       (forall f, In f fees -> 0 <= f)).
Proof. exact muda_r_safe. Qed.
Print Assumptions C57_muda_rounded.
Theorem C57_muda_errors :
  forall (R : rounding) (A : adder R) (S : sorter) (d : df) (fl : list bool), qty_nonneg d -> labels_unique d -> price_nonneg d ->
    (muda_r R A S d fl = Err NotImplementedError <-> repeated_price d) /\
    (forall e, muda_r R A S d fl = Err e -> e = NotImplementedError \/ e = IndexError) /\
    (~ repeated_price d -> (forall r, In r d -> (0 <= user r < Z.of_nat (length (nodup Z.eq_dec (map user d))))%Z) ->
     exists tm ex, muda_r R A S d fl = Ok (tm, ex)).
Proof. exact (fun R A S d fl Q U P => conj (muda_r_not_implemented R A S d fl Q U P) (conj (muda_r_err R A S d fl Q U P) (muda_r_total R A S d fl Q U P))). Qed.
Print Assumptions C57_muda_errors.
(** if sums go from left to right, quantities are not negative and each half balances up to rounding ... *)
Theorem C57_muda_imbalance :
  forall (R : rounding) (A : adder R) (S : sorter) (d : df) (fl : list bool), qty_nonneg d -> labels_unique d -> machine_qty R d ->
    (forall l, (length l <= length d)%nat -> A l = seq_sum R l) -> forall u, rel_error R u ->
    forall tm ex, muda_r R A S d fl = Ok (tm, ex) ->
    feasible d (tm_trans tm) /\
    forall h p, half_of ex d h p ->
      qabs (bought h (tm_trans tm) - sold h (tm_trans tm)) <= qnat (length d + 1) * (u * (1 + u) ^ length d) * qsumf qty h.
Proof. exact muda_r_seq. Qed.
Print Assumptions C57_muda_imbalance.
(** ... as they do in numpy with fewer than eight bids ... *)
Theorem C57_muda_small :
  forall (S : sorter) (d : df) (fl : list bool) tm ex, qty_nonneg d -> labels_unique d -> machine_qty f64 d -> (length d < 8)%nat ->
    muda_r f64 (np_adder f64) S d fl = Ok (tm, ex) ->
    feasible d (tm_trans tm) /\
    forall h p, half_of ex d h p ->
      qabs (bought h (tm_trans tm) - sold h (tm_trans tm)) <= qnat (length d + 1) * (p2 (-53) * (1 + p2 (-53)) ^ length d) * qsumf qty h.
Proof. exact muda_r_small. Qed.
Print Assumptions C57_muda_small.
(** ... but not with eight bids or more: numpy's sum and its cumulative sum disagree, then in one half ten
    times as much can be bought as is sold ... *)
Theorem C57_muda_balance_refuted :
  exists (S : sorter) (d : df) (fl : list bool) tm ex, labels_unique d /\ qty_nonneg d /\ price_nonneg d /\ machine_qty f64 d /\ machine_price f64 d /\
    muda_r f64 (np_adder f64) S d fl = Ok (tm, ex) /\ exists h p, half_of ex d h p /\ qz 10 * sold h (tm_trans tm) < bought h (tm_trans tm).
Proof. exact lost_witness. Qed.
Print Assumptions C57_muda_balance_refuted.
(** ... and a quantity can be negative *)
Theorem C57_muda_feasible_refuted :
  exists (S : sorter) (d : df) (fl : list bool) tm ex, labels_unique d /\ qty_nonneg d /\ price_nonneg d /\ machine_qty f64 d /\ machine_price f64 d /\
    muda_r f64 (np_adder f64) S d fl = Ok (tm, ex) /\ exists t, In t (tm_trans tm) /\ t_qty t < 0.
Proof. exact sunk_witness. Qed.
Print Assumptions C57_muda_feasible_refuted.
(** of the eight sellers only the first trades: 0.3 sold, 3.7 bought; the exact mechanism on the same table *)
Example C57_example :
  shown (muda_r f64 (np_adder f64) stable_sorter lost lost_flips) =
  Some [(8%nat, this (tenth 14), 5%Q); (9%nat, this (tenth 23), 5%Q); (0%nat, this (tenth 3), 5%Q)] /\
  option_map (@length _) (shown (muda stable_sorter lost lost_flips)) = Some 12%nat.
Proof. split; vm_compute; reflexivity. Qed.
