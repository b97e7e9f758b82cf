(** Property C72: the statistics in rounded arithmetic, in particular in double precision. *)
From Verif Require Import QcTac Num ModelBase ModelHuang ModelMuda ModelMerge ModelMarket ModelStats ModelRound ModelFloat ModelRoundMarket ModelRoundStats
  Spec SpecTrade SpecMuda SpecAlloc SpecStats SpecRound SpecRoundMarket SpecRoundStats Sorter Conform MudaWitness RoundFacts RoundTop RoundWitness RoundMarketWitness RoundStats RoundStatsTop RoundStatsMarket.

(** Without rounding they are the exact statistics. *)
Theorem C72_rounded_model :
  (forall (A G : adder exact) d ts rp fees, calculate_profits_r exact A G d ts rp fees = calculate_profits d ts rp fees) /\
  (forall (A : adder exact) sv d ts obj vs, maximum_traded_volume sv d = Ok (Some (obj, vs)) ->
     percentage_traded sv d ts = Ok (percentage_traded_r exact A obj ts)) /\
  (forall (A : adder exact) sv d ts rp obj vs m, maximum_aggregated_utility sv d None = Ok (Some (obj, vs), m) ->
     percentage_welfare sv d ts rp = Ok (percentage_welfare_r exact A obj d ts)).
Proof. exact (conj profits_exact (conj traded_exact welfare_exact)). Qed.
Print Assumptions C72_rounded_model.

(** The profit of a user with n transactions is wrong by at most (1+e)^(n+1) - 1 times its gains and losses added
    without their signs. *)
Theorem C72_profits_error :
  forall (R : rounding) (e : Qc), rel_error R e -> forall (A G : adder R) (d : df) (tl : list trans) rp fees p rp',
    labels_unique d -> calculate_profits_r R A G d tl rp fees = (Ok p, rp') ->
    exists us, StronglySorted Z.lt us /\ (forall u, In u us <-> exists r, In r d /\ user r = u) /\
      Forall2 (fun u x => qabs (x - user_gain price d u tl) <= ((1 + e) ^ (deals d u tl + 1) - 1) * user_stake price d u tl) us (pr_bid p) /\
      Forall2 (fun u x => qabs (x - user_gain (worth rp) d u tl) <= ((1 + e) ^ (deals d u tl + 1) - 1) * user_stake (worth rp) d u tl) us (pr_reservation p).
Proof. exact profits_r_error. Qed.
Print Assumptions C72_profits_error.
(** The profit of the market maker, without and with fees. *)
Theorem C72_market_error :
  forall (R : rounding) (e : Qc), rel_error R e -> forall (A G : adder R) (d : df) (tl : list trans), labels_unique d ->
    (forall rp p rp', calculate_profits_r R A G d tl rp None = (Ok p, rp') ->
       qabs (pr_market p - (money true d tl - money false d tl)) <= ((1 + e) ^ (longest_side d tl + 1) - 1) * turnover d tl) /\
    (forall rp f p rp', (forall x, In x f -> machine R x) -> calculate_profits_r R A G d tl rp (Some f) = (Ok p, rp') ->
       qabs (pr_market p - (money true d tl - money false d tl + qsum f)) <=
       ((1 + e) ^ (Nat.max (longest_side d tl) (length f) + 2) - 1) * (turnover d tl + qsumf qabs f)).
Proof.
  exact (fun R e H A G d tl Hu => conj (fun rp p rp' => market_r_error R e H A G d tl rp p rp' Hu)
    (fun rp f p rp' => market_r_error_fees R e H A G d tl rp f p rp' Hu)).
Qed.
Print Assumptions C72_market_error.
(** The profits reported add up to the surplus, up to rounding. *)
Theorem C72_accounting :
  forall (R : rounding) (e : Qc) (A G : adder R) (d : df) (tl : list trans) rp p rp', rel_error R e -> labels_unique d ->
    calculate_profits_r R A G d tl rp None = (Ok p, rp') ->
    qabs (qsum (pr_bid p) + pr_market p - traded_surplus price d tl) <= ((1 + e) ^ (length tl + 1) - 1) * (stake price d tl + turnover d tl).
Proof. exact accounting_r. Qed.
Print Assumptions C72_accounting.
(** The two ratios, given the optimum that the solver reports. *)
Theorem C72_ratios_error :
  forall (R : rounding) (e : Qc), rel_error R e -> forall (A : adder R) (d : df) (tl : list trans) (obj x : Qc),
    ((forall t, In t tl -> machine R (t_qty t)) -> percentage_traded_r R A obj tl = Some x ->
       qabs (x - qsumf t_qty tl / qz 2 / obj) <= ((1 + e) ^ (length tl + 2) - 1) * (qsumf (fun t => qabs (t_qty t)) tl / qz 2 / obj)) /\
    (labels_unique d -> percentage_welfare_r R A obj d tl = Some x ->
       qabs (x - (traded_surplus price d tl - (money true d tl - money false d tl)) / obj) <=
       ((1 + e) ^ (longest_side d tl + 3) - 1) * (stake price d tl / obj)).
Proof. exact (fun R e H A d tl obj x => conj (traded_r_error R e H A tl obj x) (welfare_r_error R e H A d tl obj x)). Qed.
Print Assumptions C72_ratios_error.

(** Transactions at no loss show no loss, exactly, whatever the rounding ... *)
Theorem C72_no_loss :
  forall (R : rounding) (A G : adder R) (d : df) (tl : list trans) rp fees p rp',
    (forall t r, In t tl -> In r d -> lbl r = t_bid t -> 0 <= t_qty t /\ (t_qty t = 0 \/ if buying r then t_price t <= price r else price r <= t_price t)) ->
    calculate_profits_r R A G d tl rp fees = (Ok p, rp') -> forall x, In x (pr_bid p) -> 0 <= x.
Proof. exact profits_r_nonneg. Qed.
Print Assumptions C72_no_loss.
(** ... so no player loses after [Market.run("huang")] ... *)
Theorem C72_huang_no_loss :
  forall (R : rounding) (A G : adder R) (S : sorter) (smp : nat -> nat) (cnt : Z) (d : df),
    map lbl d = seq 0 (length d) -> qty_pos d -> price_nonneg d -> machine_qty R d -> forall tm ex, run_huang_r R A G S smp cnt d = Ok (tm, ex) ->
    forall rp fees p rp', rints R -> machine_price R d -> calculate_profits_r R A G d (tm_trans tm) rp fees = (Ok p, rp') -> forall x, In x (pr_bid p) -> 0 <= x.
Proof. exact huang_r_profits. Qed.
Print Assumptions C72_huang_no_loss.
(** ... after MUDA, if sums go from left to right (its fees are not taken from the profits of the players) ... *)
Theorem C72_muda_no_loss :
  forall (R : rounding) (A G : adder R) (S : sorter) (d : df) (fl : list bool), labels_unique d -> qty_nonneg d -> machine_qty R d ->
    (forall l, (length l <= length d)%nat -> A l = seq_sum R l) -> forall u, rel_error R u -> forall tm ex, muda_r R A S d fl = Ok (tm, ex) ->
    forall rp fees p rp', calculate_profits_r R A G d (tm_trans tm) rp fees = (Ok p, rp') -> forall x, In x (pr_bid p) -> 0 <= x.
Proof. exact muda_r_profits. Qed.
Print Assumptions C72_muda_no_loss.
(** ... and after peer to peer trading with a coefficient of one half, where the market maker makes exactly nothing
    (with any coefficient). *)
Theorem C72_p2p_no_loss :
  forall (R : rounding) (A G : adder R) (d : df), map lbl d = seq 0 (length d) -> qty_nonneg d -> machine_qty R d ->
    (halves R -> machine_price R d -> forall r tm ex, p2p_random_r R A d (qf 1 2) r = Ok (tm, ex) ->
       forall rp fees p rp', calculate_profits_r R A G d (tm_trans tm) rp fees = (Ok p, rp') -> forall x, In x (pr_bid p) -> 0 <= x) /\
    (forall c r tm ex, p2p_random_r R A d c r = Ok (tm, ex) ->
       forall rp p rp', calculate_profits_r R A G d (tm_trans tm) rp None = (Ok p, rp') -> pr_market p = 0).
Proof.
  exact (fun R A G d Hl Hq Hm => conj (fun Hh Hp r => p2p_r_profits R A G d r Hl Hq Hm Hh Hp) (fun c r => p2p_r_market_zero R A G d c r Hl Hq Hm)).
Qed.
Print Assumptions C72_p2p_no_loss.
(** With another coefficient a player can lose in double precision. *)
Theorem C72_p2p_no_loss_refuted :
  exists (d : df) (c : Qc) (r : nat -> nat) tm ex, map lbl d = seq 0 (length d) /\ qty_nonneg d /\ price_nonneg d /\ machine_qty f64 d /\ machine_price f64 d /\
    machine f64 c /\ 0 <= c /\ c <= 1 /\ p2p_random_r f64 (np_adder f64) d c r = Ok (tm, ex) /\
    exists p rp' x, calculate_profits_r f64 (np_adder f64) (seq_adder f64) d (tm_trans tm) None None = (Ok p, rp') /\ In x (pr_bid p) /\ x < 0.
Proof. exact dear_loss. Qed.
Print Assumptions C72_p2p_no_loss_refuted.

(** The profit of the market maker after [Market.run("huang")] is at least the difference of the prices times what is
    sold, less the errors of quantities and of payments ... *)
Theorem C72_huang_market :
  forall (R : rounding) (A G : adder R) (S : sorter) (smp : nat -> nat) (cnt : Z) (d : df),
    map lbl d = seq 0 (length d) -> qty_pos d -> price_nonneg d -> machine_qty R d -> forall tm ex, run_huang_r R A G S smp cnt d = Ok (tm, ex) ->
    forall u rp p rp', rel_error R u -> (1 + u) ^ length d <= qf 3 2 -> calculate_profits_r R A G d (tm_trans tm) rp None = (Ok p, rp') ->
    exists ps pb q, ex = XHuang ps pb q /\
      (pb - ps) * sold d (tm_trans tm) - (qnat (9 * length d + 12) * u * qsumf qty d * pb + ((1 + u) ^ (longest_side d (tm_trans tm) + 1) - 1) * turnover d (tm_trans tm)) <= pr_market p.
Proof. exact huang_r_market. Qed.
Print Assumptions C72_huang_market.
(** ... and it can be negative in double precision: not an error of the statistics, more is paid out than is received. *)
Theorem C72_huang_market_refuted :
  exists (S : sorter) (smp : nat -> nat) (cnt : Z) (d : df) tm ex,
    map lbl d = seq 0 (length d) /\ qty_pos d /\ price_nonneg d /\ machine_qty f64 d /\ machine_price f64 d /\
    run_huang_r f64 (np_adder f64) (seq_adder f64) S smp cnt d = Ok (tm, ex) /\
    money true d (tm_trans tm) < money false d (tm_trans tm) /\
    exists p rp', calculate_profits_r f64 (np_adder f64) (seq_adder f64) d (tm_trans tm) None (extra_fees ex) = (Ok p, rp') /\ pr_market p < 0.
Proof. exact loss_witness. Qed.
Print Assumptions C72_huang_market_refuted.
(** The percentage traded can exceed one in double precision. *)
Theorem C72_ratio_refuted :
  exists (d : df) (r : nat -> nat) tm ex (obj x : Qc), map lbl d = seq 0 (length d) /\ qty_nonneg d /\ price_nonneg d /\ machine_qty f64 d /\ machine_price f64 d /\
    p2p_random_r f64 (np_adder f64) d (qf 1 2) r = Ok (tm, ex) /\ (forall y, alloc_ok d y -> SpecAlloc.volume d y <= obj) /\
    percentage_traded_r f64 (np_adder f64) obj (tm_trans tm) = Some x /\ 1 < x.
Proof. exact crumbs_witness. Qed.
Print Assumptions C72_ratio_refuted.

(** A buyer of 0.3 at 1000000.00003 and a seller of 10^6 at 10^6: the market maker loses 0.0000435... *)
Example C72_example :
  match run_huang_r f64 (np_adder f64) (seq_adder f64) SS first 0 loss with
  | Ok (tm, ex) => match fst (calculate_profits_r f64 (np_adder f64) (seq_adder f64) loss (tm_trans tm) None (extra_fees ex)) with Ok p =>
      map (fun t => (t_bid t, this (t_qty t))) (tm_trans tm) = [(2%nat, 1288490189 # 4294967296)%Q; (0%nat, 5404319552844595 # 18014398509481984)%Q] /\
      pr_market p < - dec 4 /\ - dec 5 < pr_market p
      | Err _ => False end
  | Err _ => False end.
Proof. vm_compute. auto. Qed.
(** 0.1 units at 0.7 bought by a bid of 0.8: the gain is 0.010000000000000009 (the difference of the prices is
    0.10000000000000009) *)
Example C72_gain_example :
  this (get_gain_r f64 (tenth 7) (tenth 8) true (tenth 1)) = this (f64 (f64 (tenth 8 - tenth 7) * tenth 1)) /\
  qltb (tenth 1) (f64 (tenth 8 - tenth 7)) = true.
Proof. split; vm_compute; reflexivity. Qed.
