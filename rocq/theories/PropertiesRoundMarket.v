(** Property C70: [Market.run("huang")] (merging bids, Huang's auction, splitting transactions) in rounded
    arithmetic, in particular in double precision. *)
From Verif Require Import QcTac Num ModelBase ModelCurves ModelHuang ModelMerge ModelMarket ModelRound ModelFloat ModelRoundMarket
  Spec SpecTrade SpecMerge SpecRound SpecRoundMarket Sorter Conform RoundFacts RoundHuang RoundError RoundMuda RoundTop RoundWitness RoundMerge RoundMarket RoundMarketTop RoundMarketWitness.

(** Without rounding it is the exact model; double precision is a rounding in which the integer nearest to a
    machine number is a machine number. *)
Theorem C70_rounded_model :
  (forall (A G : adder exact) S smp cnt d, run_huang_r exact A G S smp cnt d = run_algo S (AHuang smp cnt) d) /\ rints f64.
Proof. exact (conj run_huang_exact f64_rints). Qed.
Print Assumptions C70_rounded_model.

(** Merging: every bid is in one group, a group is the bids of one side with one rounded price, its quantity
    is the computed sum of their quantities, and the merged prices of a side are distinct and increasing. *)
Theorem C70_merge_rounded :
  forall (R : rounding) (G : adder R) (prec : Z) (smp : nat -> nat) (d : df) (cnt : Z), exists md mp c,
    merge_same_price_r R G prec smp d cnt = Ok (md, mp, c) /\
    length mp = length md /\ map lbl md = seq 0 (length md) /\ Permutation (concat mp) (map lbl d) /\
    (forall i r rows, nth_error md i = Some r -> nth_error mp i = Some rows ->
       group_of_r R prec d r <> [] /\ rows = map lbl (group_of_r R prec d r) /\ qty r = G (map qty (group_of_r R prec d r)) /\
       In (time r) (map time (group_of_r R prec d r)) /\ In (divisible r) (map divisible (group_of_r R prec d r))) /\
    (exists mb ms, md = mb ++ ms /\ (forall r, In r mb -> buying r = true) /\ (forall r, In r ms -> buying r = false) /\
       StronglySorted Qclt (map price mb) /\ StronglySorted Qclt (map price ms)).
Proof. exact merge_r_statement. Qed.
Print Assumptions C70_merge_rounded.

(** The rounding of a price moves it by at most half a unit of the last decimal kept, plus two roundings. *)
Theorem C70_price_rounding :
  forall (R : rounding) (u : Qc) (prec : Z), rel_error R u -> forall x,
    qabs (np_round_r R prec x - x) <= ((1 + u) ^ 2 - 1) * qabs x + (1 + u) * (qf 1 2 / pow10 prec).
Proof. exact (fun R u prec H x => near_abs _ _ _ (key_near R u prec H x)). Qed.
Print Assumptions C70_price_rounding.

(** The run raises a ValueError, or a KeyError because all bids are bids to buy at one price, or returns ... *)
Theorem C70_total :
  forall (R : rounding) (A G : adder R) (S : sorter) (smp : nat -> nat) (cnt : Z) (d : df),
    map lbl d = seq 0 (length d) -> qty_pos d -> price_nonneg d -> machine_qty R d ->
    run_huang_r R A G S smp cnt d = Err ValueError \/ lone_price (np_round_r R 5) d /\ run_huang_r R A G S smp cnt d = Err KeyError \/
    exists tm ex, run_huang_r R A G S smp cnt d = Ok (tm, ex).
Proof. exact run_r_total. Qed.
Print Assumptions C70_total.
(** ... it does raise in double precision, on a table on which the exact run returns *)
Theorem C70_returns_refuted :
  exists (S : sorter) (smp : nat -> nat) (cnt : Z) (d : df),
    map lbl d = seq 0 (length d) /\ qty_pos d /\ price_nonneg d /\ machine_qty f64 d /\ machine_price f64 d /\
    run_huang_r f64 (np_adder f64) (seq_adder f64) S smp cnt d = Err ValueError /\ exists tm ex, run_algo S (AHuang smp cnt) d = Ok (tm, ex).
Proof. exact gap_market_witness. Qed.
Print Assumptions C70_returns_refuted.

(** C70. When it returns, every bid has at most one transaction, not negative, final and of no other bid; sellers
    are paid the rounded price of a seller and buyers pay the larger rounded price of a buyer, and the rounded
    price of whoever trades is strictly better. *)
Theorem C70_market_rounded :
  forall (R : rounding) (A G : adder R) (S : sorter) (smp : nat -> nat) (cnt : Z) (d : df),
    map lbl d = seq 0 (length d) -> qty_pos d -> price_nonneg d -> machine_qty R d ->
    forall tm ex, run_huang_r R A G S smp cnt d = Ok (tm, ex) ->
    once (tm_trans tm) /\ refer d (tm_trans tm) /\
    (forall t, In t (tm_trans tm) -> 0 <= t_qty t /\ t_source t = (-1)%Z /\ t_active t = false) /\
    (tm_trans tm = [] \/ exists ps pb q, ex = XHuang ps pb q /\ ps < pb /\
      (exists y z, In y d /\ buying y = false /\ ps = np_round_r R 5 (price y) /\ In z d /\ buying z = true /\ pb = np_round_r R 5 (price z)) /\
      forall t r, In t (tm_trans tm) -> In r d -> lbl r = t_bid t ->
        if buying r then t_price t = pb /\ pb < np_round_r R 5 (price r) else t_price t = ps /\ np_round_r R 5 (price r) < ps).
Proof. exact run_r_safe. Qed.
Print Assumptions C70_market_rounded.
(** Nobody trades at a price worse than its own, unrounded price, whatever the size of the prices. *)
Theorem C70_rational :
  forall (R : rounding) (A G : adder R) (S : sorter) (smp : nat -> nat) (cnt : Z) (d : df),
    map lbl d = seq 0 (length d) -> qty_pos d -> price_nonneg d -> machine_qty R d ->
    forall tm ex, rints R -> machine_price R d -> run_huang_r R A G S smp cnt d = Ok (tm, ex) ->
    forall t r, In t (tm_trans tm) -> In r d -> lbl r = t_bid t ->
      if buying r then t_price t <= price r else price r <= t_price t.
Proof. exact run_r_rational_weak. Qed.
Print Assumptions C70_rational.
(** In double precision and up to prices of 10^10 everybody that trades does so at a strictly better price. *)
Theorem C70_strict :
  forall (A G : adder f64) (S : sorter) (smp : nat -> nat) (cnt : Z) (d : df),
    map lbl d = seq 0 (length d) -> qty_pos d -> price_nonneg d -> machine_qty f64 d ->
    forall tm ex, run_huang_r f64 A G S smp cnt d = Ok (tm, ex) ->
    forall t r, In t (tm_trans tm) -> In r d -> lbl r = t_bid t -> price r <= qz (10 ^ 10) ->
      if buying r then t_price t < price r else price r < t_price t.
Proof.
  exact (fun A G S smp cnt d Hl Hq Hp Hm tm ex E t r Ht Hr El L =>
    run_r_rational f64 A G S smp cnt d Hl Hq Hp Hm _ f64_rel tm ex E t r Ht Hr El (f64_small _ L)).
Qed.
Print Assumptions C70_strict.
(** The same in any rounded arithmetic for prices that are small compared with its precision. *)
Theorem C70_strict_general :
  forall (R : rounding) (A G : adder R) (S : sorter) (smp : nat -> nat) (cnt : Z) (d : df),
    map lbl d = seq 0 (length d) -> qty_pos d -> price_nonneg d -> machine_qty R d ->
    forall u, rel_error R u -> forall tm ex, run_huang_r R A G S smp cnt d = Ok (tm, ex) ->
    forall t r, In t (tm_trans tm) -> In r d -> lbl r = t_bid t -> small_price u 5 (price r) ->
      if buying r then t_price t < price r else price r < t_price t.
Proof. exact run_r_rational. Qed.
Print Assumptions C70_strict_general.

(** A bid alone at its rounded price trades at most its quantity.  A bid that is merged with others can get more, by
    two roundings if both libraries add its group in the same way, and by one more for every addition otherwise. *)
Theorem C70_quantity :
  forall (R : rounding) (A G : adder R) (S : sorter) (smp : nat -> nat) (cnt : Z) (d : df),
    map lbl d = seq 0 (length d) -> qty_pos d -> price_nonneg d -> machine_qty R d ->
    forall u, rel_error R u -> forall tm ex t x, run_huang_r R A G S smp cnt d = Ok (tm, ex) -> In t (tm_trans tm) -> In x d -> lbl x = t_bid t ->
    let k := length (peers R 5 d x) in
    t_qty t * (1 + 1 - (1 + u) ^ (k - 1)) <= qty x * (1 + u) ^ (k + 1) /\
    (A (map qty (peers R 5 d x)) = G (map qty (peers R 5 d x)) -> t_qty t <= qty x * (1 + u) ^ 2) /\
    (k = 1%nat -> machine R 1 -> t_qty t <= qty x).
Proof. exact run_r_quantity. Qed.
Print Assumptions C70_quantity.
(** Splitting: the transactions of the groups are replaced, in order, by one transaction per bid of the group with the
    share of the bid, computed with two roundings. *)
Theorem C70_split_rounded :
  forall (R : rounding) (A : adder R) (d : df) (mp : list (list nat)) (tm : transmgr), map lbl d = seq 0 (length d) ->
    (forall t, In t (tm_trans tm) -> exists rows rs, nth_error mp (t_bid t) = Some rows /\ map lbl rs = rows /\
       (forall r, In r rs -> In r d) /\ A (map qty rs) <> 0) ->
    exists ls, split_transactions_r R A tm d mp = Ok (add_all tm_init (concat ls)) /\
      Forall2 (fun t l => exists rows, nth_error mp (t_bid t) = Some rows /\ Split_r R A d rows t l) (tm_trans tm) ls.
Proof. exact (fun R A d mp tm => split_list_r_spec R A d mp (tm_trans tm) tm_init). Qed.
Print Assumptions C70_split_rounded.
(** The shares of one transaction add up to it, up to a few roundings per bid of the group. *)
Theorem C70_shares :
  forall (R : rounding) (u : Qc), rel_error R u -> forall (A : adder R) (rs : df) (q : Qc), rs <> [] ->
    (forall x, In x rs -> 0 < qty x /\ machine R (qty x)) -> 0 <= q -> (1 + u) ^ length rs <= qf 3 2 ->
    qabs (qsumf (fun x => R (q * R (qty x / A (map qty rs)))) rs - q) <= qnat (3 * length rs + 5) * u * q.
Proof. exact (fun R u H A rs q H1 H2 H3 H4 => near_abs _ _ _ (shares_near R u H A rs q H1 H2 H3 H4)). Qed.
Print Assumptions C70_shares.
(** What is bought and what is sold differ by at most 9 n + 12 roundings of the total quantity of the n bids. *)
Theorem C70_balance :
  forall (R : rounding) (A G : adder R) (S : sorter) (smp : nat -> nat) (cnt : Z) (d : df),
    map lbl d = seq 0 (length d) -> qty_pos d -> price_nonneg d -> machine_qty R d ->
    forall u, rel_error R u -> (1 + u) ^ length d <= qf 3 2 -> forall tm ex, run_huang_r R A G S smp cnt d = Ok (tm, ex) ->
    qabs (bought d (tm_trans tm) - sold d (tm_trans tm)) <= qnat (9 * length d + 12) * u * qsumf qty d.
Proof. exact run_r_balance. Qed.
Print Assumptions C70_balance.
(** in double precision for any table of at most 10^15 bids *)
Theorem C70_balance_double :
  forall (A G : adder f64) (S : sorter) (smp : nat -> nat) (cnt : Z) (d : df),
    map lbl d = seq 0 (length d) -> qty_pos d -> price_nonneg d -> machine_qty f64 d -> (Z.of_nat (length d) <= 10 ^ 15)%Z ->
    forall tm ex, run_huang_r f64 A G S smp cnt d = Ok (tm, ex) ->
    qabs (bought d (tm_trans tm) - sold d (tm_trans tm)) <= qnat (9 * length d + 12) * p2 (-53) * qsumf qty d.
Proof.
  exact (fun A G S smp cnt d Hl Hq Hp Hm L => run_r_balance f64 A G S smp cnt d Hl Hq Hp Hm _ f64_rel (f64_power _ L)).
Qed.
Print Assumptions C70_balance_double.
(** The errors happen: a bid that gets more than its quantity, and more bought than sold. *)
Theorem C70_feasible_refuted :
  exists (S : sorter) (smp : nat -> nat) (cnt : Z) (d : df) tm ex,
    map lbl d = seq 0 (length d) /\ qty_pos d /\ price_nonneg d /\ machine_qty f64 d /\ machine_price f64 d /\
    run_huang_r f64 (np_adder f64) (seq_adder f64) S smp cnt d = Ok (tm, ex) /\
    (exists x, In x d /\ qty x < traded_by (lbl x) (tm_trans tm)) /\ sold d (tm_trans tm) < bought d (tm_trans tm).
Proof. exact shares_witness. Qed.
Print Assumptions C70_feasible_refuted.

Definition shown (o : res (transmgr * extra)) : option (list (nat * Q * Q)) :=
  match o with Ok (tm, _) => Some (map (fun t => (t_bid t, this (t_qty t), this (t_price t))) (tm_trans tm)) | Err _ => None end.
(** Buyers of 0.7 and 0.5 at a price of 5 are merged; the seller of 1.5 sells their 1.2, of which the first
    buyer gets 0.7000000000000001. *)
Example C70_example :
  shown (run_huang_r f64 (np_adder f64) (seq_adder f64) SS (fun _ => 0%nat) 0
    (frame [B (tenth 7) (qz 5) 0; B (tenth 5) (qz 5) 1; B (qz 1) (qz 3) 2; A (tenth 15) (qz 1) 3; A (qz 10) (qz 2) 4])) =
  Some [(3%nat, this (f64 (tenth 7 + tenth 5)), 2%Q); (0%nat, this (tenth 7 + p2 (-53)), 3%Q); (1%nat, this (tenth 5), 3%Q)].
Proof. vm_compute. reflexivity. Qed.
(** 0.123456 becomes the machine number next to 0.12346, and 0.5 in units of 10^5 is rounded to even *)
Example C70_price_example :
  this (np_round_r f64 5 (f64 (qf 123456 1000000))) = this (f64 (qf 12346 100000)) /\ this (np_round_r f64 0 (qf 5 2)) = 2%Q.
Proof. split; vm_compute; reflexivity. Qed.
