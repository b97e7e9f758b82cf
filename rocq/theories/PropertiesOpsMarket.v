(** Property C98: [Market.run] and [Market.statistics] on IEEE 754 doubles, from the table of bids to the profits. *)
From Coq Require Import Floats.SpecFloat.
From Verif Require Import QcTac Num ModelBase ModelCurves ModelHuang ModelMuda ModelMerge ModelMarket ModelStats ModelRound ModelRoundMarket ModelRoundStats ModelFloat ModelBounded
  Spec SpecTrade SpecRound SpecDouble SpecIeee SpecOps SpecRoundMarket Conform Sorter RoundFacts ModelOps ModelOpsMarket OpsFacts OpsMarket OpsMarketTop PropertiesOps.

(** C98. Merging, splitting and the run, for given operations, are those of the rounded model if the operations are rounded ones;
    [np.rint] of a double is a double. *)
Theorem C98_rounded : (forall (R : rounding) (A G : adder R) S smp cnt d, run_huang_o (rounded R) A G S smp cnt d = run_huang_r R A G S smp cnt d) /\
  (forall (R : rounding) prec x, np_round_o (rounded R) prec x = np_round_r R prec x) /\ rints binary64.
Proof. exact (conj run_huang_rounded (conj np_round_rounded b64_rints)). Qed.
Print Assumptions C98_rounded.
(** Merging the bids of one price, for any precision of at most 15 digits before or after the point. *)
Theorem C98_merge : forall j a b prec smp d cnt, wide_room a b -> double_table a b d -> (-15 <= prec <= 15)%Z ->
  merge_same_price_o (doubles j) (seq_sum_o (doubles j)) prec smp d cnt = merge_same_price_r binary64 (seq_adder binary64) prec smp d cnt.
Proof. exact merge_doubles. Qed.
Print Assumptions C98_merge.
(** Splitting transactions of any size up to [2^900] among the bids of a group, whatever the groups are. *)
Theorem C98_split : forall j a b c d mp tm, wide_room a b -> double_table a b d -> qty_nonneg d -> (forall rows, In rows mp -> (Z.of_nat (length rows) <= 2 ^ 40)%Z) ->
  (0 <= c <= 900)%Z -> (forall t, In t (tm_trans tm) -> machine binary64 (t_qty t) /\ qabs (t_qty t) <= pow2 c) ->
  split_transactions_o (doubles j) (np_sum_o (doubles j)) tm d mp = split_transactions_r binary64 (np_adder binary64) tm d mp.
Proof. exact split_doubles. Qed.
Print Assumptions C98_split.
(** [Market.run("huang")] and [Market.run("muda")] on doubles are runs of the rounded model. *)
Theorem C98_run : forall j a b S smp cnt d, wide_room a b -> double_table a b d -> qty_nonneg d ->
  run_huang_o (doubles j) (np_sum_o (doubles j)) (seq_sum_o (doubles j)) S smp cnt d = run_huang_r binary64 (np_adder binary64) (seq_adder binary64) S smp cnt d.
Proof. exact run_doubles. Qed.
Print Assumptions C98_run.
Theorem C98_run_muda : forall j a b S d fl, wide_room a b -> double_table a b d -> labels_unique d ->
  mechanism None (fun x => muda_o (doubles j) (np_sum_o (doubles j)) S x fl) d = mechanism None (fun x => muda_r binary64 (np_adder binary64) S x fl) d.
Proof. exact muda_run_doubles. Qed.
Print Assumptions C98_run_muda.

(** The statistics of the transactions of a run on doubles: nothing about the transactions is assumed. *)
Theorem C98_statistics : forall j a b S smp cnt d, wide_room a b -> double_table a b d -> map lbl d = seq 0 (length d) -> qty_pos d -> price_nonneg d ->
  forall tm ex, run_huang_o (doubles j) (np_sum_o (doubles j)) (seq_sum_o (doubles j)) S smp cnt d = Ok (tm, ex) ->
  (forall rp, match rp with Some m => double_list (b + 51) (map snd m) | None => True end ->
    calculate_profits_o (doubles j) (np_sum_o (doubles j)) (seq_sum_o (doubles j)) d (tm_trans tm) rp None = calculate_profits_r binary64 (np_adder binary64) (seq_adder binary64) d (tm_trans tm) rp None) /\
  (forall o, machine binary64 o -> pow2 (-100) <= o ->
    percentage_traded_o (doubles j) (np_sum_o (doubles j)) o (tm_trans tm) = percentage_traded_r binary64 (np_adder binary64) o (tm_trans tm) /\
    percentage_welfare_o (doubles j) (np_sum_o (doubles j)) o d (tm_trans tm) = percentage_welfare_r binary64 (np_adder binary64) o d (tm_trans tm)).
Proof.
  exact (fun j a b S smp cnt d Hw Hd Hl Hq Hp tm ex E => conj (run_profits j a b S smp cnt d Hw Hd Hl Hq Hp tm ex E) (run_percentages j a b S smp cnt d Hw Hd Hl Hq Hp tm ex E)).
Qed.
Print Assumptions C98_statistics.
Theorem C98_statistics_muda : forall j a b S d fl, wide_room a b -> double_table a b d -> labels_unique d ->
  forall tm l r pl pr fees, muda_o (doubles j) (np_sum_o (doubles j)) S d fl = Ok (tm, XMuda l r pl pr fees) ->
  (forall rp, match rp with Some m => double_list (b + 1) (map snd m) | None => True end ->
    calculate_profits_o (doubles j) (np_sum_o (doubles j)) (seq_sum_o (doubles j)) d (tm_trans tm) rp (Some fees) = calculate_profits_r binary64 (np_adder binary64) (seq_adder binary64) d (tm_trans tm) rp (Some fees)) /\
  (forall o, machine binary64 o -> pow2 (-100) <= o ->
    percentage_traded_o (doubles j) (np_sum_o (doubles j)) o (tm_trans tm) = percentage_traded_r binary64 (np_adder binary64) o (tm_trans tm) /\
    percentage_welfare_o (doubles j) (np_sum_o (doubles j)) o d (tm_trans tm) = percentage_welfare_r binary64 (np_adder binary64) o d (tm_trans tm)).
Proof.
  exact (fun j a b S d fl Hw Hd Hu tm l r pl pr fees E => conj (muda_profits_doubles j a b S d fl Hw Hd Hu tm l r pl pr fees E) (muda_percentages_doubles j a b S d fl Hw Hd Hu tm l r pl pr fees E)).
Qed.
Print Assumptions C98_statistics_muda.

(** What a user of the library sees, with IEEE doubles from end to end: every bid has at most one transaction, not negative and at no
    worse price than its own, and the profit shown for a player at the prices it bid is not negative. *)
Theorem C98_huang_safe : forall j a b S smp cnt d, wide_room a b -> double_table a b d -> map lbl d = seq 0 (length d) -> qty_pos d -> price_nonneg d ->
  forall tm ex, run_huang_o (doubles j) (np_sum_o (doubles j)) (seq_sum_o (doubles j)) S smp cnt d = Ok (tm, ex) ->
  once (tm_trans tm) /\ refer d (tm_trans tm) /\ (forall t, In t (tm_trans tm) -> 0 <= t_qty t /\ t_source t = (-1)%Z /\ t_active t = false) /\
  (forall t r, In t (tm_trans tm) -> In r d -> lbl r = t_bid t -> if buying r then t_price t <= price r else price r <= t_price t).
Proof. exact safe. Qed.
Print Assumptions C98_huang_safe.
Theorem C98_no_loss : forall j a b S smp cnt d, wide_room a b -> double_table a b d -> map lbl d = seq 0 (length d) -> qty_pos d -> price_nonneg d ->
  forall tm ex, run_huang_o (doubles j) (np_sum_o (doubles j)) (seq_sum_o (doubles j)) S smp cnt d = Ok (tm, ex) ->
  forall rp p rp', match rp with Some m => double_list (b + 51) (map snd m) | None => True end ->
  calculate_profits_o (doubles j) (np_sum_o (doubles j)) (seq_sum_o (doubles j)) d (tm_trans tm) rp None = (Ok p, rp') -> forall x, In x (pr_bid p) -> 0 <= x.
Proof. exact run_no_loss. Qed.
Print Assumptions C98_no_loss.
Theorem C98_muda_safe : forall j a b S d fl, wide_room a b -> double_table a b d -> labels_unique d ->
  forall tm l r pl pr fees, muda_o (doubles j) (np_sum_o (doubles j)) S d fl = Ok (tm, XMuda l r pl pr fees) ->
  refer d (tm_trans tm) /\ once (tm_trans tm) /\
  (forall t x, In t (tm_trans tm) -> In x d -> lbl x = t_bid t -> t_qty t <= qty x) /\ rational d (tm_trans tm) /\ (forall f, In f fees -> 0 <= f).
Proof. exact muda_rational_doubles. Qed.
Print Assumptions C98_muda_safe.

(** Tenths again, with two bids to buy at one price: the merged bid is cut, and the shares of its two bids are no tenths.  The
    run on doubles is the run of the rounded model and not the exact one; every profit is positive or 0. *)
Definition pairs : df := frame [B (t10 7) (t10 90) 0; B (t10 4) (t10 90) 1; A (t10 3) (t10 10) 2; A (t10 6) (t10 20) 3; A (t10 8) (t10 30) 4; B (t10 1) (t10 5) 5; B (t10 7) (t10 80) 6].
Definition pairs_run : res (transmgr * extra) := run_huang_o (doubles 0) (np_sum_o (doubles 0)) (seq_sum_o (doubles 0)) stable_sorter (fun _ => 0%nat) 0 pairs.
Example C98_pairs :
  Nat.ltb 3 (length (moved pairs_run)) = true /\ moved pairs_run = moved (run_huang_r binary64 (np_adder binary64) (seq_adder binary64) stable_sorter (fun _ => 0%nat) 0 pairs) /\
  moved pairs_run <> moved (run_algo stable_sorter (AHuang (fun _ => 0%nat) 0) pairs) /\
  (match pairs_run with
   | Ok (tm, _) => match fst (calculate_profits_o (doubles 0) (np_sum_o (doubles 0)) (seq_sum_o (doubles 0)) pairs (tm_trans tm) None None) with
                   | Ok p => forallb (fun x => qleb 0 x) (pr_bid p) && existsb (fun x => qltb 0 x) (pr_bid p) | Err _ => false end
   | Err _ => false end) = true.
Proof. split; [vm_compute; reflexivity|]. split; [vm_compute; reflexivity|]. split; [vm_compute; discriminate | vm_compute; reflexivity]. Qed.
(** To five digits on doubles 0.000015 and 0.000024 are the double nearest to 0.00002; to the hundreds 12345 is 12300. *)
Example C98_round :
  map (fun k => this (np_round_o (doubles 0) 5 (fval (SFdiv 53 1024 (to_double (qz k)) (to_double (qz 1000000)))) - binary64 (qf 2 100000))) [15%Z; 24%Z] = [0%Q; 0%Q] /\
  this (np_round_o (doubles 0) (-2) (qz 12345)) = 12300%Q.
Proof. split; vm_compute; reflexivity. Qed.
