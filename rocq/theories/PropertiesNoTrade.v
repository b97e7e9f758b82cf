(** Property C85: the statistics of a market in which nothing was traded. *)
From Verif Require Import QcTac Num ModelBase ModelHuang ModelMuda ModelP2P ModelMarket ModelStats ModelRound ModelRoundStats Spec SpecTrade SpecAlloc SpecStats SpecMarket Sorter Conform Solver MarketFacts NoTradeTop.

(** C85. The profits cannot be computed exactly if no transaction belongs to a bid of the table: ValueError, whatever
    the reservation prices and fees ... *)
Theorem C85_profits :
  forall (d : df) (tl : list trans) rp fees e, fst (calculate_profits d tl rp fees) = Err e <-> e = ValueError /\ ~ some_deal d tl.
Proof. exact profits_err. Qed.
Print Assumptions C85_profits.
Theorem C85_profits_rounded :
  forall (R : rounding) (A G : adder R) (d : df) (tl : list trans) rp fees e,
    fst (calculate_profits_r R A G d tl rp fees) = Err e <-> e = ValueError /\ ~ some_deal d tl.
Proof. exact profits_r_err. Qed.
Print Assumptions C85_profits_rounded.
(** ... so after any sensible calls [statistics] raises exactly if there is no transaction and the profits are not
    excluded, *)
Theorem C85_exactly :
  forall (S : sorter) (sv : solver) (ops : list op), Forall op_ok ops -> solver_ok sv ->
    let m := session S sv market_init ops in
    forall rp ex e, snd (statistics sv m rp ex) = Err e <-> e = ValueError /\ tm_trans (mk_trans m) = [] /\ ~ In SProfits ex.
Proof. exact stats_raise. Qed.
Print Assumptions C85_exactly.
(** and then the caller's dictionary is already filled; with the profits excluded the two shares are returned. *)
Theorem C85_effects :
  forall (S : sorter) (sv : solver) (ops : list op), Forall op_ok ops -> solver_ok sv ->
    let m := session S sv market_init ops in let d := get_df (mk_bm m) in let tl := tm_trans (mk_trans m) in
    forall rp ex, exists t w, percentage_traded sv d tl = Ok t /\ percentage_welfare sv d tl rp = Ok w /\
      (In SProfits ex -> statistics sv m rp ex = (m, rp, Ok (filter (fun x => negb (stat_mem ex (fst x))) [(STraded, VRatio t); (SWelfare, VRatio w)]))) /\
      (tl = [] -> ~ In SProfits ex -> statistics sv m rp ex = (m, option_map (fun x => dict_fill x d) rp, Err ValueError)).
Proof. exact stats_cases. Qed.
Print Assumptions C85_effects.
(** C39, exactly: after any sensible calls [statistics] fills the dictionary of the caller unless the profits are excluded. *)
Theorem C39_statistics_dictionary :
  forall (S : sorter) (sv : solver) (ops : list op), Forall op_ok ops -> solver_ok sv ->
    let m := session S sv market_init ops in let d := get_df (mk_bm m) in
    forall rp ex, snd (fst (statistics sv m rp ex)) = if stat_mem ex SProfits then rp else option_map (fun x => dict_fill x d) rp.
Proof. exact stats_dict_exact. Qed.
Print Assumptions C39_statistics_dictionary.
Theorem C39_optimum_dictionary :
  forall (sv : solver) (d : df) rp r rp', maximum_aggregated_utility sv d rp = Ok (r, rp') -> rp' = option_map (fun x => dict_fill x d) rp.
Proof. exact optimum_dict. Qed.
Print Assumptions C39_optimum_dictionary.
(** Both shares are 0, or None. *)
Theorem C85_shares :
  forall (S : sorter) (sv : solver) (ops : list op), Forall op_ok ops -> solver_ok sv ->
    let m := session S sv market_init ops in let d := get_df (mk_bm m) in let tl := tm_trans (mk_trans m) in
    forall rp, tl = [] -> exists t w, percentage_traded sv d tl = Ok t /\ percentage_welfare sv d tl rp = Ok w /\
      (forall x, t = Some x -> x = 0) /\ (forall x, w = Some x -> x = 0).
Proof. exact zero_shares. Qed.
Print Assumptions C85_shares.
(** Before the first run *)
Theorem C85_before_run :
  forall (S : sorter) (sv : solver) (ops : list op) rp ex, Forall op_ok ops -> solver_ok sv -> (forall a, ~ In (ORun a) ops) -> ~ In SProfits ex ->
    let m := session S sv market_init ops in
    statistics sv m rp ex = (m, option_map (fun x => dict_fill x (get_df (mk_bm m))) rp, Err ValueError).
Proof. exact stats_before_run. Qed.
Print Assumptions C85_before_run.
(** Right after a peer to peer run it is raised only for markets with one side: a meeting without trade is a
    transaction of quantity 0. *)
Theorem C85_p2p :
  forall (S : sorter) (sv : solver) (ops : list op) c r rp ex e, Forall op_ok ops -> 0 <= c -> c <= 1 -> solver_ok sv ->
    let m := session S sv market_init (ops ++ [ORun (AP2P c r)]) in
    snd (statistics sv m rp ex) = Err e <-> e = ValueError /\ one_sided (get_df (mk_bm m)) /\ ~ In SProfits ex.
Proof. exact p2p_stats_raise. Qed.
Print Assumptions C85_p2p.
(** Refuted: after a successful run on both sides the statistics can be computed.  The Huang auction with one buyer and
    one seller returns without transactions. *)
Theorem C85_after_run_refuted :
  exists (S : sorter) (sv : solver) (ops : list op),
    Forall op_ok ops /\ solver_ok sv /\ let m := session S sv market_init ops in
    ~ one_sided (get_df (mk_bm m)) /\ (exists ps pb q, mk_extra m = XHuang ps pb q) /\ snd (statistics sv m None []) = Err ValueError /\
    exists t w, snd (statistics sv m None [SProfits]) = Ok [(STraded, VRatio t); (SWelfare, VRatio w)].
Proof. exact idle_witness. Qed.
Print Assumptions C85_after_run_refuted.
(** the dictionary {0: 10} of the caller gets the price of bid 1, though nothing is returned; peer to peer the same two
    bids trade *)
Example C85_example :
  match statistics fm_solver (session SS fm_solver market_init idle_ops) (Some [(0%nat, qz 10)]) [] with
  | (_, Some d, Err ValueError) => map (fun e => (fst e, this (snd e))) d = [(0%nat, 10); (1%nat, 2)]%Q
  | _ => False end /\
  match snd (statistics fm_solver (session SS fm_solver market_init (idle_ops ++ [ORun (AP2P (qf 1 2) (fun _ => O))])) None []) with
  | Ok [(STraded, VRatio (Some t)); (SWelfare, VRatio (Some w)); (SProfits, VProfits p)] => (this t, this w, map this (pr_bid p)) = (1, 1, [1#2; 1#2])%Q
  | _ => False end.
Proof. vm_compute. auto. Qed.
