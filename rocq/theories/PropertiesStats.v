(** Properties C34 - C42: statistics, [Market.run] and the generated data sets. *)
From Verif Require Import QcTac Num ModelBase ModelHuang ModelMuda ModelP2P ModelMerge ModelMarket ModelStats ModelDatasets
  Spec SpecTrade SpecMerge SpecMuda SpecAlloc SpecStats SpecMarket Sorter Conform Solver
  LPFacts StatsFacts StatsTop MarketFacts DatasetFacts StatsWitness.

(** C34. Meaning of the computed profits: users in increasing order, each with the gain of all its bids;
    the market maker gets what the buyers pay minus what the sellers receive, plus the fees.  (Without any
    transaction of a bid of the table nothing is computed, see C85.) *)
Theorem C34_profits_meaning :
  forall (d : df) (tl : list trans) rp fees, labels_unique d -> some_deal d tl -> exists us p rp',
    calculate_profits d tl rp fees = (Ok p, rp') /\
    StronglySorted Z.lt us /\ (forall u, In u us <-> exists r, In r d /\ user r = u) /\
    pr_bid p = map (fun u => user_gain price d u tl) us /\
    pr_reservation p = map (fun u => user_gain (worth rp) d u tl) us /\
    pr_market p = money true d tl - money false d tl + match fees with Some f => qsum f | None => 0 end.
Proof. exact profits_meaning. Qed.
Print Assumptions C34_profits_meaning.
(** refuted: the fees are given to the market maker and not taken from the players *)
Theorem C34_accounting_refuted :
  exists (S : sorter) (sv : solver) (ops : list op) (p : profits) rp',
    Forall op_ok ops /\ let m := session S sv market_init ops in let d := get_df (mk_bm m) in let tl := tm_trans (mk_trans m) in
    calculate_profits d tl None (extra_fees (mk_extra m)) = (Ok p, rp') /\
    qsum (pr_bid p) + pr_market p <> traded_surplus price d tl.
Proof. exact fees_created. Qed.
Print Assumptions C34_accounting_refuted.
(** what holds: the profits add up to the surplus plus the fees (so to the surplus if there are no fees) *)
Theorem C34_accounting_partial :
  forall (d : df) (tl : list trans) rp fees p rp', labels_unique d -> calculate_profits d tl rp fees = (Ok p, rp') ->
    qsum (pr_bid p) + pr_market p = traded_surplus price d tl + match fees with Some f => qsum f | None => 0 end /\
    qsum (pr_reservation p) + pr_market p = traded_surplus (worth rp) d tl + match fees with Some f => qsum f | None => 0 end.
Proof. exact accounting. Qed.
Print Assumptions C34_accounting_partial.
(** muda session: surplus 10+12-1-2 = 19, fees 7/2; the first profits are by the bids, the second by
    reservation price 0 of bid 2 *)
Example C34_example :
  let m := session SS fm_solver market_init fee_ops in let d := get_df (mk_bm m) in let tl := tm_trans (mk_trans m) in
  match fst (calculate_profits d tl (Some [(2%nat, 0)]) (extra_fees (mk_extra m))) with
  | Ok p => (map this (pr_bid p), map this (pr_reservation p), this (pr_market p), this (traded_surplus price d tl))
            = ([19#2; 0; 6; 7#2], [19#2; 0; 7; 7#2], 7#2, 19)%Q
  | Err _ => False
  end.
Proof. vm_compute. reflexivity. Qed.

(** C35. After any sequence of sensible calls (positive quantities, nonnegative prices, p2p weights in
    [0,1]) no player loses according to the bids, and neither does the market maker; p2p makes nothing
    for the market maker. *)
Theorem C35_nobody_loses :
  forall (S : sorter) (sv : solver) (ops : list op), Forall op_ok ops ->
    let m := session S sv market_init ops in
    forall rp p rp', calculate_profits (get_df (mk_bm m)) (tm_trans (mk_trans m)) rp (extra_fees (mk_extra m)) = (Ok p, rp') ->
    (forall x, In x (pr_bid p) -> 0 <= x) /\ 0 <= pr_market p.
Proof. exact history_profits. Qed.
Print Assumptions C35_nobody_loses.
Theorem C35_p2p_market_zero :
  forall (S : sorter) (m : market) (c : Qc) (r : nat -> nat) (tm : transmgr) (ex : extra) rp p rp',
    let d := get_df (mk_bm m) in qty_nonneg d -> 0 <= c -> c <= 1 ->
    snd (market_run S m (AP2P c r)) = Ok (tm, ex) ->
    calculate_profits d (tm_trans tm) rp (extra_fees ex) = (Ok p, rp') -> pr_market p = 0.
Proof. exact p2p_market_zero. Qed.
Print Assumptions C35_p2p_market_zero.
Definition hist_ops (a : algo) : list op :=
  [OAccept (B (qz 2) (qz 5) 0); OAccept (A (qz 1) (qz 1) 1); OStats None []; ORun a; OAccept (B (qz 1) (qz 2) 2); OAccept (A (qz 3) (qz 3) 3)].
Example C35_example :
  Forall op_ok (hist_ops (AP2P (qf 1 2) (fun _ => 0%nat))) /\
  let m := session SS fm_solver market_init (hist_ops (AP2P (qf 1 2) (fun _ => 0%nat))) in
  match fst (calculate_profits (get_df (mk_bm m)) (tm_trans (mk_trans m)) None (extra_fees (mk_extra m))) with
  | Ok p => (map this (pr_bid p), this (pr_market p)) = ([2; 2; 0; 0], 0)%Q
  | Err _ => False
  end.
Proof.
  split; [|vm_compute; reflexivity].
  unfold hist_ops, B, A, op_ok, bid_ok, Qclt, Qcle. simpl. repeat constructor; simpl; try discriminate; reflexivity.
Qed.

(** C36. percentage_traded: exact meaning for balanced transactions, and bounds after any history. *)
Theorem C36_traded_meaning :
  forall (sv : solver) (d : df) (tl : list trans), map lbl d = seq 0 (length d) -> qty_nonneg d -> solver_ok sv ->
    refer d tl -> bought d tl = sold d tl ->
    exists x vmax, alloc_ok d x /\ alloc_compat d x /\ volume d x = vmax /\
      (forall y, alloc_ok d y -> alloc_compat d y -> volume d y <= vmax) /\
      percentage_traded sv d tl = Ok (if qltb 0 vmax then Some (bought d tl / vmax) else None).
Proof. exact traded_spec. Qed.
Print Assumptions C36_traded_meaning.
Theorem C36_traded_bounds :
  forall (S : sorter) (sv : solver) (ops : list op), Forall op_ok ops ->
    let m := session S sv market_init ops in solver_ok sv ->
    exists o, percentage_traded sv (get_df (mk_bm m)) (tm_trans (mk_trans m)) = Ok o /\ forall x, o = Some x -> 0 <= x /\ x <= 1.
Proof. exact history_traded. Qed.
Print Assumptions C36_traded_bounds.
Definition show_ratio (r : res (option Qc)) : option (option Q) := match r with Ok o => Some (option_map this o) | Err _ => None end.
(** documentation example, a p2p history and a market that cannot trade; the solver is verified *)
Example C36_example :
  solver_ok fm_solver /\
  show_ratio (percentage_traded fm_solver doc_d doc_tl) = Some (Some (2#3)%Q) /\
  show_ratio (let m := session SS fm_solver market_init (hist_ops (AP2P (qf 1 2) (fun _ => 0%nat))) in
              percentage_traded fm_solver (get_df (mk_bm m)) (tm_trans (mk_trans m))) = Some (Some (1#3)%Q) /\
  show_ratio (percentage_traded fm_solver (frame [B 1 1 0; A 1 (qz 2) 1]) []) = Some None.
Proof. split; [exact fm_solver_ok|]. vm_compute. auto. Qed.

(** C37. percentage_welfare. *)
Theorem C37_welfare_meaning :
  forall (sv : solver) (d : df) (tl : list trans) rp, map lbl d = seq 0 (length d) -> qty_nonneg d -> solver_ok sv ->
    exists x wmax, alloc_ok d x /\ welfare d price x = wmax /\ (forall y, alloc_ok d y -> welfare d price y <= wmax) /\
      percentage_welfare sv d tl rp =
        Ok (if qltb 0 wmax then Some ((traded_surplus price d tl - (money true d tl - money false d tl)) / wmax) else None).
Proof. exact welfare_spec. Qed.
Print Assumptions C37_welfare_meaning.
Theorem C37_welfare_bounds :
  forall (S : sorter) (sv : solver) (ops : list op), Forall op_ok ops ->
    let m := session S sv market_init ops in forall rp, solver_ok sv ->
    exists o, percentage_welfare sv (get_df (mk_bm m)) (tm_trans (mk_trans m)) rp = Ok o /\ forall x, o = Some x -> 0 <= x /\ x <= 1.
Proof. exact history_welfare. Qed.
Print Assumptions C37_welfare_bounds.
Example C37_example :
  show_ratio (percentage_welfare fm_solver doc_d doc_tl None) = Some (Some (4#5)%Q) /\
  show_ratio (let m := session SS fm_solver market_init (hist_ops (AP2P (qf 1 2) (fun _ => 0%nat))) in
              percentage_welfare fm_solver (get_df (mk_bm m)) (tm_trans (mk_trans m)) None) = Some (Some (2#3)%Q).
Proof. vm_compute. auto. Qed.

(** C38. Both programs have an optimum; the largest volume is a cut [wanted above t + offered up to t] (so
    no other cut is smaller); the largest welfare is the surplus at a price that clears the market. *)
Theorem C38_programs_have_optimum :
  forall (d : df), map lbl d = seq 0 (length d) -> qty_nonneg d ->
    (exists p a, volume_lp d = Ok p /\ lp_optimal p a) /\
    (forall rp, exists p a, welfare_lp d (dict_fill rp d) = Ok p /\ lp_optimal p a).
Proof. exact (fun d Hl Hq => conj (volume_lp_optimal d Hl Hq) (fun rp => welfare_lp_optimal d Hl rp Hq)). Qed.
Print Assumptions C38_programs_have_optimum.
Theorem C38_maximum_volume :
  forall (d : df), map lbl d = seq 0 (length d) -> forall sv : solver, qty_nonneg d -> solver_ok sv ->
    exists x t vars, maximum_traded_volume sv d = Ok (Some (volume d x, vars)) /\
      alloc_ok d x /\ alloc_compat d x /\ volume d x = wanted_above d price t + offered_at d price t /\
      (forall v, In v vars -> exists b s, In b (all_b d) /\ In s (all_s d) /\ v = ((lbl b, lbl s), x (lbl b) (lbl s))).
Proof. exact max_volume. Qed.
Print Assumptions C38_maximum_volume.
Theorem C38_maximum_welfare :
  forall (d : df), map lbl d = seq 0 (length d) -> forall (sv : solver) rp, qty_nonneg d -> solver_ok sv ->
    exists x p vars rp', maximum_aggregated_utility sv d rp = Ok (Some (welfare d (worth rp) x, vars), rp') /\
      alloc_ok d x /\ clearing d (worth rp) p /\ welfare d (worth rp) x = surplus d (worth rp) p /\
      (forall v, In v vars -> exists b s, In b (all_b d) /\ In s (all_s d) /\ v = ((lbl b, lbl s), x (lbl b) (lbl s))).
Proof. exact max_welfare_worth. Qed.
Print Assumptions C38_maximum_welfare.
Definition show_opt (r : lp_result) := match r with Some (x, vs) => Some (this x, map (fun v => (fst v, this (snd v))) vs) | None => None end.
Example C38_example :
  (match maximum_traded_volume fm_solver doc_d with Ok r => show_opt r = Some ((3#2)%Q, [((0, 2)%nat, 1%Q); ((1, 2)%nat, (1#2)%Q)]) | Err _ => False end) /\
  (match maximum_aggregated_utility fm_solver doc_d (Some doc_rp) with
   | Ok (r, _) => show_opt r = Some ((9#2)%Q, [((0, 2)%nat, 1%Q); ((1, 2)%nat, (1#2)%Q)]) | Err _ => False end).
Proof. vm_compute. auto. Qed.

(** C39, refuted: [percentage_welfare] ignores the reservation prices given (here 4/5 although the
    documented ratio is 8/9), and computing profits adds entries to the caller's dictionary. *)
Theorem C39_welfare_ratio_refuted :
  exists (d : df) (tl : list trans) (rp : dict) (x w : Qc) vars rp',
    map lbl d = seq 0 (length d) /\ qty_nonneg d /\
    maximum_aggregated_utility fm_solver d (Some rp) = Ok (Some (w, vars), rp') /\
    percentage_welfare fm_solver d tl (Some rp) = Ok (Some x) /\
    x <> (traded_surplus (worth (Some rp)) d tl - (money true d tl - money false d tl)) / w.
Proof. exact welfare_ignored. Qed.
Print Assumptions C39_welfare_ratio_refuted.
Theorem C39_dictionary_refuted :
  exists (d : df) (tl : list trans) (m : dict), labels_unique d /\ snd (calculate_profits d tl (Some m) None) <> Some m.
Proof. exact dict_modified. Qed.
Print Assumptions C39_dictionary_refuted.
(** for no table do the reservation prices have any influence on percentage_welfare *)
Theorem C39_welfare_ignores_prices :
  forall (sv : solver) (d : df) (tl : list trans) rp rp', percentage_welfare sv d tl rp = percentage_welfare sv d tl rp'.
Proof. exact (fun sv d tl rp rp' => eq_refl). Qed.
Print Assumptions C39_welfare_ignores_prices.
(** what holds: the profits use them (C34_profits_meaning); the dictionary keeps its entries and gets
    the bid price for every label of the table that is missing; a complete dictionary is unchanged *)
Theorem C39_dictionary_partial :
  forall (d : df) (tl : list trans) rp fees,
    snd (calculate_profits d tl rp fees) = match rp with None => None | Some m => Some (dict_fill m d) end /\
    (forall m, (forall r, In r d -> dict_get m (lbl r) <> None) -> snd (calculate_profits d tl (Some m) fees) = Some m) /\
    (forall m i, dict_get (dict_fill m d) i =
       match dict_get m i with
       | Some v => Some v
       | None => match find (fun r => Nat.eqb (lbl r) i) d with Some r => Some (price r) | None => None end
       end).
Proof. exact dict_effect. Qed.
Print Assumptions C39_dictionary_partial.
Theorem C39_statistics_dictionary_partial :
  forall (sv : solver) (m : market) rp ex, exists rp', snd (fst (statistics sv m rp ex)) = rp' /\
    (rp' = rp \/ rp' = option_map (fun x => dict_fill x (get_df (mk_bm m))) rp).
Proof. exact stats_dict. Qed.
Print Assumptions C39_statistics_dictionary_partial.
Example C39_example :
  option_map (map (fun e => (fst e, this (snd e)))) (snd (calculate_profits doc_d doc_tl (Some [(2%nat, 0)]) None))
  = Some [(2%nat, 0); (0%nat, 3); (1%nat, 2)]%Q.
Proof. vm_compute. reflexivity. Qed.

(** C40. A run keeps the bids and depends on nothing but the bids; its result replaces the last one
    unless it raises, in which case nothing changes. *)
Theorem C40_run :
  forall (S : sorter) (m : market) (a : algo), mk_bm (fst (market_run S m a)) = mk_bm m /\
    match snd (market_run S m a) with
    | Ok (t, x) => mk_trans (fst (market_run S m a)) = t /\ mk_extra (fst (market_run S m a)) = x
    | Err _ => fst (market_run S m a) = m
    end /\
    (forall m', get_df (mk_bm m') = get_df (mk_bm m) -> snd (market_run S m' a) = snd (market_run S m a)).
Proof. exact run_cases. Qed.
Print Assumptions C40_run.
(** in any history the stored result is that of the last run that did not raise, on the bids at that time *)
Theorem C40_history :
  forall (S : sorter) (sv : solver) (ops : list op),
    let m := session S sv market_init ops in LastRun S ops (mk_trans m) (mk_extra m).
Proof. exact last_run. Qed.
Print Assumptions C40_history.
Theorem C40_one_sided :
  forall (S : sorter) (m : market) (a : algo), a <> AUnknown -> one_sided (get_df (mk_bm m)) ->
    match a with AHuang _ _ => ~ lone_price (np_round 5) (get_df (mk_bm m)) | _ => True end ->
    snd (market_run S m a) = Ok (tm_init, XEmpty).
Proof. exact one_sided_run. Qed.
Print Assumptions C40_one_sided.
(** an unknown mechanism raises and the p2p result stays; a new run replaces it *)
Example C40_example :
  let ops := hist_ops (AP2P (qf 1 2) (fun _ => 0%nat)) in
  let m := session SS fm_solver market_init ops in
  let m' := session SS fm_solver market_init (ops ++ [ORun AUnknown]) in
  let e := session SS fm_solver market_init (ops ++ [ORun (AP2P (qf 1 2) (fun _ => 0%nat))]) in
  mk_trans m' = mk_trans m /\ length (tm_trans (mk_trans m)) = 2%nat /\ length (tm_trans (mk_trans e)) = 6%nat /\
  snd (market_run SS (session SS fm_solver market_init [OAccept (B 1 1 0)]) (AMuda [])) = Ok (tm_init, XEmpty).
Proof. vm_compute. auto. Qed.

(** C41. Data sets. *)
Theorem C41_generate :
  forall (nb ns : nat) (os ob : Qc) (r : chooser) (eps : Qc), 0 < eps -> exists bs ss,
    generate nb ns os ob r eps = Ok (bs ++ ss) /\
    length bs = nb /\ length ss = ns /\ map b_user (bs ++ ss) = map Z.of_nat (seq 0 (nb + ns)) /\
    (forall b, In b bs -> b_buying b = true /\ ob <= b_price b /\ b_price b < ob + 1) /\
    (forall b, In b ss -> b_buying b = false /\ os <= b_price b /\ b_price b < os + 1) /\
    (forall b, In b (bs ++ ss) -> 0 <= b_qty b /\ b_qty b < 1 /\ b_time b = 0 /\ b_div b = true) /\
    NoDup (map b_price bs) /\ NoDup (map b_price ss) /\ NoDup (map b_qty bs) /\ NoDup (map b_qty ss).
Proof. exact generate_ok. Qed.
Print Assumptions C41_generate.
(** the first positions in order; the first quantity is 0 *)
Definition first_chooser : chooser := mkChooser (fun _ _ q => seq 0 q)
  (fun _ _ q _ => seq_length q 0) (fun _ _ q _ => seq_NoDup q 0)
  (fun _ n q i H Hi => Nat.lt_le_trans i q n (proj2 (proj1 (in_seq q 0 i) Hi)) H).
Example C41_example :
  match generate 2 1 (qf 1 2) 0 first_chooser (qf 1 4) with
  | Ok l => map (fun b => (this (b_qty b), this (b_price b), b_user b, b_buying b)) l
            = [(0, 0, 0%Z, true); (1#4, 1#4, 1%Z, true); (0, 1#2, 2%Z, false)]%Q
  | Err _ => False
  end.
Proof. vm_compute. reflexivity. Qed.

(** C42. [statistics] never changes the market; after any history that ends with some transactions it returns
    exactly the statistics that are not excluded, in the fixed order, each with the value of its own function.
    (C85 is about markets without transactions.) *)
Theorem C42_read_only :
  forall (sv : solver) (m : market) rp ex, fst (fst (statistics sv m rp ex)) = m.
Proof. exact stats_market. Qed.
Print Assumptions C42_read_only.
Theorem C42_complete :
  forall (S : sorter) (sv : solver) (ops : list op), Forall op_ok ops -> solver_ok sv ->
    let m := session S sv market_init ops in let d := get_df (mk_bm m) in let tl := tm_trans (mk_trans m) in
    forall rp ex, tl <> [] -> exists t w p rp',
      percentage_traded sv d tl = Ok t /\ percentage_welfare sv d tl rp = Ok w /\
      calculate_profits d tl rp (extra_fees (mk_extra m)) = (Ok p, rp') /\
      statistics sv m rp ex =
        (m, (if stat_mem ex SProfits then rp else rp'),
         Ok (filter (fun sv => negb (stat_mem ex (fst sv))) [(STraded, VRatio t); (SWelfare, VRatio w); (SProfits, VProfits p)])).
Proof. exact stats_complete. Qed.
Print Assumptions C42_complete.
(** A statistic is excluded exactly when it is in the list of the caller. *)
Theorem C42_excluded :
  forall (ex : list stat) (s : stat), stat_mem ex s = true <-> In s ex.
Proof. exact stat_mem_in. Qed.
Print Assumptions C42_excluded.
Definition show_stat (v : stat * stat_value) :=
  (fst v, match snd v with VRatio x => inl (option_map this x) | VProfits p => inr (map this (pr_bid p), this (pr_market p)) end).
Example C42_example :
  let m := session SS fm_solver market_init (hist_ops (AP2P (qf 1 2) (fun _ => 0%nat))) in
  match statistics fm_solver m None [STraded] with
  | (_, None, Ok l) => map show_stat l = [(SWelfare, inl (Some (2#3))); (SProfits, inr ([2; 2; 0; 0], 0))]%Q
  | _ => False
  end.
Proof. vm_compute. auto. Qed.
