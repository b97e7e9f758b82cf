(** Properties C61 - C63: attributes that do not matter, change of units, names. *)
From Verif Require Import QcTac Num ModelBase ModelCurves ModelHuang ModelMuda ModelP2P ModelMerge ModelMarket ModelStats Spec SpecUnits Sorter
  UnitFacts UnitMech UnitMarket UnitStats UnitWitness UnitTop MergeSample Conform PlotWitness.

(** C61. No mechanism looks at the time of a bid or at its divisible flag; the values sampled when bids are merged
    and the counter of new users do not matter either. *)
Theorem C61_attributes_ignored :
  forall (S : sorter), compares_prices S -> forall (m m' : market),
    Forall2 same_terms (get_df (mk_bm m)) (get_df (mk_bm m')) -> forall alg : algo,
    snd (market_run S m' alg) = snd (market_run S m alg).
Proof. exact attributes_ignored. Qed.
Print Assumptions C61_attributes_ignored.
Theorem C61_sampling_ignored :
  forall (S : sorter) (m : market) (smp smp' : nat -> nat) (cnt cnt' : Z), compares_prices S ->
    snd (market_run S m (AHuang smp' cnt')) = snd (market_run S m (AHuang smp cnt)).
Proof. exact huang_sampling. Qed.
Print Assumptions C61_sampling_ignored.
(** the sampled values may be any combination of those of the members, chosen independently for each group and attribute *)
Theorem C61_sampling_free :
  forall prec (d : df) (cnt : Z) (cb ct cd : nat -> nat), exists smp, forall nd mp cnt', merge_same_price prec smp d cnt = Ok (nd, mp, cnt') ->
    length mp = length nd /\
    forall g r m, nth_error nd g = Some r -> nth_error mp g = Some m -> exists rows, map lbl rows = m /\ incl rows d /\ takes (cb g) (ct g) (cd g) r rows.
Proof. exact (fun prec d cnt cb ct cd => ex_intro _ (chooser cb ct cd) (any_sample prec d cnt cb ct cd)). Qed.
Print Assumptions C61_sampling_free.
(** a stable sort (the sort used for frames of any size with kind='stable', for short ones by default) compares prices only *)
Theorem C61_stable : compares_prices stable_sorter.
Proof. exact stable_compares. Qed.
Print Assumptions C61_stable.
(** bids.py:61-63 documents that an indivisible bid accepts no fraction: every mechanism splits such bids *)
Theorem C61_indivisible_refuted :
  exists (S : sorter) (m : market), compares_prices S /\ let d := get_df (mk_bm m) in
    (forall r, In r d -> 0 < qty r /\ 0 < price r /\ divisible r = false) /\
    (forall smp cnt, exists tm ex, snd (market_run S m (AHuang smp cnt)) = Ok (tm, ex) /\ splits_indivisible d (tm_trans tm)) /\
    (exists c r tm ex, snd (market_run S m (AP2P c r)) = Ok (tm, ex) /\ splits_indivisible d (tm_trans tm)) /\
    (exists fl tm ex, snd (market_run S m (AMuda fl)) = Ok (tm, ex) /\ splits_indivisible d (tm_trans tm)).
Proof. exact indivisible_split. Qed.
Print Assumptions C61_indivisible_refuted.
Definition bids_shown (r : res (transmgr * extra)) : option (list (nat * Q * Q)) :=
  match r with Ok (tm, _) => Some (map (fun t => (t_bid t, this (t_qty t), this (t_price t))) (tm_trans tm)) | Err _ => None end.
(** 2 of the 3 units of bid 0 are traded in each of the three *)
Example C61_example :
  bids_shown (snd (market_run SS whole_market (AHuang (fun _ => O) 0))) = Some [(2%nat, 2, 5); (0%nat, 2, 6)]%Q /\
  bids_shown (snd (market_run SS whole_market (AP2P (qf 1 2) (fun _ => O)))) = Some [(0%nat, 2, 11 # 2); (2%nat, 2, 11 # 2); (1%nat, 2, 11 # 2); (3%nat, 2, 11 # 2)]%Q /\
  bids_shown (snd (market_run SS whole_market (AMuda [true; false; true; false]))) = Some [(2%nat, 2, 6); (0%nat, 2, 6)]%Q.
Proof. vm_compute. auto. Qed.

(** C62. Quantities in units of [1/a] and prices in units of [1/b]: p2p and MUDA give the same result in the new units,
    with the same exceptions; fees are in units of [1/(a*b)]. *)
Theorem C62_p2p :
  forall (S : sorter) (m m' : market) (a b c : Qc) (r : nat -> nat), 0 < a -> 0 < b ->
    Forall2 (same_bid a b) (get_df (mk_bm m)) (get_df (mk_bm m')) ->
    snd (market_run S m' (AP2P c r)) = result_units a b (snd (market_run S m (AP2P c r))).
Proof. exact run_p2p_units. Qed.
Print Assumptions C62_p2p.
Theorem C62_muda :
  forall (S : sorter), compares_prices S -> forall (m m' : market) (a b : Qc) (fl : list bool), 0 < a -> 0 < b ->
    Forall2 (same_offer a b) (get_df (mk_bm m)) (get_df (mk_bm m')) ->
    snd (market_run S m' (AMuda fl)) = result_units a b (snd (market_run S m (AMuda fl))).
Proof. exact run_muda_units. Qed.
Print Assumptions C62_muda.
(** So does the Huang auction itself, *)
Theorem C62_huang_auction :
  forall (a b : Qc), 0 < a -> 0 < b -> forall (S : sorter), compares_prices S -> forall d d' : df,
    Forall2 (same_bid a b) d d' -> huang_auction S d' = result_units a b (huang_auction S d).
Proof. exact (fun a b Ha Hb => huang_units a b Ha Hb (same_bid a b) (fun r r' H => H)). Qed.
Print Assumptions C62_huang_auction.
(** and the auction run by the market for another unit of quantity. *)
Theorem C62_huang_quantity :
  forall (S : sorter), compares_prices S -> forall (m m' : market) (a : Qc) (smp smp' : nat -> nat) (cnt cnt' : Z), 0 < a ->
    Forall2 (same_bid a 1) (get_df (mk_bm m)) (get_df (mk_bm m')) ->
    snd (market_run S m' (AHuang smp' cnt')) = result_units a 1 (snd (market_run S m (AHuang smp cnt))).
Proof. exact run_huang_qty. Qed.
Print Assumptions C62_huang_quantity.
(** With another unit of price it does if all prices have at most five decimals in both units, *)
Theorem C62_huang_price :
  forall (S : sorter), compares_prices S -> forall (m m' : market) (a b : Qc) (smp smp' : nat -> nat) (cnt cnt' : Z), 0 < a -> 0 < b ->
    Forall2 (same_bid a b) (get_df (mk_bm m)) (get_df (mk_bm m')) ->
    (forall r, In r (get_df (mk_bm m)) -> np_round 5 (price r) = price r) ->
    (forall r, In r (get_df (mk_bm m')) -> np_round 5 (price r) = price r) ->
    snd (market_run S m' (AHuang smp' cnt')) = result_units a b (snd (market_run S m (AHuang smp cnt))).
Proof. exact run_huang_grid. Qed.
Print Assumptions C62_huang_price.
(** and not in general: there is a market with trade and a unit of price in which it has none. *)
Theorem C62_huang_price_refuted :
  exists (S : sorter) (m m' : market) (b : Qc), compares_prices S /\ 0 < b /\
    (forall r, In r (get_df (mk_bm m)) -> 0 < qty r /\ 0 < price r) /\ Forall2 (same_bid 1 b) (get_df (mk_bm m)) (get_df (mk_bm m')) /\
    forall smp cnt smp' cnt', exists tm ex tm' ex', snd (market_run S m (AHuang smp cnt)) = Ok (tm, ex) /\ tm_trans tm <> [] /\
      snd (market_run S m' (AHuang smp' cnt')) = Ok (tm', ex') /\ tm_trans tm' = [].
Proof. exact price_units_lost. Qed.
Print Assumptions C62_huang_price_refuted.
(** The two percentages do not depend on the units, and profits are amounts of money. *)
Theorem C62_percentages :
  forall (sv : solver) (m m' : market) (a b : Qc) (ts : list trans), solver_ok sv -> 0 < a -> 0 < b ->
    let d := get_df (mk_bm m) in let d' := get_df (mk_bm m') in
    forall rp rp', Forall2 (same_bid a b) d d' -> qty_nonneg d ->
    percentage_traded sv d' (map (trans_units a b) ts) = percentage_traded sv d ts /\
    percentage_welfare sv d' (map (trans_units a b) ts) rp' = percentage_welfare sv d ts rp.
Proof. exact top_ratios. Qed.
Print Assumptions C62_percentages.
Theorem C62_profits :
  forall (a b : Qc) (d d' : df) ts rp fees, Forall2 (same_offer a b) d d' ->
    match fst (calculate_profits d ts rp fees),
      fst (calculate_profits d' (map (trans_units a b) ts) (option_map (map (fun iv => (fst iv, b * snd iv))) rp) (option_map (map (Qcmult (a * b))) fees)) with
    | Ok p, Ok p' => pr_bid p' = map (Qcmult (a * b)) (pr_bid p) /\ pr_reservation p' = map (Qcmult (a * b)) (pr_reservation p) /\ pr_market p' = a * b * pr_market p
    | Err e, Err e' => e' = e
    | _, _ => False
    end.
Proof. exact top_profits. Qed.
Print Assumptions C62_profits.
(** the same market with prices in other units: nothing is traded when a unit is 10^7 *)
Example C62_example :
  bids_shown (snd (market_run SS (priced 1) (AHuang (fun _ => O) 0))) = Some [(2%nat, 2, 5); (0%nat, 2, 6)]%Q /\
  bids_shown (snd (market_run SS (priced (qz 100)) (AHuang (fun _ => O) 0))) = Some [(2%nat, 2, 500); (0%nat, 2, 600)]%Q /\
  bids_shown (snd (market_run SS (priced (qf 1 10000000)) (AHuang (fun _ => O) 0))) = Some [].
Proof. vm_compute. auto. Qed.

(** C63. Users' names do not matter: to p2p and Huang not at all, *)
Theorem C63_huang :
  forall (S : sorter), compares_prices S -> forall (m m' : market),
    Forall2 same_terms_anon (get_df (mk_bm m)) (get_df (mk_bm m')) -> forall smp smp' cnt cnt',
    snd (market_run S m' (AHuang smp' cnt')) = snd (market_run S m (AHuang smp cnt)).
Proof. exact huang_names. Qed.
Print Assumptions C63_huang.
Theorem C63_p2p :
  forall (S : sorter) (m m' : market),
    Forall2 same_terms_anon (get_df (mk_bm m)) (get_df (mk_bm m')) -> forall c r,
    snd (market_run S m' (AP2P c r)) = snd (market_run S m (AP2P c r)).
Proof. exact p2p_names. Qed.
Print Assumptions C63_p2p.
(** and to the trades of MUDA only through the exception raised when fees are charged. *)
Theorem C63_muda :
  forall (S : sorter), compares_prices S -> forall (m m' : market),
    Forall2 same_terms_anon (get_df (mk_bm m)) (get_df (mk_bm m')) -> forall fl tm ex tm' ex',
    snd (market_run S m (AMuda fl)) = Ok (tm, ex) -> snd (market_run S m' (AMuda fl)) = Ok (tm', ex') -> tm' = tm.
Proof. exact muda_names. Qed.
Print Assumptions C63_muda.
Theorem C63_muda_refuted :
  exists (S : sorter) (m m' : market) fl, compares_prices S /\
    Forall2 same_terms_anon (get_df (mk_bm m)) (get_df (mk_bm m')) /\ (forall r, In r (get_df (mk_bm m')) -> (0 <= user r)%Z) /\
    (exists tm ex, snd (market_run S m (AMuda fl)) = Ok (tm, ex) /\ tm_trans tm <> []) /\ snd (market_run S m' (AMuda fl)) = Err IndexError.
Proof. exact names_matter. Qed.
Print Assumptions C63_muda_refuted.
(** users 0 to 3, and users 10 to 13 *)
Example C63_example :
  bids_shown (snd (market_run SS (named 0) (AMuda [true; true; false; false]))) = Some [(1%nat, 2, 11 # 2); (0%nat, 2, 11 # 2)]%Q /\
  bids_shown (snd (market_run SS (named 10) (AMuda [true; true; false; false]))) = None /\
  bids_shown (snd (market_run SS (named 0) (AHuang (fun _ => O) 0))) = bids_shown (snd (market_run SS (named 10) (AHuang (fun _ => O) 0))).
Proof. vm_compute. auto. Qed.
