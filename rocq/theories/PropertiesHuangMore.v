(** Properties C45 - C47: price setters, rationing and incentives of the Huang auction. *)
From Verif Require Import QcTac Num ModelBase ModelCurves ModelHuang ModelMuda ModelMerge ModelMarket Spec SpecTrade SpecMerge SpecMuda
  SpecHuang Sorter Conform HuangTop HuangTruth HuangMarketTop HuangMarketTruth HuangWitness.

(** C45. The price setters are the marginal buyer and the marginal seller at the competitive quantity. *)
Theorem C45_price_setters :
  forall (S : sorter) (d : df) tm ps pb q, qty_pos d -> price_nonneg d ->
    huang_auction S d = Ok (tm, XHuang ps pb q) ->
    exists c, Marginal d ps pb c /\ forall p, ps <= p -> p <= pb -> qmin (demand_at d p) (supply_at d p) = c.
Proof. exact (fun S d tm ps pb q Q Hp => huang_marginal S d (fun r H => Qclt_le_weak _ _ (Q r H)) Hp tm ps pb q Q). Qed.
Print Assumptions C45_price_setters.

(** C45, converse: whenever there are marginal bids the auction finds them. *)
Theorem C45_price_setters_found :
  forall (S : sorter) (d : df) ps pb c, qty_nonneg d -> price_nonneg d -> asks_pos d -> Marginal d ps pb c ->
    exists tm q, huang_auction S d = Ok (tm, XHuang ps pb q).
Proof. exact (fun S d ps pb c Hq Hp => marginal_huang S d Hq Hp ps pb c). Qed.
Print Assumptions C45_price_setters_found.

(** C45. The auction has a result exactly when the MUDA rule finds a competitive price. *)
Theorem C45_runs_iff_price :
  forall (S : sorter) (d : df), qty_nonneg d -> price_nonneg d ->
    ((exists tm ps pb q, huang_auction S d = Ok (tm, XHuang ps pb q)) <->
     exists p, find_competitive_price S d = Ok (Fin p)).
Proof. exact (fun S d Hq Hp => huang_price S d Hq Hp). Qed.
Print Assumptions C45_runs_iff_price.

(** C45. If some trade is strictly profitable and no buyer and seller name the same price, there is a result. *)
Theorem C45_runs :
  forall (S : sorter) (d : df) (rb rs : row), qty_nonneg d -> price_nonneg d ->
    In rb d -> In rs d -> buying rb = true -> buying rs = false -> price rs < price rb ->
    (forall b s, In b d -> In s d -> buying b = true -> buying s = false -> price b <> price s) -> asks_pos d ->
    exists tm ps pb q, huang_auction S d = Ok (tm, XHuang ps pb q).
Proof. exact (fun S d rb rs Hq Hp => huang_exists S d Hq Hp rb rs). Qed.
Print Assumptions C45_runs.
Example C45_example :
  let d := frame [B (qz 3) (qz 9) 0; B (qz 1) (qz 8) 1; B (qz 2) (qz 5) 2; A (qz 2) (qz 1) 3; A (qz 3) (qz 6) 4] in
  match huang_auction stable_sorter d with Ok (_, XHuang ps pb q) => map this [ps; pb; q] = [6; 8; 2]%Q | _ => False end /\
  map this [demand_above d (qz 8); demand_at d (qz 8); supply_below d (qz 6); supply_at d (qz 6)] = [3; 4; 2; 5]%Q.
Proof. vm_compute. split; reflexivity. Qed.

(** C46. The short side is served in full; on the long side everybody gives up the same quantity. *)
Theorem C46_rationing :
  forall (S : sorter) (d : df) tm ex, qty_nonneg d -> price_nonneg d -> labels_unique d ->
    huang_auction S d = Ok (tm, ex) ->
    exists tb ts, 0 <= tb /\ 0 <= ts /\ (tb = 0 \/ ts = 0) /\
      forall t r, In t (tm_trans tm) -> In r d -> lbl r = t_bid t ->
        t_qty t = qmax 0 (qty r - if buying r then tb else ts).
Proof. exact (fun S d tm ex Hq Hp => huang_rationing S d Hq Hp tm ex). Qed.
Print Assumptions C46_rationing.

(** C46 for Market.run("huang"): the complete outcome.  Prices are rounded to five decimals and bids of
    equal rounded price form one group; the group is rationed and its members share in proportion. *)
Theorem C46_market_outcome :
  forall (S : sorter) (m : market) (smp : nat -> nat) (cnt : Z) tm ex,
  let d := get_df (mk_bm m) in qty_pos d -> price_nonneg d ->
  snd (market_run S m (AHuang smp cnt)) = Ok (tm, ex) ->
  let rd := map (rounded 5) d in
  (ex = XEmpty /\ tm_trans tm = [] /\ (asks_pos rd -> forall ps pb c, ~ Marginal rd ps pb c)) \/
  (exists ps pb q, ex = XHuang ps pb q /\ (exists c, Marginal rd ps pb c) /\
    (tm_trans tm = [] /\ ((forall r, In r rd -> buying r = true -> wins ps pb r = false) \/
                          (forall r, In r rd -> buying r = false -> wins ps pb r = false)) \/
     exists tb ts, 0 <= tb /\ 0 <= ts /\ (tb = 0 \/ ts = 0) /\
       (exists b s, In b rd /\ In s rd /\ buying b = true /\ buying s = false /\ wins ps pb b = true /\ wins ps pb s = true) /\
       q = qmin (demand_above rd pb) (supply_below rd ps) /\ bought d (tm_trans tm) = q /\
       forall x, In x d -> traded_by (lbl x) (tm_trans tm) =
         if wins ps pb (rounded 5 x)
         then qmax 0 (qsumf qty (group_of 5 d (rounded 5 x)) - (if buying x then tb else ts)) * (qty x / qsumf qty (group_of 5 d (rounded 5 x)))
         else 0)).
Proof. exact run_top. Qed.
Print Assumptions C46_market_outcome.
Example C46_example :
  show (snd (market_run stable_sorter (tie_market (qz 9)) (AHuang (fun _ => 0%nat) 0)))
  = Some ([(4%nat, 3, 6, (-1)%Z, false); (0%nat, 5#4, 7, (-1)%Z, false); (1%nat, 5#4, 7, (-1)%Z, false); (2%nat, 1#2, 7, (-1)%Z, false)]%Q, SH 6 7 3).
Proof. vm_compute. reflexivity. Qed.

(** C47. A user with a single bid cannot gain by misreporting its price. *)
Theorem C47_truthful_in_price_partial :
  forall (S S' : sorter) (d d' : df) (u : Z) tm ex tm' ex',
    qty_pos d -> price_nonneg d -> price_nonneg d' -> labels_unique d -> prices_distinct d -> prices_distinct d' -> asks_pos d ->
    (forall r r', In r d -> In r' d -> user r = u -> user r' = u -> r = r') -> Forall2 (misprice u) d d' ->
    huang_auction S d = Ok (tm, ex) -> huang_auction S' d' = Ok (tm', ex') ->
    profit d u (tm_trans tm') <= profit d u (tm_trans tm).
Proof. exact huang_truth. Qed.
Print Assumptions C47_truthful_in_price_partial.

(** C47 for Market.run("huang"), prices with at most five decimals. *)
Theorem C47_market_truthful_in_price_partial :
  forall (S : sorter) (m m' : market) (smp smp' : nat -> nat) (cnt cnt' : Z) (u : Z) tm ex tm' ex',
    let d := get_df (mk_bm m) in let d' := get_df (mk_bm m') in
    qty_pos d -> price_nonneg d -> price_nonneg d' -> asks_pos d -> asks_pos d' -> prices_distinct d -> prices_distinct d' ->
    (forall r, In r d -> np_round 5 (price r) = price r) -> (forall r, In r d' -> np_round 5 (price r) = price r) ->
    (forall r r', In r d -> In r' d -> user r = u -> user r' = u -> r = r') -> Forall2 (misprice u) d d' ->
    snd (market_run S m (AHuang smp cnt)) = Ok (tm, ex) -> snd (market_run S m' (AHuang smp' cnt')) = Ok (tm', ex') ->
    profit d u (tm_trans tm') <= profit d u (tm_trans tm).
Proof. exact run_truth. Qed.
Print Assumptions C47_market_truthful_in_price_partial.

(** C47, refuted for a user with two bids: lowering the bid that sets the price pays. *)
Theorem C47_two_bids_refuted :
  exists (S : sorter) (d d' : df) (u : Z) tm ex tm' ex', qty_pos d /\ price_nonneg d /\ price_nonneg d' /\ labels_unique d /\
    prices_distinct d /\ prices_distinct d' /\ asks_pos d /\ Forall2 (misprice u) d d' /\
    huang_auction S d = Ok (tm, ex) /\ huang_auction S d' = Ok (tm', ex') /\
    profit d u (tm_trans tm) < profit d u (tm_trans tm').
Proof. exact two_bids_witness. Qed.
Print Assumptions C47_two_bids_refuted.

(** C47, refuted for quantities: asking for less pays. *)
Theorem C47_quantity_refuted :
  exists (S : sorter) (d d' : df) (u : Z) tm ex tm' ex', qty_pos d /\ qty_pos d' /\ price_nonneg d /\ price_nonneg d' /\ labels_unique d /\
    prices_distinct d /\ prices_distinct d' /\ asks_pos d /\
    (forall r r', In r d -> In r' d -> user r = u -> user r' = u -> r = r') /\ Forall2 (misreport u) d d' /\
    huang_auction S d = Ok (tm, ex) /\ huang_auction S d' = Ok (tm', ex') /\
    profit d u (tm_trans tm) < profit d u (tm_trans tm').
Proof. exact quantity_witness. Qed.
Print Assumptions C47_quantity_refuted.

(** C47, refuted for ties in the market: copying the price of another winner pays. *)
Theorem C47_market_tie_refuted :
  exists (S : sorter) (smp : nat -> nat) (cnt : Z) (m m' : market) (u : Z) tm ex tm' ex',
    let d := get_df (mk_bm m) in let d' := get_df (mk_bm m') in
    qty_pos d /\ price_nonneg d /\ price_nonneg d' /\ asks_pos d /\ asks_pos d' /\ prices_distinct d /\
    (forall r, In r d -> np_round 5 (price r) = price r) /\ (forall r, In r d' -> np_round 5 (price r) = price r) /\
    (forall r r', In r d -> In r' d -> user r = u -> user r' = u -> r = r') /\ Forall2 (misprice u) d d' /\
    snd (market_run S m (AHuang smp cnt)) = Ok (tm, ex) /\ snd (market_run S m' (AHuang smp cnt)) = Ok (tm', ex') /\
    profit d u (tm_trans tm) < profit d u (tm_trans tm').
Proof. exact tie_witness. Qed.
Print Assumptions C47_market_tie_refuted.
Example C47_example :
  match huang_auction SS two_bids, huang_auction SS two_bids' with
  | Ok (t, _), Ok (t', _) => (this (profit two_bids 0 (tm_trans t)), this (profit two_bids 0 (tm_trans t'))) = (2, 7)%Q
  | _, _ => False
  end.
Proof. vm_compute. reflexivity. Qed.
