(** C101. What [Market.run("huang")] gives up, with the merging of rounded prices included. *)
From Verif Require Import QcTac Num ModelBase ModelHuang ModelMerge ModelMarket Spec SpecTrade SpecMerge SpecAlloc SpecStats SpecHuang SpecMarketLoss SpecGen
  Sorter Conform MarketLoss MarketLossTop.

(** A run that finds prices trades less than the crossing quantity of the rounded table, by at most the total quantity of the
    bids at one of the two rounded prices; by at most one bid if no two bids of a side round to the same price. *)
Theorem C101_quantity :
  forall (S : sorter) (m : market) (smp : nat -> nat) (cnt : Z), let d := get_df (mk_bm m) in let rd := map (rounded 5) d in
    qty_pos d -> price_nonneg d -> forall tm ps pb q, snd (market_run S m (AHuang smp cnt)) = Ok (tm, XHuang ps pb q) ->
    let t := bought d (tm_trans tm) in
    exists c b s, Marginal rd ps pb c /\ In b d /\ In s d /\ buying b = true /\ buying s = false /\ np_round 5 (price b) = pb /\ np_round 5 (price s) = ps /\
      t = qmin (demand_above rd pb) (supply_below rd ps) /\ t < c /\
      c <= t + qmax (qsumf qty (group_of 5 d (rounded 5 b))) (qsumf qty (group_of 5 d (rounded 5 s))) /\
      (prices_distinct rd -> c <= t + qmax (qty b) (qty s)).
Proof. exact market_quantity. Qed.
Print Assumptions C101_quantity.

(** Welfare of any allocation, in submitted prices: the run loses at most the quantity it gives up times the range of rounded
    prices, and a hundred-thousandth for every unit of either allocation. *)
Theorem C101_loss :
  forall (S : sorter) (m : market) (smp : nat -> nat) (cnt : Z), let d := get_df (mk_bm m) in let rd := map (rounded 5) d in
    qty_pos d -> price_nonneg d -> forall tm ps pb q, snd (market_run S m (AHuang smp cnt)) = Ok (tm, XHuang ps pb q) ->
    let t := bought d (tm_trans tm) in
    forall c x hi lo, Marginal rd ps pb c -> alloc_ok d x -> (forall r, In r rd -> if buying r then price r <= hi else lo <= price r) ->
      welfare d price x <= traded_surplus price d (tm_trans tm) + (c - t) * (hi - lo) + (half_step + half_step) * (volume d x + t).
Proof. exact market_loss. Qed.
Print Assumptions C101_loss.

(** If both sides have the same quantity strictly inside the prices, the share of the welfare (in rounded prices) is at least the share of the quantity. *)
Theorem C101_ratio :
  forall (S : sorter) (m : market) (smp : nat -> nat) (cnt : Z), let d := get_df (mk_bm m) in let rd := map (rounded 5) d in
    qty_pos d -> price_nonneg d -> forall tm ps pb q, snd (market_run S m (AHuang smp cnt)) = Ok (tm, XHuang ps pb q) ->
    let t := bought d (tm_trans tm) in
    forall c x, Marginal rd ps pb c -> alloc_ok d x -> demand_above rd pb = supply_below rd ps ->
      welfare rd price x * t <= traded_surplus price rd (tm_trans tm) * c.
Proof. exact market_ratio. Qed.
Print Assumptions C101_ratio.

(** Generated bids with prices that stay different after rounding: [run("huang")] gives up less than one unit. *)
Theorem C101_generated :
  forall nb ns os ob bs (S : sorter) smp cnt tm ps pb q, made nb ns os ob bs -> qty_pos (table_of bs) -> 0 <= os -> 0 <= ob ->
    prices_distinct (map (rounded 5) (table_of bs)) -> snd (market_run S (market_of bs) (AHuang smp cnt)) = Ok (tm, XHuang ps pb q) ->
    exists c, Marginal (map (rounded 5) (table_of bs)) ps pb c /\ bought (table_of bs) (tm_trans tm) < c /\ c < bought (table_of bs) (tm_trans tm) + 1.
Proof. exact made_run_loss. Qed.
Print Assumptions C101_generated.

(** one buyer at 9 and three buyers just above 5, which [run] merges; four sellers *)
Definition near5 (k : positive) : Qc := qz 5 + qf 1 1000000 * qz (Zpos k).
Definition merged_bids : list bid :=
  [mkBid 1 (qz 9) 0 true 0 true; mkBid 1 (near5 1) 1 true 0 true; mkBid 1 (near5 2) 2 true 0 true; mkBid 1 (near5 3) 3 true 0 true;
   mkBid 1 (qz 1) 4 false 0 true; mkBid 1 (qz 2) 5 false 0 true; mkBid 1 (qz 3) 6 false 0 true; mkBid (qf 1 2) (qz 4) 7 false 0 true].

(** Different submitted prices are not enough for the bound by one bid: here the run trades 1, and any crossing quantity is above 3. *)
Theorem C101_one_bid_refuted :
  exists (S : sorter) (m : market) smp cnt tm ps pb q, let d := get_df (mk_bm m) in
    qty_pos d /\ price_nonneg d /\ prices_distinct d /\ snd (market_run S m (AHuang smp cnt)) = Ok (tm, XHuang ps pb q) /\
    forall c r, Marginal (map (rounded 5) d) ps pb c -> In r d -> bought d (tm_trans tm) + qty r < c.
Proof.
  set (m := market_of merged_bids).
  destruct (snd (market_run SS m (AHuang (fun _ => 0%nat) 0))) as [[tm [|ps pb q| | |]]|e] eqn:E; try (exfalso; vm_compute in E; discriminate E).
  exists SS, m, (fun _ => 0%nat), 0%Z, tm, ps, pb, q. cbv zeta.
  assert (Eps : ps = qz 4) by (vm_compute in E; injection E as _ E1 _ _; rewrite <- E1; apply Qc_is_canon; reflexivity).
  assert (Et : bought (get_df (mk_bm m)) (tm_trans tm) = 1) by (vm_compute in E; injection E as E1 _ _ _; rewrite <- E1; apply Qc_is_canon; vm_compute; reflexivity).
  split; [intros r Hr; repeat (destruct Hr as [<-|Hr]; [vm_compute; reflexivity|]); destruct Hr|].
  split; [intros r Hr; repeat (destruct Hr as [<-|Hr]; [vm_compute; discriminate|]); destruct Hr|].
  split; [split; repeat constructor; cbn; intuition (try discriminate)|].
  split; [exact E|]. intros c r (_ & _ & _ & _ & L & _) Hr. rewrite Et.
  assert (Es : supply_below (map (rounded 5) (get_df (mk_bm m))) ps = qz 3) by (rewrite Eps; apply Qc_is_canon; vm_compute; reflexivity).
  rewrite Es in L. assert (Q : qty r <= 1) by (repeat (destruct Hr as [<-|Hr]; [vm_compute; discriminate|]); destruct Hr).
  assert (T : 1 + 1 < qz 3) by reflexivity. qlra.
Qed.
Print Assumptions C101_one_bid_refuted.

Example C101_example :
  let m := market_of merged_bids in let d := get_df (mk_bm m) in
  match snd (market_run SS m (AHuang (fun _ => 0%nat) 0)) with
  | Ok (tm, XHuang ps pb q) => (this ps, this pb, this q, this (bought d (tm_trans tm)), this (traded_surplus price d (tm_trans tm))) = (4, 5, 1, 1, 7)%Q /\
      this (qsumf qty (group_of 5 d (rounded 5 (mkRow 1 1 (near5 1) 1 true 0 true)))) = 3%Q
  | _ => False
  end.
Proof. vm_compute. auto. Qed.
