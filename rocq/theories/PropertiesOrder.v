(** C64: the order in which the bids were submitted. *)
From Verif Require Import QcTac Num ModelBase ModelCurves ModelHuang ModelMuda ModelP2P ModelMerge ModelMarket Spec SpecUnits
  SpecOrder Sorter UnitFacts MarketOrder P2POrder MudaOrder OrderWitness Conform PlotWitness PropertiesUnits.

(** C64. Any other order of the bids has a function that tells where each bid went. *)
Theorem C64_moved_exists :
  forall bs bs' : list bid, Permutation bs bs' -> exists f, moved bs bs' f.
Proof. exact moved_exists. Qed.
Print Assumptions C64_moved_exists.
(** [Market.run] with the Huang auction merges bids of equal price first and so depends neither on the sort, *)
Theorem C64_huang_sort :
  forall (S1 S2 : sorter) (m : market) (smp : nat -> nat) (cnt : Z),
    market_run S1 m (AHuang smp cnt) = market_run S2 m (AHuang smp cnt).
Proof. exact market_sort. Qed.
Print Assumptions C64_huang_sort.
(** nor on the order of the bids: each bid trades the same quantity at the same price. *)
Theorem C64_huang_order :
  forall (S S' : sorter) (m m' : market) (smp smp' : nat -> nat) (cnt cnt' : Z),
    Permutation (bm_bids (mk_bm m)) (bm_bids (mk_bm m')) ->
    same_outcome (bm_bids (mk_bm m)) (bm_bids (mk_bm m')) (snd (market_run S m (AHuang smp cnt))) (snd (market_run S' m' (AHuang smp' cnt'))).
Proof. exact market_order. Qed.
Print Assumptions C64_huang_order.
(** two buyers at 7 and two at 5, in two orders: the seller at 1 sells to both buyers at 7 *)
Example C64_huang_example :
  bids_shown (snd (market_run SS (market_of [mkBid (qf 1 4) (qz 7) 9 true 0 true; mkBid (qz 1) (qz 5) 0 true 0 true; mkBid (qz 2) (qz 5) 1 true 0 true; mkBid (qz 1) (qz 1) 2 false 0 true; mkBid (qz 1) (qz 2) 3 false 0 true; mkBid (qf 3 4) (qz 7) 4 true 0 true]) (AHuang (fun _ => O) 0))) = Some [(3%nat, 1, 2); (0%nat, 1#4, 5); (5%nat, 3#4, 5)]%Q /\
  bids_shown (snd (market_run SS (market_of [mkBid (qf 3 4) (qz 7) 4 true 0 true; mkBid (qz 2) (qz 5) 1 true 0 true; mkBid (qz 1) (qz 1) 2 false 0 true; mkBid (qz 1) (qz 5) 0 true 0 true; mkBid (qf 1 4) (qz 7) 9 true 0 true; mkBid (qz 1) (qz 2) 3 false 0 true]) (AHuang (fun _ => O) 0))) = Some [(2%nat, 1, 2); (0%nat, 3#4, 5); (4%nat, 1#4, 5)]%Q.
Proof. vm_compute. auto. Qed.

(** p2p: what can happen for one order can happen for every other order, with the same trades in the same sequence. *)
Theorem C64_p2p_order :
  forall (S S' : sorter) (m m' : market) (f : nat -> nat),
    Permutation (bm_bids (mk_bm m)) (bm_bids (mk_bm m')) -> moved (bm_bids (mk_bm m)) (bm_bids (mk_bm m')) f ->
    (forall b, In b (bm_bids (mk_bm m)) -> 0 <= b_qty b) ->
    forall (c : Qc) (r : nat -> nat), exists r', renamed f (snd (market_run S m (AP2P c r))) (snd (market_run S' m' (AP2P c r'))).
Proof. exact p2p_moved. Qed.
Print Assumptions C64_p2p_order.
(** two buyers and a seller who serves one of them, in two orders: either buyer can be served *)
Example C64_p2p_example :
  bids_shown (snd (market_run SS (market_of [mkBid (qz 1) (qz 7) 0 true 0 true; mkBid (qz 1) (qz 5) 1 true 0 true; mkBid (qz 1) (qz 1) 2 false 0 true]) (AP2P (qf 1 2) (fun _ => 0%nat)))) = Some [(0%nat, 1, 4); (2%nat, 1, 4)]%Q /\
  bids_shown (snd (market_run SS (market_of [mkBid (qz 1) (qz 5) 1 true 0 true; mkBid (qz 1) (qz 7) 0 true 0 true; mkBid (qz 1) (qz 1) 2 false 0 true]) (AP2P (qf 1 2) (fun _ => 1%nat)))) = Some [(1%nat, 1, 4); (2%nat, 1, 4)]%Q.
Proof. vm_compute. auto. Qed.
(** MUDA, when the prices of each side differ: the same split into halves gives the same trades, prices and fees. *)
Theorem C64_muda_order :
  forall (S S' : sorter) (m m' : market) (f : nat -> nat),
    Permutation (bm_bids (mk_bm m)) (bm_bids (mk_bm m')) -> moved (bm_bids (mk_bm m)) (bm_bids (mk_bm m')) f ->
    prices_distinct (get_df (mk_bm m)) ->
    forall fl, exists fl', renamed f (snd (market_run S m (AMuda fl))) (snd (market_run S' m' (AMuda fl'))).
Proof. exact run_muda_moved. Qed.
Print Assumptions C64_muda_order.
(** With equal prices the earlier bid is served: no split gives the same outcome for the other order. *)
Theorem C64_muda_ties_refuted :
  exists (S : sorter) (m m' : market) (fl : list bool), compares_prices S /\ qty_pos (get_df (mk_bm m)) /\ price_nonneg (get_df (mk_bm m)) /\
    Permutation (bm_bids (mk_bm m)) (bm_bids (mk_bm m')) /\
    forall f fl', moved (bm_bids (mk_bm m)) (bm_bids (mk_bm m')) f -> ~ renamed f (snd (market_run S m (AMuda fl))) (snd (market_run S m' (AMuda fl'))).
Proof. exact muda_ties_order. Qed.
Print Assumptions C64_muda_ties_refuted.
(** two buyers at 5 in the left half: the one submitted first buys *)
Example C64_ties_example :
  bids_shown (snd (market_run SS tied (AMuda tied_flips))) = Some [(2%nat, 1, 3); (0%nat, 1, 3); (4%nat, 1, 3); (3%nat, 1, 3)]%Q /\
  bids_shown (snd (market_run SS tied' (AMuda tied_flips))) = Some [(2%nat, 1, 3); (0%nat, 1, 3); (4%nat, 1, 3); (3%nat, 1, 3)]%Q.
Proof. vm_compute. auto. Qed.
(** distinct prices: bids 0 and 3 are exchanged together with their halves *)
Example C64_muda_example :
  bids_shown (snd (market_run SS (market_of [mkBid (qz 1) (qz 6) 0 true 0 true; mkBid (qz 1) (qz 5) 1 true 0 true; mkBid (qz 1) (qz 1) 2 false 0 true; mkBid (qz 1) (qz 4) 3 true 0 true; mkBid (qz 1) (qz 2) 4 false 0 true]) (AMuda [true; true; true; false; false]))) =
    Some [(2%nat, 1, 3); (0%nat, 1, 3); (4%nat, 1, 7 # 2); (3%nat, 1, 7 # 2)]%Q /\
  bids_shown (snd (market_run SS (market_of [mkBid (qz 1) (qz 4) 3 true 0 true; mkBid (qz 1) (qz 5) 1 true 0 true; mkBid (qz 1) (qz 1) 2 false 0 true; mkBid (qz 1) (qz 6) 0 true 0 true; mkBid (qz 1) (qz 2) 4 false 0 true]) (AMuda [false; true; true; true; false]))) =
    Some [(2%nat, 1, 3); (3%nat, 1, 3); (4%nat, 1, 7 # 2); (0%nat, 1, 7 # 2)]%Q.
Proof. vm_compute. auto. Qed.
