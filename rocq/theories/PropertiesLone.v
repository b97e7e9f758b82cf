(** Property C84: Market.run("huang") on a market with bids to buy at a single price. *)
From Verif Require Import QcTac Num ModelBase ModelCurves ModelHuang ModelMuda ModelP2P ModelMerge ModelMarket ModelRound ModelFloat ModelRoundMarket
  Spec SpecMerge SpecMarket SpecRound SpecRoundMarket Sorter Conform RoundFacts RoundTop LoneTop.

(** KeyError is raised exactly if there are bids, all of them to buy and all at one price after rounding to five decimals. *)
Theorem C84_exactly :
  forall (S : sorter) (m : market) (smp : nat -> nat) (cnt : Z),
    snd (market_run S m (AHuang smp cnt)) = Err KeyError <-> lone_price (np_round 5) (get_df (mk_bm m)).
Proof. exact lone_exact. Qed.
Print Assumptions C84_exactly.
(** The market is left as it was. *)
Theorem C84_unchanged :
  forall (S : sorter) (m : market) (smp : nat -> nat) (cnt : Z),
    lone_price (np_round 5) (get_df (mk_bm m)) -> market_run S m (AHuang smp cnt) = (m, Err KeyError).
Proof. exact lone_market. Qed.
Print Assumptions C84_unchanged.
(** The documentation (market.py:45-47) says that a market in which everyone is buying gets an empty result: false for a single
    bid to buy, whatever its quantity and price, ... *)
Theorem C84_empty_result_refuted :
  forall (S : sorter) (smp : nat -> nat) (cnt : Z) (q p : Qc) (u : Z),
    snd (market_run S (fst (accept_bid market_init (B q p u))) (AHuang smp cnt)) = Err KeyError.
Proof. exact lone_single. Qed.
Print Assumptions C84_empty_result_refuted.
(** ... and this is the only exception: any other market with one side, and any other mechanism, gives the empty result. *)
Theorem C84_one_sided :
  forall (S : sorter) (m : market) (a : algo), a <> AUnknown -> one_sided (get_df (mk_bm m)) ->
    snd (market_run S m a) = Ok (tm_init, XEmpty) \/
    snd (market_run S m a) = Err KeyError /\ lone_price (np_round 5) (get_df (mk_bm m)) /\ exists smp cnt, a = AHuang smp cnt.
Proof. exact lone_one_sided. Qed.
Print Assumptions C84_one_sided.
(** Without buyers no mechanism fails. *)
Theorem C84_sellers :
  forall (S : sorter) (m : market) (a : algo), a <> AUnknown -> (forall r, In r (get_df (mk_bm m)) -> buying r = false) ->
    snd (market_run S m a) = Ok (tm_init, XEmpty).
Proof. exact lone_sellers. Qed.
Print Assumptions C84_sellers.
(** An ask, or a bid at another rounded price, repairs such a market; a bid at the same rounded price does not. *)
Theorem C84_one_more :
  forall (S : sorter) (m : market) (b : bid) (smp : nat -> nat) (cnt : Z),
    let d := get_df (mk_bm m) in lone_price (np_round 5) d ->
    (b_buying b = true -> forall r, In r d -> np_round 5 (b_price b) <> np_round 5 (price r)) ->
    forall e, snd (market_run S (fst (accept_bid m b)) (AHuang smp cnt)) = Err e -> e <> KeyError.
Proof. exact lone_repaired. Qed.
Print Assumptions C84_one_more.
Theorem C84_same_price :
  forall (S : sorter) (m : market) (b : bid) (smp : nat -> nat) (cnt : Z),
    let d := get_df (mk_bm m) in lone_price (np_round 5) d -> b_buying b = true ->
    (forall r, In r d -> np_round 5 (b_price b) = np_round 5 (price r)) ->
    snd (market_run S (fst (accept_bid m b)) (AHuang smp cnt)) = Err KeyError.
Proof. exact lone_spread. Qed.
Print Assumptions C84_same_price.
(** The same in rounded arithmetic. *)
Theorem C84_rounded :
  forall (R : rounding) (A G : adder R) (S : sorter) (smp : nat -> nat) (cnt : Z) (d : df),
    map lbl d = seq 0 (length d) -> lone_price (np_round_r R 5) d -> run_huang_r R A G S smp cnt d = Err KeyError.
Proof. exact lone_rounded. Qed.
Print Assumptions C84_rounded.

(** two bids whose prices differ in the sixth decimal fail; with a third at another price, or a seller, the run returns; two sellers return *)
Definition lone2 := fst (accept_bid (fst (accept_bid market_init (B 1 (qf 2000001 1000000) 0))) (B 1 (qz 2) 1)).
Example C84_example :
  let run m := snd (market_run SS m (AHuang (fun _ => 0%nat) 0)) in
  run lone2 = Err KeyError /\ run (fst (accept_bid lone2 (B 1 (qz 3) 2))) = Ok (tm_init, XEmpty) /\
  (exists x, run (fst (accept_bid lone2 (A 1 1 2))) = Ok x) /\
  run (fst (accept_bid (fst (accept_bid market_init (A 1 (qz 2) 0))) (A 1 (qz 2) 1))) = Ok (tm_init, XEmpty) /\
  snd (market_run SS lone2 (AMuda [])) = Ok (tm_init, XEmpty).
Proof. split; [vm_compute; reflexivity|]. split; [vm_compute; reflexivity|]. split; [eexists; vm_compute; reflexivity|]. split; vm_compute; reflexivity. Qed.
