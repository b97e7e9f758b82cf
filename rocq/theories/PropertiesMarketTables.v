(** Property C74: Market.run on stored bids whose quantities and prices can have any sign. *)
From Verif Require Import QcTac Num ModelBase ModelCurves ModelHuang ModelMerge ModelMarket Spec SpecTrade SpecMerge SpecHuang SpecSign SpecShort
  Sorter Conform MarketZero MarketTop.

(** Run with "huang", a market without buyers or without sellers gets the empty result unless
    all bids are bids to buy at one price (C84); otherwise TypeError is raised if, with
    rounded prices, some bid and the bids that are at least as good add up to less than 0; otherwise the auction of the merged
    bids returns, and the run fails exactly if one of its transactions is on a merged bid without quantity. *)
Theorem C74_huang_raises :
  forall (S : sorter) (m : market) (smp : nat -> nat) (cnt : Z),
    let d := get_df (mk_bm m) in let rd := map (rounded 5) d in
    (~ two_sided d -> ~ lone_price (np_round 5) d -> snd (market_run S m (AHuang smp cnt)) = Ok (tm_init, XEmpty)) /\
    (two_sided d -> short rd -> snd (market_run S m (AHuang smp cnt)) = Err TypeError) /\
    (two_sided d -> ~ short rd -> exists md mp c tm0 ex, merge_same_price 5 smp d cnt = Ok (md, mp, c) /\ huang_auction S md = Ok (tm0, ex) /\
       ((exists t r, In t (tm_trans tm0) /\ In r md /\ lbl r = t_bid t /\ qty r = 0) -> snd (market_run S m (AHuang smp cnt)) = Err NaNProduced) /\
       ((forall t r, In t (tm_trans tm0) -> In r md -> lbl r = t_bid t -> qty r <> 0) -> exists tm, snd (market_run S m (AHuang smp cnt)) = Ok (tm, ex))).
Proof. exact market_huang_any. Qed.
Print Assumptions C74_huang_raises.
(** If no quantity is negative, whatever a run returns is balanced and feasible, has one price per side, and only buyers who bid
    less than 0 can lose. *)
Theorem C74_huang_sound :
  forall (S : sorter) (m : market) (smp : nat -> nat) (cnt : Z) tm ex,
    let d := get_df (mk_bm m) in qty_nonneg d -> snd (market_run S m (AHuang smp cnt)) = Ok (tm, ex) ->
    bought d (tm_trans tm) = sold d (tm_trans tm) /\ once (tm_trans tm) /\ refer d (tm_trans tm) /\ feasible d (tm_trans tm) /\ nearly_rational d (tm_trans tm) /\
    (tm_trans tm <> [] -> exists ps pb q, ex = XHuang ps pb q /\ q = bought d (tm_trans tm) /\ ps < pb /\
       forall t r, In t (tm_trans tm) -> In r d -> lbl r = t_bid t -> t_price t = if buying r then pb else ps).
Proof. exact market_huang_sound. Qed.
Print Assumptions C74_huang_sound.
(** If moreover asks are positive and no price is negative, the run of a market that is not only bids to buy at one price (C84) fails exactly if there is trade and one of the winners
    has, with the bids at the same rounded price, no quantity. *)
Theorem C74_huang_zero :
  forall (S : sorter) (m : market) (smp : nat -> nat) (cnt : Z),
    let d := get_df (mk_bm m) in qty_nonneg d -> price_nonneg d -> asks_pos (map (rounded 5) d) ->
    (zero_wins d -> snd (market_run S m (AHuang smp cnt)) = Err NaNProduced) /\
    (~ zero_wins d -> ~ lone_price (np_round 5) d -> exists tm ex, snd (market_run S m (AHuang smp cnt)) = Ok (tm, ex)).
Proof. exact market_huang_zero. Qed.
Print Assumptions C74_huang_zero.
(** So anybody can make a market that trades fail, by adding a bid for nothing at a winning price that nobody else names. *)
Theorem C74_zero_bid :
  forall (S : sorter) (m : market) (smp : nat -> nat) (cnt : Z) (b : bid) tm ps pb q,
    let d := get_df (mk_bm m) in let x := rounded 5 (row_of (length (bm_bids (mk_bm m))) b) in
    qty_nonneg d -> price_nonneg d -> asks_pos (map (rounded 5) d) ->
    snd (market_run S m (AHuang smp cnt)) = Ok (tm, XHuang ps pb q) -> tm_trans tm <> [] ->
    b_qty b = 0 -> 0 <= b_price b -> wins ps pb x = true -> (buying x = false -> 0 < price x) ->
    (forall y, In y (map (rounded 5) d) -> buying y = buying x -> price y <> price x) ->
    forall S' smp' cnt', snd (market_run S' (fst (accept_bid m b)) (AHuang smp' cnt')) = Err NaNProduced.
Proof. exact huang_zero_bid. Qed.
Print Assumptions C74_zero_bid.
(** Run with "p2p" no market ever fails; and a run that fails leaves the market as it was. *)
Theorem C74_p2p :
  forall (S : sorter) (m : market) (c : Qc) (r : nat -> nat), exists tm ex, snd (market_run S m (AP2P c r)) = Ok (tm, ex).
Proof. exact market_p2p. Qed.
Print Assumptions C74_p2p.
Theorem C74_unchanged :
  forall (S : sorter) (m : market) (a : algo) (e : exn), snd (market_run S m a) = Err e -> fst (market_run S m a) = m.
Proof. exact market_same. Qed.
Print Assumptions C74_unchanged.

(** Two buyers and two sellers trade; with a buyer of nothing at the price 10 the run fails; at the price 4, which does not win,
    or at the price 9 of another buyer, it does not. *)
Definition stall (b : list bid) : market :=
  fold_left (fun m b => fst (accept_bid m b)) (([B (qz 1) (qz 9) 0; B (qz 1) (qz 8) 1; A (qz 1) (qz 1) 2; A (qz 5) (qz 6) 3] ++ b)%list) market_init.
Example C74_example :
  show (snd (market_run SS (stall []) (AHuang (fun _ => 0%nat) 0))) = Some ([(2%nat, 1, 6, (-1)%Z, false); (0%nat, 1, 8, (-1)%Z, false)], SH 6 8 1)%Q /\
  snd (market_run SS (stall [B 0 (qz 10) 4]) (AHuang (fun _ => 0%nat) 0)) = Err NaNProduced /\
  show (snd (market_run SS (stall [B 0 (qz 4) 4]) (AHuang (fun _ => 0%nat) 0))) = Some ([(2%nat, 1, 6, (-1)%Z, false); (0%nat, 1, 8, (-1)%Z, false)], SH 6 8 1)%Q /\
  show (snd (market_run SS (stall [B 0 (qz 9) 4]) (AHuang (fun _ => 0%nat) 0))) =
    Some ([(2%nat, 1, 6, (-1)%Z, false); (0%nat, 1, 8, (-1)%Z, false); (4%nat, 0, 8, (-1)%Z, false)], SH 6 8 1)%Q /\
  snd (market_run SS (stall [B (qz (-1)) (qz 10) 4]) (AHuang (fun _ => 0%nat) 0)) = Err TypeError.
Proof. vm_compute. repeat split. Qed.
