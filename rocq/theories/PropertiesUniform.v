(** Properties C53 - C54: the uniform price mechanism of the documentation, p2p and truthfulness. *)
From Verif Require Import QcTac Num ModelBase ModelCurves ModelHuang ModelMuda ModelP2P ModelMarket ModelStats ModelUniform
  Spec SpecTrade SpecMuda SpecHuang SpecMarket SpecAlloc SpecStats Sorter Conform ConformDocs Solver LPFacts UniformTop UniformWitness.

(** C53. A run of the uniform price mechanism on a market with buyers and sellers: everything trades at
    one price, as much is bought as is sold, within the bids, nobody trades at a price worse than its bid. *)
Theorem C53_uniform_outcome :
  forall (S : sorter) (d : df) (b s : row) (tm : transmgr) (ex : extra), qty_nonneg d -> price_nonneg d -> labels_unique d ->
    In b d -> In s d -> buying b = true -> buying s = false -> uniform_run S d = Ok (tm, ex) ->
    exists c p, ex = XUniform (Fin c) (Fin p) /\ bought d (tm_trans tm) = c /\ sold d (tm_trans tm) = c /\
      find_competitive_price S d = Ok (Fin p) /\ (forall t, In t (tm_trans tm) -> t_price t = p) /\
      once (tm_trans tm) /\ refer d (tm_trans tm) /\ feasible d (tm_trans tm) /\ rational d (tm_trans tm).
Proof. exact uniform_outcome. Qed.
Print Assumptions C53_uniform_outcome.
(** [Market.run] with this mechanism returns its outcome and keeps it; on an error the market is unchanged *)
Theorem C53_uniform_market :
  forall (S : sorter) (m : market),
    (forall tm ex, uniform_run S (get_df (mk_bm m)) = Ok (tm, ex) -> market_run_uniform S m = (mkMarket (mk_bm m) tm ex, Ok (tm, ex))) /\
    (forall e, uniform_run S (get_df (mk_bm m)) = Err e -> market_run_uniform S m = (m, Err e)).
Proof. exact uniform_market. Qed.
Print Assumptions C53_uniform_market.
(** it trades the largest quantity that can be traded at one price; without one it raises *)
Theorem C53_uniform_runs :
  forall (S : sorter) (d : df) (b s : row), qty_pos d -> price_nonneg d -> asks_pos d ->
    In b d -> In s d -> buying b = true -> buying s = false ->
    (forall ps pb c, Marginal d ps pb c -> exists tm p, uniform_run S d = Ok (tm, XUniform (Fin c) (Fin p)) /\ ps <= p /\ p <= pb) /\
    ((forall ps pb c, ~ Marginal d ps pb c) -> uniform_run S d = Err TypeError).
Proof. exact uniform_runs_iff. Qed.
Print Assumptions C53_uniform_runs.
(** the market maker keeps nothing and no allocation whatsoever has a larger welfare *)
Theorem C53_uniform_welfare :
  forall (S : sorter) (d : df) (b s : row) (tm : transmgr) (ex : extra), qty_pos d -> price_nonneg d -> labels_unique d ->
    In b d -> In s d -> buying b = true -> buying s = false -> uniform_run S d = Ok (tm, ex) ->
    money true d (tm_trans tm) = money false d (tm_trans tm) /\
    0 < traded_surplus price d (tm_trans tm) /\
    (forall y, alloc_ok d y -> welfare d price y <= traded_surplus price d (tm_trans tm)).
Proof. exact uniform_welfare. Qed.
Print Assumptions C53_uniform_welfare.
Theorem C53_uniform_percentage :
  forall (S : sorter) (sv : solver) (d : df) (b s : row) (tm : transmgr) (ex : extra) rp, map lbl d = seq 0 (length d) -> qty_pos d -> price_nonneg d -> solver_ok sv ->
    In b d -> In s d -> buying b = true -> buying s = false -> uniform_run S d = Ok (tm, ex) ->
    percentage_welfare sv d (tm_trans tm) rp = Ok (Some 1).
Proof. exact uniform_percentage. Qed.
Print Assumptions C53_uniform_percentage.
(** no run of Huang, MUDA or p2p on the same bids creates more surplus *)
Theorem C53_uniform_at_least :
  forall (S : sorter) (d : df) (b s : row) (tm : transmgr) (ex : extra) (a : algo) tm' ex', map lbl d = seq 0 (length d) -> qty_pos d -> price_nonneg d ->
    In b d -> In s d -> buying b = true -> buying s = false -> uniform_run S d = Ok (tm, ex) ->
    op_ok (ORun a) -> run_algo S a d = Ok (tm', ex') ->
    traded_surplus price d (tm_trans tm') <= traded_surplus price d (tm_trans tm).
Proof. exact uniform_at_least. Qed.
Print Assumptions C53_uniform_at_least.
(** it is not truthful, and somebody that would gain at the price may be left out *)
Theorem C53_uniform_truthful_refuted :
  exists (S : sorter) (d d' : df) (u : Z) tm ex tm' ex', qty_pos d /\ price_nonneg d /\ price_nonneg d' /\ labels_unique d /\
    prices_distinct d /\ prices_distinct d' /\ asks_pos d /\
    (forall r r', In r d -> In r' d -> user r = u -> user r' = u -> r = r') /\ Forall2 (misprice u) d d' /\
    uniform_run S d = Ok (tm, ex) /\ uniform_run S d' = Ok (tm', ex') /\
    profit d u (tm_trans tm) < profit d u (tm_trans tm').
Proof. exact uniform_untruthful. Qed.
Print Assumptions C53_uniform_truthful_refuted.
Theorem C53_uniform_left_out_refuted :
  exists (S : sorter) (d : df) tm c p r, qty_pos d /\ price_nonneg d /\ labels_unique d /\ prices_distinct d /\ asks_pos d /\
    uniform_run S d = Ok (tm, XUniform c (Fin p)) /\ In r d /\ buying r = true /\ p < price r /\ traded_by (lbl r) (tm_trans tm) = 0.
Proof. exact uniform_left_out. Qed.
Print Assumptions C53_uniform_left_out_refuted.
(** docs/new_mechanism.ipynb: the profits printed there; a market where a seller is served in part;
    bids that only touch (buyers at 10 and 5, sellers at 1 and 5) raise *)
Example C53_example :
  power_profits (uniform_run SS (frame nb_power)) = [42275; 24375; 7500; 4215; 4025#2; 7500; 1875; 4500; 565; 0; 0]%Q /\
  show (uniform_run SS (frame [B (qz 2) (qz 10) 0; A 1 1 1; A (qz 3) (qz 2) 2])) =
    Some ([(0%nat, 2, 2, (-1)%Z, false); (1%nat, 1, 2, (-1)%Z, false); (2%nat, 1, 2, (-1)%Z, false)], SU (Some 2) (Some 2))%Q /\
  uniform_run SS (frame [B 1 (qz 10) 0; B 1 (qz 5) 1; A 1 1 2; A 1 (qz 5) 3]) = Err TypeError /\
  uniform_run SS (frame [B 1 (qz 10) 0; B 1 (qz 5) 1]) = Ok (tm_init, XEmpty).
Proof. vm_compute. auto. Qed.

(** C54. One buyer and one seller in p2p: they trade the smaller quantity at the weighted mean price,
    whatever the random draws; so a buyer that bids less (but not less than the ask) always gains. *)
Theorem C54_p2p_pair :
  forall (b s : bid) (c : Qc) (r : nat -> nat), b_buying b = true -> b_buying s = false -> 0 < b_qty b -> 0 < b_qty s -> b_price s <= b_price b ->
    exists tm ab as_, p2p_random (rows_from 0 [b; s]) c r = Ok (tm, XP2P [[(0, 1)%nat]]) /\
      tm_trans tm =
        [mkTrans 0 (qmin (b_qty b) (b_qty s)) (b_price b * c + (1 - c) * b_price s) 1 ab;
         mkTrans 1 (qmin (b_qty b) (b_qty s)) (b_price b * c + (1 - c) * b_price s) 0 as_].
Proof. exact pair_run. Qed.
Print Assumptions C54_p2p_pair.
Theorem C54_p2p_truthful_refuted :
  forall (b s : bid) (v c : Qc) (r : nat -> nat), b_buying b = true -> b_buying s = false -> 0 < b_qty b -> 0 < b_qty s ->
    b_user b <> b_user s -> 0 < c -> b_price s <= v -> v < b_price b ->
    let b' := mkBid (b_qty b) v (b_user b) true (b_time b) (b_div b) in
    exists tm ex tm' ex', p2p_random (rows_from 0 [b; s]) c r = Ok (tm, ex) /\ p2p_random (rows_from 0 [b'; s]) c r = Ok (tm', ex') /\
      profit (rows_from 0 [b; s]) (b_user b) (tm_trans tm) < profit (rows_from 0 [b; s]) (b_user b) (tm_trans tm').
Proof. exact p2p_pair_untruthful. Qed.
Print Assumptions C54_p2p_truthful_refuted.
Example C54_example :
  let d := frame [B 1 (qz 10) 0; A (qz 2) (qz 2) 1] in let d' := frame [B 1 (qz 3) 0; A (qz 2) (qz 2) 1] in
  match p2p_random d (qf 1 2) (fun k => k), p2p_random d' (qf 1 2) (fun k => k) with
  | Ok (t, _), Ok (t', _) => (this (profit d 0 (tm_trans t)), this (profit d 0 (tm_trans t'))) = (4, 15#2)%Q
  | _, _ => False
  end.
Proof. vm_compute. reflexivity. Qed.
