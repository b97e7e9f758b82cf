(** Property C69: what adding and removing bids can change. *)
From Verif Require Import QcTac Num ModelBase ModelCurves ModelHuang ModelMuda ModelStats Spec SpecTrade SpecMuda SpecStats SpecAlloc SpecHuang
  Sorter Conform Solver BidChange BidAdd.

(** C69. Bids of the Huang auction that are worse than the price setters may leave: prices, quantity and transactions stay exactly the same. *)
Theorem C69_losers_leave :
  forall (S S' : sorter) (d : df) (keep : row -> bool) tm ps pb q, qty_pos d -> price_nonneg d -> prices_distinct d -> asks_pos d ->
    (forall r, In r d -> (if buying r then pb <= price r else price r <= ps) -> keep r = true) ->
    huang_auction S d = Ok (tm, XHuang ps pb q) ->
    exists tm', huang_auction S' (filter keep d) = Ok (tm', XHuang ps pb q) /\ tm_trans tm' = tm_trans tm.
Proof. exact huang_leave. Qed.
Print Assumptions C69_losers_leave.

(** C69. The two prices and the set of winners determine the outcome of the Huang auction. *)
Theorem C69_determined :
  forall (S S' : sorter) (d d' : df) tm tm' ps pb q q', qty_nonneg d -> price_nonneg d -> prices_distinct d ->
    qty_nonneg d' -> price_nonneg d' -> prices_distinct d' ->
    huang_auction S d = Ok (tm, XHuang ps pb q) -> huang_auction S' d' = Ok (tm', XHuang ps pb q') ->
    Permutation (filter (wins ps pb) d) (filter (wins ps pb) d') -> tm_trans tm' = tm_trans tm /\ q' = q.
Proof. exact huang_determined. Qed.
Print Assumptions C69_determined.

(** C69. With more bids of one side the competitive quantity does not fall; more buyers never lower the price of the sellers, more
    sellers never raise the price of the buyers. *)
Theorem C69_one_side :
  forall (S S' : sorter) (d l : df) tm ps pb q tm' ps' pb' q' (side : bool), qty_pos d -> price_nonneg d -> qty_pos l -> price_nonneg l ->
    (forall r, In r l -> buying r = side) ->
    huang_auction S d = Ok (tm, XHuang ps pb q) -> huang_auction S' (d ++ l) = Ok (tm', XHuang ps' pb' q') ->
    (exists c c', Marginal d ps pb c /\ Marginal (d ++ l) ps' pb' c' /\ c <= c') /\ if side then ps <= ps' else pb' <= pb.
Proof. exact huang_more. Qed.
Print Assumptions C69_one_side.

Example C69_example :
  let d := [B (qz 2) (qz 9) 0; B (qz 1) (qz 8) 1; A (qz 2) (qz 1) 3; A (qz 2) (qz 3) 4] in
  let prices := fun l => match huang_auction SS (frame l) with Ok (tm, XHuang ps pb q) => map this [ps; pb; q] | _ => [] end in
  prices d = [3; 8; 2]%Q /\ prices (d ++ [B (qz 1) (qz 2) 5; A (qz 1) (qz 9) 6]) = [3; 8; 2]%Q /\ prices (d ++ [B (qz 2) (qz 7) 5]) = [3; 7; 2]%Q.
Proof. vm_compute. auto. Qed.

(** C69. The largest volume and the largest welfare never fall when bids are added. *)
Theorem C69_maximum_volume :
  forall (sv : solver) (d l : df) v vars v' vars', map lbl (d ++ l) = seq 0 (length (d ++ l)) -> qty_nonneg (d ++ l) -> solver_ok sv ->
    maximum_traded_volume sv d = Ok (Some (v, vars)) -> maximum_traded_volume sv (d ++ l) = Ok (Some (v', vars')) ->
    v <= v' /\ v' <= v + qsumf qty l.
Proof. exact (fun sv d l v vars v' vars' Hl Hq Sv E E' => conj (optimum_volume_grows sv d l v vars v' vars' Hl Hq Sv E E') (optimum_volume_bound sv d l v vars v' vars' Hl Hq Sv E E')). Qed.
Print Assumptions C69_maximum_volume.

(** C69. The welfare grows by at most what the new bids would gain if they traded all they want at a clearing price of the old bids. *)
Theorem C69_maximum_welfare :
  forall (sv : solver) rp (d l : df) v vars rp1 v' vars' rp2, map lbl (d ++ l) = seq 0 (length (d ++ l)) -> qty_nonneg (d ++ l) -> solver_ok sv ->
    maximum_aggregated_utility sv d rp = Ok (Some (v, vars), rp1) -> maximum_aggregated_utility sv (d ++ l) rp = Ok (Some (v', vars'), rp2) ->
    v <= v' /\ exists p, clearing d (worth rp) p /\ v' <= v + surplus l (worth rp) p.
Proof.
  exact (fun sv rp d l v vars rp1 v' vars' rp2 Hl Hq Sv E E' =>
    conj (optimum_welfare_grows sv rp d l v vars rp1 v' vars' rp2 Hl Hq Sv E E') (optimum_welfare_bound sv rp d l v vars rp1 v' vars' rp2 Hl Hq Sv E E')).
Qed.
Print Assumptions C69_maximum_welfare.

Example C69_optima_example :
  let best := fun l => (match maximum_traded_volume fm_solver (frame l) with Ok (Some (v, _)) => Some (this v) | _ => None end,
                        match maximum_aggregated_utility fm_solver (frame l) None with Ok (Some (v, _), _) => Some (this v) | _ => None end) in
  best [B (qz 2) (qz 9) 0; A (qz 1) (qz 1) 1] = (Some 1%Q, Some 8%Q) /\ best [B (qz 2) (qz 9) 0; A (qz 1) (qz 1) 1; A (qz 3) (qz 4) 2] = (Some 2%Q, Some 13%Q).
Proof. vm_compute. auto. Qed.

(** C69, refuted for the competitive price: one more buyer can lower it. *)
Theorem C69_price_refuted :
  exists (bs : list bid) (b : bid) p p', b_buying b = true /\ qty_pos (frame (bs ++ [b])) /\ price_nonneg (frame (bs ++ [b])) /\
    prices_distinct (frame (bs ++ [b])) /\
    find_competitive_price SS (frame bs) = Ok (Fin p) /\ find_competitive_price SS (frame (bs ++ [b])) = Ok (Fin p') /\ p' < p.
Proof. exact price_falls. Qed.
Print Assumptions C69_price_refuted.

(** C69, refuted for the trade of the Huang auction: one more buyer can stop all trade. *)
Theorem C69_trade_refuted :
  exists (bs : list bid) (b : bid) tm ps pb q tm' ps' pb' q', b_buying b = true /\ qty_pos (frame (bs ++ [b])) /\
    price_nonneg (frame (bs ++ [b])) /\ prices_distinct (frame (bs ++ [b])) /\
    huang_auction SS (frame bs) = Ok (tm, XHuang ps pb q) /\ huang_auction SS (frame (bs ++ [b])) = Ok (tm', XHuang ps' pb' q') /\
    0 < bought (frame bs) (tm_trans tm) /\ tm_trans tm' = [].
Proof. exact trade_falls. Qed.
Print Assumptions C69_trade_refuted.
