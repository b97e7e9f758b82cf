(** C65: prices may be negative.  C66: all prices raised by the same amount. *)
From Verif Require Import QcTac Num ModelBase ModelCurves ModelHuang ModelMuda ModelP2P Spec SpecTrade SpecMuda SpecSign SpecHuang SpecUnits
  Sorter SignFacts RaiseMech SignWitness Conform.

(** C65. Nothing is assumed about the signs of the prices.  The Huang auction returns; *)
Theorem C65_huang_total :
  forall (S : sorter) (d : df), qty_nonneg d -> exists tm ex, huang_auction S d = Ok (tm, ex).
Proof. exact huang_any_total. Qed.
Print Assumptions C65_huang_total.
(** it is balanced and feasible, has one price per side, the price of the buyers is higher, the price of the sellers is the one
    of an ask, the price of the buyers the one of a bid or 0, and only buyers who bid less than 0 can lose, by paying 0; *)
Theorem C65_huang_summary :
  forall (S : sorter) (d : df), qty_nonneg d -> labels_unique d -> forall tm ex, huang_auction S d = Ok (tm, ex) ->
    bought d (tm_trans tm) = sold d (tm_trans tm) /\ once (tm_trans tm) /\ refer d (tm_trans tm) /\
    feasible d (tm_trans tm) /\ nearly_rational d (tm_trans tm) /\
    (tm_trans tm <> [] -> exists ps pb q, ex = XHuang ps pb q /\ q = bought d (tm_trans tm)) /\
    (forall ps pb q, ex = XHuang ps pb q -> ps < pb /\
       (forall t r, In t (tm_trans tm) -> In r d -> lbl r = t_bid t -> t_price t = if buying r then pb else ps) /\
       (exists rs, In rs d /\ buying rs = false /\ price rs = ps) /\
       (pb = 0 \/ exists rb, In rb d /\ buying rb = true /\ price rb = pb)).
Proof. exact huang_any_summary. Qed.
Print Assumptions C65_huang_summary.
(** nobody loses if the prices of one side are not negative; *)
Theorem C65_huang_rational :
  forall (S : sorter) (d : df), qty_nonneg d -> labels_unique d -> forall tm ex, huang_auction S d = Ok (tm, ex) ->
    (forall r, In r d -> buying r = true -> 0 <= price r) \/ (forall r, In r d -> buying r = false -> 0 <= price r) ->
    rational d (tm_trans tm).
Proof. exact huang_any_rational. Qed.
Print Assumptions C65_huang_rational.
(** the auctioneer does not pay; *)
Theorem C65_huang_budget :
  forall (S : sorter) (d : df), qty_nonneg d -> labels_unique d -> forall tm ex, huang_auction S d = Ok (tm, ex) ->
    qsumf (fun t => t_qty t * t_price t) (filter (on_side false d) (tm_trans tm)) <=
    qsumf (fun t => t_qty t * t_price t) (filter (on_side true d) (tm_trans tm)).
Proof. exact huang_any_budget. Qed.
Print Assumptions C65_huang_budget.
Example C65_huang_example :
  show (huang_auction SS (frame [B (qz 1) (qz 3) 0; B (qz 2) (qz (-2)) 1; A (qz 1) (qz (-4)) 2; A (qz 1) (qz (-3)) 3; A (qz 1) (qz (-1)) 4])) =
    Some ([(2%nat, 1, -3, (-1)%Z, false); (0%nat, 1, -2, (-1)%Z, false)], SH (-3) (-2) 1)%Q.
Proof. vm_compute. reflexivity. Qed.
(** but with negative prices on both sides a buyer can lose. *)
Theorem C65_huang_rational_refuted :
  exists (S : sorter) (d : df) tm ex, qty_pos d /\ labels_unique d /\ huang_auction S d = Ok (tm, ex) /\ ~ rational d (tm_trans tm).
Proof. exact huang_negative. Qed.
Print Assumptions C65_huang_rational_refuted.
(** bid 1 is at -2 and pays 0 *)
Example C65_loss_example :
  show (huang_auction SS (frame [B (qz 1) (qz 3) 0; B (qz 2) (qz (-2)) 1; A (qz 1) (qz (-4)) 2; A (qz 1) (qz (-3)) 3; A (qz 3) (qz (-1)) 4])) =
    Some ([(2%nat, 1, -1, (-1)%Z, false); (3%nat, 1, -1, (-1)%Z, false); (0%nat, 1 # 2, 0, (-1)%Z, false); (1%nat, 3 # 2, 0, (-1)%Z, false)], SH (-1) 0 2)%Q.
Proof. vm_compute. reflexivity. Qed.

(** The price of a half of MUDA is infinite or at least the price of an ask, and not above every bid and 0; *)
Theorem C65_price :
  forall (S : sorter) (d : df), qty_nonneg d -> find_competitive_price S d = Ok PInf \/
    exists p rs, find_competitive_price S d = Ok (Fin p) /\ In rs d /\ buying rs = false /\ price rs <= p /\
      (p <= 0 \/ exists rb, In rb d /\ buying rb = true /\ p <= price rb).
Proof. exact price_any. Qed.
Print Assumptions C65_price.
(** it can be above every bid. *)
Theorem C65_price_refuted :
  exists (S : sorter) (d : df) p, qty_pos d /\ labels_unique d /\ find_competitive_price S d = Ok (Fin p) /\
    forall r, In r d -> buying r = true -> price r < p.
Proof. exact price_negative. Qed.
Print Assumptions C65_price_refuted.
Example C65_price_example :
  match find_competitive_price SS (frame [B (qz 1) (qz (-2)) 0; A (qz 1) (qz (-4)) 1; A (qz 3) (qz (-1)) 2]) with Ok p => show_num p = Some 0%Q | _ => False end.
Proof. vm_compute. reflexivity. Qed.
(** MUDA raises the exceptions of C25 and no others. *)
Theorem C65_muda_not_implemented :
  forall (S : sorter) (d : df) (fl : list bool), qty_nonneg d -> labels_unique d -> muda S d fl = Err NotImplementedError <-> repeated_price d.
Proof. exact muda_any_not_implemented. Qed.
Print Assumptions C65_muda_not_implemented.
Theorem C65_muda_errors :
  forall (S : sorter) (d : df) (fl : list bool), qty_nonneg d -> labels_unique d -> forall e, muda S d fl = Err e -> e = NotImplementedError \/ e = IndexError.
Proof. exact muda_any_err. Qed.
Print Assumptions C65_muda_errors.
Theorem C65_muda_total :
  forall (S : sorter) (d : df) (fl : list bool), qty_nonneg d -> labels_unique d -> ~ repeated_price d ->
    (forall r, In r d -> (0 <= user r)%Z /\ (user r < Z.of_nat (length (nodup Z.eq_dec (map user d))))%Z) ->
    exists tm ex, muda S d fl = Ok (tm, ex).
Proof. exact muda_any_total. Qed.
Print Assumptions C65_muda_total.

(** C66. If all asks are positive before and after all prices are raised by [c], the Huang auction and MUDA give the
    same trades at prices raised by [c], and MUDA the same fees or the same exception. *)
Theorem C66_huang_raised :
  forall (c : Qc) (S : sorter), compares_prices S -> forall d : df, qty_nonneg d -> asks_pos d -> asks_pos (raised c d) ->
    huang_auction S (raised c d) = result_raised c (huang_auction S d).
Proof. exact huang_raised. Qed.
Print Assumptions C66_huang_raised.
Theorem C66_muda_raised :
  forall (c : Qc) (S : sorter), compares_prices S -> forall (d : df) (fl : list bool), qty_nonneg d -> asks_pos d -> asks_pos (raised c d) ->
    muda S (raised c d) fl = result_raised c (muda S d fl).
Proof. exact muda_raised. Qed.
Print Assumptions C66_muda_raised.
(** lowered by 3/2, so that some bids become negative *)
Example C66_muda_example :
  let d := frame [B (qz 1) (qz 9) 0; B (qz 1) (qz 8) 1; A (qz 1) (qz 2) 2; B (qz 1) (qz 1) 3; A (qz 1) (qz 4) 4; B (qz 1) (qz 7) 5] in
  let fl := [true; true; true; false; false; false] in
  show (muda SS d fl) = Some ([(2%nat, 1, 11 # 2, (-1)%Z, false); (0%nat, 1, 11 # 2, (-1)%Z, false); (4%nat, 1, 11 # 2, (-1)%Z, false); (5%nat, 1, 11 # 2, (-1)%Z, false)],
    SM [0; 1; 2]%nat [3; 4; 5]%nat (Some (11 # 2)) (Some (11 # 2)) [5 # 2; 0; 0; 0; 0; 0])%Q /\
  show (muda SS (raised (qf (-3) 2) d) fl) = Some ([(2%nat, 1, 4, (-1)%Z, false); (0%nat, 1, 4, (-1)%Z, false); (4%nat, 1, 4, (-1)%Z, false); (5%nat, 1, 4, (-1)%Z, false)],
    SM [0; 1; 2]%nat [3; 4; 5]%nat (Some 4) (Some 4) [5 # 2; 0; 0; 0; 0; 0])%Q.
Proof. vm_compute. split; reflexivity. Qed.
(** P2P does so for all prices, except that meetings without trade keep the price 0. *)
Theorem C66_p2p_raised :
  forall (c : Qc) (d : df) (pc : Qc) (r : nat -> nat),
    match p2p_random d pc r, p2p_random (raised c d) pc r with
    | Ok (tm, ex), Ok (tm', ex') => ex' = ex /\ n_trans tm' = n_trans tm /\ Forall2 (deal_raised c) (tm_trans tm) (tm_trans tm')
    | Err e, Err e' => e' = e
    | _, _ => False
    end.
Proof. exact p2p_raised. Qed.
Print Assumptions C66_p2p_raised.
Example C66_p2p_example :
  let d := frame [B (qz 1) (qz 1) 0; A (qz 1) (qz 0) 1; A (qz 1) (qz 2) 2] in
  show (p2p_random (raised (qz (-4)) d) (qf 1 2) (fun _ => 1%nat)) =
    Some ([(0%nat, 0, 0, 2%Z, true); (2%nat, 0, 0, 0%Z, true); (0%nat, 1, -7 # 2, 1%Z, false); (1%nat, 1, -7 # 2, 0%Z, false)], SP [[(0%nat, 2%nat)]; [(0%nat, 1%nat)]])%Q.
Proof. vm_compute. reflexivity. Qed.
(** With asks at 0 it is false for the Huang auction and for MUDA: nothing trades, or less, until the prices are raised. *)
Theorem C66_huang_raised_refuted :
  exists (S : sorter) (d : df) (c : Qc), compares_prices S /\ qty_pos d /\ price_nonneg d /\ labels_unique d /\ 0 < c /\
    huang_auction S (raised c d) <> result_raised c (huang_auction S d).
Proof. exact huang_raise_zero. Qed.
Print Assumptions C66_huang_raised_refuted.
Theorem C66_muda_raised_refuted :
  exists (S : sorter) (d : df) (fl : list bool) (c : Qc), compares_prices S /\ qty_pos d /\ price_nonneg d /\ labels_unique d /\ 0 < c /\
    muda S (raised c d) fl <> result_raised c (muda S d fl).
Proof. exact muda_raise_zero. Qed.
Print Assumptions C66_muda_raised_refuted.
Example C66_free_example :
  let d := frame [B (qz 1) (qz 5) 0; B (qz 1) (qz 3) 1; A (qz 1) (qz 0) 2; A (qz 2) (qz 0) 3] in
  show (huang_auction SS d) = Some ([], SE) /\
  show (huang_auction SS (raised (qz 1) d)) = Some ([(2%nat, 1, 1, (-1)%Z, false); (0%nat, 1, 4, (-1)%Z, false)], SH 1 4 1)%Q.
Proof. vm_compute. split; reflexivity. Qed.
