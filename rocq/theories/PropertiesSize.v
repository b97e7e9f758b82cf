(** Property C90: how large the result of a run can be. *)
From Verif Require Import QcTac Num ModelBase ModelCurves ModelHuang ModelMuda ModelP2P ModelMarket ModelRound ModelFloat Spec SpecTrade SpecRound Sorter Conform SizeTop.

(** C90. Peer to peer trading lasts at most one round fewer than there are bids, in a round there are at most as many meetings as buyers and
    as sellers, no pair meets twice and each meeting makes two transactions. *)
Theorem C90_rounds :
  forall (d : df) (c : Qc) (r : nat -> nat), map lbl d = seq 0 (length d) -> qty_nonneg d ->
  forall tm gtl, p2p_random d c r = Ok (tm, XP2P gtl) ->
    (length gtl <= length (buyers d) + length (sellers d) - 1)%nat /\ length (tm_trans tm) = (2 * length (concat gtl))%nat /\
    (length (concat gtl) <= length (buyers d) * length (sellers d))%nat /\
    (forall T, In T gtl -> (length T <= length (buyers d) /\ length T <= length (sellers d))%nat).
Proof. exact p2p_rounds. Qed.
Print Assumptions C90_rounds.
(** Fewer of the meetings than there are bids end with a trade, whatever the rounding of the arithmetic. *)
Theorem C90_trades :
  forall (R : rounding) (A : adder R) (d : df) (c : Qc) (r : nat -> nat), map lbl d = seq 0 (length d) -> qty_nonneg d -> machine_qty R d ->
  forall tm ex, p2p_random_r R A d c r = Ok (tm, ex) ->
    (length (filter (fun t => qltb 0 (t_qty t)) (tm_trans tm)) <= 2 * (length d - 1))%nat.
Proof. exact p2p_size. Qed.
Print Assumptions C90_trades.
(** A result with at most one transaction per bid is not longer than the table; this is so for the uniform price mechanism too (C53). *)
Theorem C90_once : forall (d : df) (tl : list trans), refer d tl -> once tl -> (length tl <= length d)%nat.
Proof. exact once_length. Qed.
Print Assumptions C90_once.
(** The runs of a market. *)
Theorem C90_market :
  forall (S : sorter) (m : market) (a : algo) (tm : transmgr) (ex : extra), let d := get_df (mk_bm m) in qty_nonneg d -> snd (market_run S m a) = Ok (tm, ex) ->
  match a with
  | AHuang _ _ | AMuda _ => (length (tm_trans tm) <= length d)%nat
  | AP2P _ _ => (length (tm_trans tm) <= 2 * (length (buyers d) * length (sellers d)) /\ length (filter (fun t => qltb 0 (t_qty t)) (tm_trans tm)) <= 2 * (length d - 1))%nat
  | AUnknown => False
  end.
Proof. exact market_size. Qed.
Print Assumptions C90_market.

(** The bounds are reached: a buyer of three units and three sellers of one unit meet in three rounds and trade in each. *)
Example C90_run : let d := frame [B (qz 3) (qz 9) 0; A 1 1 1; A 1 (qz 2) 2; A 1 (qz 3) 3] in
  match p2p_random d (qf 1 2) (fun _ => 0%nat) with
  | Ok (tm, XP2P gtl) => (length gtl, length (tm_trans tm), length (filter (fun t => qltb 0 (t_qty t)) (tm_trans tm))) = (3, 6, 6)%nat
  | _ => False
  end.
Proof. vm_compute. reflexivity. Qed.
(** With prices that do not meet all four pairs of two buyers and two sellers are tried. *)
Example C90_no_trade : let d := frame [B 1 1 0; A 1 (qz 4) 1; B 1 (qz 2) 2; A 1 (qz 3) 3] in
  match p2p_random d (qf 1 2) (fun _ => 0%nat) with
  | Ok (tm, XP2P gtl) => (length gtl, length (tm_trans tm), length (filter (fun t => qltb 0 (t_qty t)) (tm_trans tm))) = (2, 8, 0)%nat
  | _ => False
  end.
Proof. vm_compute. reflexivity. Qed.
