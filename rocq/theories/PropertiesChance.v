(** Property C80: the chances of the peer to peer mechanism. *)
From Verif Require Import QcTac Num ModelBase ModelHuang ModelP2P ModelMarket Spec SpecTrade SpecP2P SpecOrder SpecChance
  Sorter Conform P2PSchedule PlotWitness ChanceP2P ChanceRound ChanceOrder ChanceTop ChanceMoney.

(** C80. Every random choice takes one of [M] equally likely values, where [M] can be shared out fairly among any number of
    candidate pairs.  Each finished list of rounds is the outcome with the chance that is the product, over its meetings, of
    one over the number of pairs that could have been drawn. *)
Theorem C80_law :
  forall (d : df) (c : Qc), map lbl d = seq 0 (length d) -> qty_nonneg d -> forall M, fair M (pairs_count d) ->
  forall gtl tl w K, Chance d c gtl tl w -> Stopped d gtl tl -> (pairs_count d <= K)%nat ->
    share M K (p2p_random d c) (gave gtl) = w.
Proof. exact p2p_law_count. Qed.
Print Assumptions C80_law.
Theorem C80_exists :
  forall (d : df) (c : Qc), map lbl d = seq 0 (length d) -> forall gtl tl, Schedule d c gtl tl -> exists w, Chance d c gtl tl w /\ 0 < w.
Proof. exact chance_positive. Qed.
Print Assumptions C80_exists.
Theorem C80_never :
  forall (d : df) (c : Qc), map lbl d = seq 0 (length d) -> qty_nonneg d -> forall M, fair M (pairs_count d) ->
  forall gtl K, ~ (exists tl, Schedule d c gtl tl /\ Stopped d gtl tl) -> share M K (p2p_random d c) (gave gtl) = 0.
Proof. exact p2p_never_count. Qed.
Print Assumptions C80_never.

(** Every buyer meets every seller with the same chance: as the first pair ... *)
Theorem C80_first_meeting :
  forall (d : df) (c : Qc), map lbl d = seq 0 (length d) -> qty_nonneg d -> (exists x, In x d /\ 0 < qty x) ->
  forall M K, fair M (pairs_count d) -> (pairs_count d <= K)%nat ->
  forall x y, In x d -> In y d -> buying x = true -> buying y = false ->
    share M K (p2p_random d c) (met_first (lbl x, lbl y)) = 1 / num_of (pairs_count d).
Proof. exact first_chance. Qed.
Print Assumptions C80_first_meeting.
(** ... and in the first round, in which the chance is one over the number of bids of the larger side. *)
Theorem C80_first_round :
  forall (d : df) (c : Qc), map lbl d = seq 0 (length d) -> qty_nonneg d -> (exists x, In x d /\ 0 < qty x) ->
  forall M K, fair M (pairs_count d) -> (pairs_count d <= K)%nat ->
  forall x y, In x d -> In y d -> buying x = true -> buying y = false ->
    share M K (p2p_random d c) (met_early (lbl x, lbl y)) =
    1 / num_of (Nat.max (length (filter buying d)) (length (filter (fun r => negb (buying r)) d))).
Proof. exact early_chance. Qed.
Print Assumptions C80_first_round.

(** The order in which the bids were submitted has no influence on the chances. *)
Theorem C80_order :
  forall (S S' : sorter) m m' f, Permutation (bm_bids (mk_bm m)) (bm_bids (mk_bm m')) -> moved (bm_bids (mk_bm m)) (bm_bids (mk_bm m')) f ->
  (forall b, In b (bm_bids (mk_bm m)) -> 0 <= b_qty b) ->
  forall c M K M' K' gtl, fair M (pairs_count (get_df (mk_bm m))) -> (pairs_count (get_df (mk_bm m)) <= K)%nat ->
    fair M' (pairs_count (get_df (mk_bm m))) -> (pairs_count (get_df (mk_bm m)) <= K')%nat ->
    share M' K' (fun r => snd (market_run S' m' (AP2P c r))) (gave (map (map (rename_pair f)) gtl)) =
    share M K (fun r => snd (market_run S m (AP2P c r))) (gave gtl).
Proof. exact run_chance_moved. Qed.
Print Assumptions C80_order.

(** Two bids of the same side, price and quantity have the same chances. *)
Theorem C80_twins :
  forall d c x y, map lbl d = seq 0 (length d) -> qty_nonneg d -> In x d -> In y d -> buying x = buying y -> price x = price y -> qty x = qty y ->
  forall M K gtl, fair M (pairs_count d) -> (pairs_count d <= K)%nat ->
  share M K (p2p_random d c) (gave (map (map (rename_pair (exchange (lbl x) (lbl y)))) gtl)) = share M K (p2p_random d c) (gave gtl).
Proof. exact twin_chance. Qed.
Print Assumptions C80_twins.

(** When all bids have the same quantity and every bid is at least every ask, the average amount of money of a bid is the sum
    over its partners of what they would exchange, over the number of bids of the larger side. *)
Theorem C80_money :
  forall (d : df) (c q : Qc), map lbl d = seq 0 (length d) -> 0 < q -> (forall x, In x d -> qty x = q) ->
  (forall x y, In x d -> In y d -> buying x = true -> buying y = false -> price y <= price x) ->
  forall i M K, (exists x y, In x d /\ In y d /\ buying x = true /\ buying y = false) -> fair M (pairs_count d) -> (pairs_count d <= K)%nat ->
    average M K (p2p_random d c) (money_of i) =
    qsumf (fun xy => q * (price (fst xy) * c + (1 - c) * price (snd xy))) (pairs_with d i) /
    num_of (Nat.max (length (filter buying d)) (length (filter (fun r => negb (buying r)) d))).
Proof. exact even_mean. Qed.
Print Assumptions C80_money.

(** Three buyers and one seller who can serve one and a half of them, six equally likely values. *)
Definition three_one : df := frame [B 1 (qz 5) 1; B 1 (qz 4) 2; B 1 (qz 3) 3; A (qz 3 / qz 2) 1 4].
Example C80_ex_fair : fair 6 (pairs_count three_one).
Proof. split; [lia|]. change (pairs_count three_one) with 3%nat. intros k H1 H2. assert (k = 1 \/ k = 2 \/ k = 3)%nat as [->|[->| ->]] by lia; [exists 6%nat | exists 3%nat | exists 2%nat]; reflexivity. Qed.
Example C80_ex_law : map (fun g => this (share 6 3 (p2p_random three_one (1 / qz 2)) (gave g)))
  [[[(0, 3)]; [(1, 3)]]; [[(2, 3)]; [(0, 3)]]; [[(0, 3)]]; [[(0, 3)]; [(0, 3)]]; [[(0, 3)]; [(1, 3)]; [(2, 3)]]]%nat = map this [1 / qz 6; 1 / qz 6; 0; 0; 0].
Proof. vm_compute. reflexivity. Qed.
Example C80_ex_first : map (fun b => (this (share 6 3 (p2p_random three_one (1 / qz 2)) (met_first (b, 3%nat))), this (share 6 3 (p2p_random three_one (1 / qz 2)) (met_early (b, 3%nat))))) [0; 1; 2]%nat =
  map (fun _ => (this (1 / qz 3), this (1 / qz 3))) [0; 1; 2]%nat.
Proof. vm_compute. reflexivity. Qed.
(** The seller submits first: every chance is that of the renamed rounds. *)
Example C80_ex_order : map (fun g => this (share 6 3 (p2p_random (frame [A (qz 3 / qz 2) 1 4; B 1 (qz 3) 3; B 1 (qz 4) 2; B 1 (qz 5) 1]) (1 / qz 2)) (gave g)))
  [[[(3, 0)]; [(2, 0)]]; [[(1, 0)]; [(3, 0)]]; [[(3, 0)]]]%nat = map this [1 / qz 6; 1 / qz 6; 0].
Proof. vm_compute. reflexivity. Qed.
(** Three buyers, one seller of the same quantity: the seller receives 17/6 on average, the first buyer pays 3 with chance 1/3. *)
Definition three_even : df := frame [B 1 (qz 5) 1; B 1 (qz 5) 2; B 1 (qz 4) 3; A 1 1 4].
Example C80_ex_money : map (fun i => this (average 6 3 (p2p_random three_even (1 / qz 2)) (money_of i))) [0; 1; 2; 3]%nat = map this [1; 1; qz 5 / qz 6; qz 17 / qz 6].
Proof. vm_compute. reflexivity. Qed.
Example C80_ex_twins : this (share 6 3 (p2p_random three_even (1 / qz 2)) (gave [[(0, 3)]]%nat)) = this (share 6 3 (p2p_random three_even (1 / qz 2)) (gave [[(1, 3)]]%nat)) /\
  map (map (rename_pair (exchange 0 1))) [[(0, 3)]]%nat = [[(1, 3)]]%nat.
Proof. vm_compute. auto. Qed.
(** Without fairness the choice is biased: with four values for three pairs the first pair is drawn twice as often. *)
Example C80_ex_unfair : map (fun b => this (share 4 3 (p2p_random three_one (1 / qz 2)) (met_first (b, 3%nat)))) [0; 1; 2]%nat = map this [1 / qz 2; 1 / qz 4; 1 / qz 4].
Proof. vm_compute. reflexivity. Qed.
