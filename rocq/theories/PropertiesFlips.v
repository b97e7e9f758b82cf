(** Property C81: MUDA on average over its random split. *)
From Verif Require Import QcTac Num ModelBase ModelCurves ModelHuang ModelMuda ModelMarket Spec SpecTrade SpecMuda SpecOrder SpecUnits SpecChance SpecFlips
  Sorter Conform MudaWitness AliasWitness OrderWitness PlotWitness FlipsFacts FlipsSplit FlipsMuda FlipsOrder FlipsWitness.

(** C81. The chance of [r.rand() > 0.5] is a little less than one half. *)
Theorem C81_rand :
  mean (fun k => if qltb (qf 1 2) (num_of k / num_of (2 ^ 53)) then 1 else 0) (seq 0 (2 ^ 53)) = rand_half.
Proof. exact rand_exact. Qed.
Print Assumptions C81_rand.
Example C81_ex_rand : this (1 / qz 2 - rand_half) = this (1 / qz (2 ^ 53)).
Proof. vm_compute. reflexivity. Qed.

(** If every flip comes out differently the halves change places and the same trades are made.  So an average of something that
    does not depend on the order of the halves is the same when the chances of both outcomes are exchanged. *)
Theorem C81_swap :
  forall (S : sorter) (d : df) (fl : list bool), qty_nonneg d -> price_nonneg d -> labels_unique d -> length fl = length d ->
    halves_swapped (muda S d fl) (muda S d (map negb fl)).
Proof. exact muda_swap. Qed.
Print Assumptions C81_swap.
Theorem C81_swap_mean :
  forall (S : sorter) (d : df) (F : res (transmgr * extra) -> Qc) (p : Qc), qty_nonneg d -> price_nonneg d -> labels_unique d ->
    (forall x x', halves_swapped x x' -> F x' = F x) ->
    expect p (length d) (fun fl => F (muda S d fl)) = expect (1 - p) (length d) (fun fl => F (muda S d fl)).
Proof. exact swap_mean. Qed.
Print Assumptions C81_swap_mean.

(** A user with one bid has the largest average with the true price and quantity, ... *)
Theorem C81_truthful :
  forall (S : sorter) (d d' : df) (u : Z) (p : Qc), 0 <= p -> p <= 1 -> qty_nonneg d -> price_nonneg d -> price_nonneg d' -> labels_unique d ->
    ~ repeated_price d -> (forall r, In r d -> (0 <= user r)%Z /\ (user r < Z.of_nat (length (nodup Z.eq_dec (map user d))))%Z) -> (0 <= u)%Z ->
    (forall x y, In x d -> In y d -> user x = u -> user y = u -> x = y) -> Forall2 (misreport u) d d' ->
    expect p (length d) (fun fl => worth d u (muda S d' fl)) <= expect p (length d) (fun fl => worth d u (muda S d fl)).
Proof. exact truthful_mean. Qed.
Print Assumptions C81_truthful.
(** ... a truthful user never loses on average, ... *)
Theorem C81_participation :
  forall (S : sorter) (d : df) (u : Z) (p : Qc), 0 <= p -> p <= 1 -> qty_nonneg d -> labels_unique d -> (forall r, In r d -> (0 <= user r)%Z) -> (0 <= u)%Z ->
    0 <= expect p (length d) (fun fl => worth d u (muda S d fl)).
Proof. exact participation_mean. Qed.
Print Assumptions C81_participation.
(** ... but a user with two bids on the same side can gain by a lie on average, whatever the chance of a flip, ... *)
Theorem C81_two_bids_refuted :
  exists (S : sorter) (d d' : df) (u : Z), qty_pos d /\ price_nonneg d /\ price_nonneg d' /\ labels_unique d /\ (forall x, In x d -> (0 <= user x)%Z) /\
    Forall2 (misreport u) d d' /\ (forall x, In x d -> user x = u -> buying x = true) /\
    forall p, 0 < p -> p < 1 -> expect p (length d) (fun fl => worth d u (muda S d fl)) < expect p (length d) (fun fl => worth d u (muda S d' fl)).
Proof. exact two_bids_mean. Qed.
Print Assumptions C81_two_bids_refuted.
(** ... and so can one with a bid and an ask, though it loses for some splits. *)
Theorem C81_two_sides_refuted :
  exists (S : sorter) (d d' : df) (u : Z), qty_pos d /\ price_nonneg d /\ price_nonneg d' /\ labels_unique d /\ (forall x, In x d -> (0 <= user x)%Z) /\
    Forall2 (misreport u) d d' /\ (exists fl, length fl = length d /\ worth d u (muda S d' fl) < worth d u (muda S d fl)) /\
    expect rand_half (length d) (fun fl => worth d u (muda S d fl)) < expect rand_half (length d) (fun fl => worth d u (muda S d' fl)).
Proof. exact two_sides_mean. Qed.
Print Assumptions C81_two_sides_refuted.
Example C81_ex_lies :
  map (fun k => this (expect (qf 1 2) 4 (fun fl => worth (both_halves 6) 0 (muda SS (both_halves k) fl)))) [6; 5; 4; 3; 2]%Z = map this [qz 13 / qz 8; qz 27 / qz 16; qz 29 / qz 16; qz 31 / qz 16; 0] /\
  map (fun k => this (expect (qf 1 2) 7 (fun fl => worth (two_sides 6) 0 (muda SS (two_sides k) fl)))) [6; 4; 3]%Z = map this [qz 135 / qz 128; qz 198 / qz 128; qz 199 / qz 128].
Proof. vm_compute. auto. Qed.

(** Something is traded only if there are a buyer and a seller in each half, which bounds the chance of trade.  The bound is
    reached when all buyers bid the same and all sellers ask the same. *)
Theorem C81_trade_chance :
  forall (S : sorter) (d : df) (p : Qc), 0 <= p -> p <= 1 -> qty_nonneg d -> price_nonneg d -> labels_unique d ->
    chance p (length d) (fun fl => trades (muda S d fl)) <=
    mixed_chance p (length (filter buying d)) * mixed_chance p (length (filter (fun r => negb (buying r)) d)).
Proof. exact trade_chance. Qed.
Print Assumptions C81_trade_chance.
Theorem C81_trade_chance_same :
  forall (S : sorter) (d : df) (v a : Qc), qty_pos d -> (forall x, In x d -> price x = if buying x then v else a) -> 0 < a -> a < v -> labels_unique d ->
    ~ repeated_price d -> (forall r, In r d -> (0 <= user r)%Z /\ (user r < Z.of_nat (length (nodup Z.eq_dec (map user d))))%Z) -> forall p,
    chance p (length d) (fun fl => trades (muda S d fl)) =
    mixed_chance p (length (filter buying d)) * mixed_chance p (length (filter (fun r => negb (buying r)) d)).
Proof. exact trade_chance_same. Qed.
Print Assumptions C81_trade_chance_same.
(** one seller never trades; two buyers and two sellers in one of four cases; three and two in three of eight; two and two with prices that never fit in none *)
Example C81_ex_trade :
  map (fun l => this (chance (qf 1 2) (length l) (fun fl => trades (muda SS (frame l) fl))))
    [[B 1 (qz 5) 0; B 1 (qz 5) 1; B 1 (qz 5) 2; A 1 1 3]; [B 1 (qz 5) 0; B 1 (qz 5) 1; A 1 1 2; A 1 1 3]; [B 1 (qz 5) 0; B 1 (qz 5) 1; B 1 (qz 5) 4; A 1 1 2; A 1 1 3];
     [B 1 (qz 5) 0; B 1 (qz 3) 1; A 1 (qz 4) 2; A 1 1 3]] = map this [0; 1 / qz 4; qz 3 / qz 8; 0] /\
  map (fun n => this (mixed_chance (qf 1 2) n)) [0; 1; 2; 3; 4]%nat = map this [0; 0; 1 / qz 2; qz 3 / qz 4; qz 7 / qz 8].
Proof. vm_compute. auto. Qed.

(** When the prices of each side differ, averages do not depend on the order in which the bids were submitted, ... *)
Theorem C81_order :
  forall (S S' : sorter) m m' f, Permutation (bm_bids (mk_bm m)) (bm_bids (mk_bm m')) -> moved (bm_bids (mk_bm m)) (bm_bids (mk_bm m')) f ->
  prices_distinct (get_df (mk_bm m)) -> forall p (F F' : res (transmgr * extra) -> Qc), (forall x x', renamed f x x' -> F' x' = F x) ->
  expect p (length (bm_bids (mk_bm m'))) (fun fl => F' (snd (market_run S' m' (AMuda fl)))) = expect p (length (bm_bids (mk_bm m))) (fun fl => F (snd (market_run S m (AMuda fl)))).
Proof. exact run_muda_mean. Qed.
Print Assumptions C81_order.
Theorem C81_order_quantity :
  forall (S S' : sorter) m m' f, Permutation (bm_bids (mk_bm m)) (bm_bids (mk_bm m')) -> moved (bm_bids (mk_bm m)) (bm_bids (mk_bm m')) f ->
  prices_distinct (get_df (mk_bm m)) -> forall p i,
  expect p (length (bm_bids (mk_bm m'))) (fun fl => quantity_of (f i) (snd (market_run S' m' (AMuda fl)))) =
  expect p (length (bm_bids (mk_bm m))) (fun fl => quantity_of i (snd (market_run S m (AMuda fl)))).
Proof. exact run_quantity_mean. Qed.
Print Assumptions C81_order_quantity.
(** ... but of two equal bids the one submitted first can have the larger average. *)
Theorem C81_order_refuted :
  exists (S : sorter) (m : market) (b1 b2 : bid) rest, compares_prices S /\ bm_bids (mk_bm m) = b1 :: b2 :: rest /\ qty_pos (get_df (mk_bm m)) /\ price_nonneg (get_df (mk_bm m)) /\
  b_buying b1 = b_buying b2 /\ b_price b1 = b_price b2 /\ b_qty b1 = b_qty b2 /\
  forall p, 0 < p -> p < 1 ->
    expect p (length (bm_bids (mk_bm m))) (fun fl => quantity_of 1 (snd (market_run S m (AMuda fl)))) <
    expect p (length (bm_bids (mk_bm m))) (fun fl => quantity_of 0 (snd (market_run S m (AMuda fl)))).
Proof. exact first_served_mean. Qed.
Print Assumptions C81_order_refuted.
Example C81_ex_order :
  map (fun i => this (expect (qf 1 2) 5 (fun fl => quantity_of i (snd (market_run SS tied (AMuda fl)))))) [0; 1; 2; 3; 4]%nat = map this [qz 3 / qz 8; 1 / qz 4; qz 3 / qz 8; 1 / qz 8; qz 3 / qz 8] /\
  (let m := market_of [mkBid 1 (qz 6) 0 true 0 true; mkBid 1 (qz 5) 1 true 0 true; mkBid 1 1 2 false 0 true; mkBid 1 (qz 4) 3 true 0 true; mkBid 1 (qz 2) 4 false 0 true] in
   let m' := market_of [mkBid 1 (qz 4) 3 true 0 true; mkBid 1 (qz 5) 1 true 0 true; mkBid 1 1 2 false 0 true; mkBid 1 (qz 6) 0 true 0 true; mkBid 1 (qz 2) 4 false 0 true] in
   map (fun i => this (expect (qf 1 3) 5 (fun fl => quantity_of i (snd (market_run SS m (AMuda fl)))))) [0; 1; 2; 3; 4]%nat =
   map (fun i => this (expect (qf 1 3) 5 (fun fl => quantity_of i (snd (market_run SS m' (AMuda fl)))))) [3; 1; 2; 0; 4]%nat).
Proof. vm_compute. auto. Qed.
