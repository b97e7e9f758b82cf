(** C89: the exponents of double precision are bounded; what this changes and what it does not. *)
From Verif Require Import QcTac Num ModelBase ModelCurves ModelHuang ModelMuda ModelP2P ModelMarket ModelStats ModelUniform ModelRound ModelRoundStats ModelRoundUniform ModelFloat
  Spec SpecRound SpecGrid Sorter Conform RoundFacts RoundTop GridTop ModelBounded SpecBounded BoundFacts BoundP2P BoundTop.

(** Every result of [binary64] is a multiple of [2^-1074] of at most the largest double. *)
Theorem C89_grid : forall x, on_grid tiny (binary64 x) /\ qabs (binary64 x) <= big.
Proof. exact b64_grid. Qed.
Print Assumptions C89_grid.
(** It is the rounding with unbounded exponents on normal numbers and on multiples of [2^-1074], in particular on sums. *)
Theorem C89_agrees : forall x, qabs x <= big -> normal <= qabs x \/ on_grid tiny x -> binary64 x = f64 x.
Proof. exact b64_agrees. Qed.
Print Assumptions C89_agrees.
Theorem C89_sums : forall x y, machine binary64 x -> machine binary64 y -> qabs (x + y) <= big -> binary64 (x + y) = f64 (x + y).
Proof. exact b64_sums. Qed.
Print Assumptions C89_sums.
(** The error is at most [2^-53] times the number or [2^-1075]. *)
Theorem C89_error : forall x, qabs x <= big -> qabs (binary64 x - x) <= qmax (qabs x * p2 (-53)) (p2 (-1075)).
Proof. exact b64_error. Qed.
Print Assumptions C89_error.
(** Multiples of [2^e] up to [2^(e+53)] are not rounded. *)
Theorem C89_free : forall e, (-1074 <= e <= 970)%Z -> no_error binary64 (p2 e) (p2 (e + 53)).
Proof. exact b64_free. Qed.
Print Assumptions C89_free.
(** With quantities on [2^a], in total at most [T], and prices on [2^b], at most [P], the mechanisms run as in exact arithmetic. *)
Theorem C89_muda : forall (a b : Z) (T P : Qc) (A : adder binary64) (S : sorter) (d : df), gridded (p2 a) (p2 b) T P d -> 0 <= P -> (-1074 <= a <= 970)%Z ->
  forall fl, (-1073 <= b <= 971)%Z -> (-1073 <= a + b <= 971)%Z -> labels_unique d -> T <= p2 (a + 53) -> P <= p2 (b + 51) -> P * T <= p2 (a + b + 51) ->
  muda_r binary64 A S d fl = muda S d fl.
Proof. exact muda_bounded. Qed.
Print Assumptions C89_muda.
Theorem C89_uniform : forall (a b : Z) (T P : Qc) (A : adder binary64) (S : sorter) (d : df), gridded (p2 a) (p2 b) T P d -> 0 <= P -> (-1074 <= a <= 970)%Z ->
  (-1073 <= b <= 971)%Z -> T <= p2 (a + 53) -> P <= p2 (b + 51) -> uniform_run_r binary64 A S d = uniform_run S d.
Proof. exact uniform_bounded. Qed.
Print Assumptions C89_uniform.
Theorem C89_p2p_grid : forall (a b : Z) (T P : Qc) (A : adder binary64) (d : df), gridded (p2 a) (p2 b) T P d -> 0 <= P -> (-1074 <= a <= 970)%Z ->
  forall (e : Z) (c : Qc) (r : nat -> nat), (-1074 <= b + e <= 970)%Z -> (-53 <= e <= 0)%Z -> on_grid (p2 e) c -> 0 <= c -> c <= 1 -> labels_unique d ->
  T <= p2 (a + 53) -> P <= p2 (b + e + 53) -> p2p_random_r binary64 A d c r = p2p_random d c r.
Proof. exact p2p_grid_bounded. Qed.
Print Assumptions C89_p2p_grid.
(** Huang's auction divides by a number of bids; shares of the excess must be normal numbers. *)
Theorem C89_huang : forall (a b : Z) (T P : Qc) (A : adder binary64) (S : sorter) (d : df), gridded (p2 a) (p2 b) T P d -> (-1074 <= a <= 970)%Z ->
  forall k : Z, (-1022 <= a - k)%Z -> (0 <= k)%Z -> (Z.of_nat (length d) <= 2 ^ k)%Z -> T < p2 (a + 53) ->
  same_result (p2 (-53)) d (huang_auction_r binary64 A S d) (huang_auction S d).
Proof. exact huang_bounded. Qed.
Print Assumptions C89_huang.
Theorem C89_whole : forall (A : adder binary64) (S : sorter) (d : df) (T P : Z), labels_unique d -> whole_table T P d -> (0 <= P)%Z ->
  (T <= 2 ^ 52)%Z -> (P <= 2 ^ 51)%Z -> (P * T <= 2 ^ 51)%Z ->
  (forall fl, muda_r binary64 A S d fl = muda S d fl) /\
  (forall r, p2p_random_r binary64 A d (qf 1 2) r = p2p_random d (qf 1 2) r) /\
  uniform_run_r binary64 A S d = uniform_run S d /\
  ((Z.of_nat (length d) <= 2 ^ 1022)%Z -> same_result (p2 (-53)) d (huang_auction_r binary64 A S d) (huang_auction S d)).
Proof. exact whole_bounded. Qed.
Print Assumptions C89_whole.
Theorem C89_profits : forall (a b : Z) (T P F : Qc) (A G : adder binary64) (d : df) (ts : list trans) (rp : option dict) (fees : option (list Qc)),
  (-1074 <= b <= 970)%Z -> (-1074 <= a + b <= 970)%Z -> labels_unique d -> gridded_trades (p2 a) (p2 b) T P ts -> gridded_prices (p2 b) P (map price d) ->
  match rp with Some m => gridded_prices (p2 b) P (map snd m) | None => True end ->
  match fees with Some f => (forall x, In x f -> on_grid (p2 (a + b)) x) /\ qsumf qabs f <= F | None => True end ->
  0 <= P -> 0 <= F -> P <= p2 (b + 52) -> (P + P) * T + F <= p2 (a + b + 53) ->
  calculate_profits_r binary64 A G d ts rp fees = calculate_profits d ts rp fees.
Proof. exact profits_bounded. Qed.
Print Assumptions C89_profits.
(** Peer to peer trading at the mean of the two prices needs no sizes: it runs as with unbounded exponents for all tables of doubles whose
    quantities are not negative and whose prices are zero or at least [2^-1021]. *)
Theorem C89_p2p : forall (A1 : adder binary64) (A2 : adder f64) (d : df) (r : nat -> nat), labels_unique d -> qty_nonneg d -> machine_qty binary64 d -> machine_price binary64 d ->
  (forall x, In x d -> price_normal (price x)) -> p2p_random_r binary64 A1 d (qf 1 2) r = p2p_random_r f64 A2 d (qf 1 2) r.
Proof. exact p2p_half. Qed.
Print Assumptions C89_p2p.
(** So no buyer pays more and no seller gets less than its price. *)
Theorem C89_p2p_price : forall (A : adder binary64) (d : df) (r : nat -> nat) tm ex, map lbl d = seq 0 (length d) -> qty_nonneg d -> machine_qty binary64 d -> machine_price binary64 d ->
  (forall x, In x d -> price_normal (price x)) -> p2p_random_r binary64 A d (qf 1 2) r = Ok (tm, ex) ->
  forall t x, In t (tm_trans tm) -> In x d -> lbl x = t_bid t -> t_qty t <> 0 -> if buying x then t_price t <= price x else price x <= t_price t.
Proof. exact p2p_price_bounded. Qed.
Print Assumptions C89_p2p_price.
(** For smaller prices this fails: a seller at the smallest double gets nothing. *)
Theorem C89_underflow_refuted : exists d r tm ex, map lbl d = seq 0 (length d) /\ qty_nonneg d /\ price_nonneg d /\ machine_qty binary64 d /\ machine_price binary64 d /\
  p2p_random_r binary64 (np_adder binary64) d (qf 1 2) r = Ok (tm, ex) /\
  exists t x, In t (tm_trans tm) /\ In x d /\ lbl x = t_bid t /\ buying x = false /\ 0 < t_qty t /\ t_price t < price x.
Proof. exact least_price. Qed.
Print Assumptions C89_underflow_refuted.

(** Half of the smallest double is rounded to zero, one and a half to two, and so is a sum that is too large to the largest double. *)
Example C89_roundings : binary64 (tiny * qf 1 2) = 0 /\ binary64 (tiny * qf 3 2) = tiny + tiny /\ f64 (tiny * qf 1 2) = tiny * qf 1 2 /\ binary64 (big + big) = big /\
  binary64 (qf 1 10) = f64 (qf 1 10).
Proof. repeat split; apply Qc_is_canon; vm_compute; reflexivity. Qed.
(** Two bids in the range: both trade at the mean, a price in tenths. *)
Example C89_p2p_run : let d := frame [B (f64 (qf 3 10)) (f64 (qf 9 10)) 0; A (f64 (qf 1 10)) (f64 (qf 3 10)) 1] in
  match p2p_random_r binary64 (np_adder binary64) d (qf 1 2) (fun _ => 0%nat) with
  | Ok (tm, _) => Nat.eqb (length (tm_trans tm)) 2 && forallb (fun t => qltb 0 (t_qty t) && negb (qeqb (t_price t) (qf 6 10))) (tm_trans tm)
  | _ => false
  end = true.
Proof. vm_compute. reflexivity. Qed.
