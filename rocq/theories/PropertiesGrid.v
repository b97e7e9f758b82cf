(** C83: data that double precision handles without error are cleared as in exact arithmetic. *)
From Verif Require Import QcTac Num ModelBase ModelCurves ModelHuang ModelMuda ModelP2P ModelMarket ModelStats ModelUniform ModelRound ModelRoundStats ModelRoundUniform ModelFloat
  Spec SpecRound SpecGrid Sorter Conform RoundFacts RoundTop GridFacts GridMuda GridP2P GridHuang GridTop.

(** All multiples of [2^e] up to [2^(e+53)] are doubles. *)
Theorem C83_double_grid : forall e, no_error f64 (p2 e) (p2 (e + 53)).
Proof. exact f64_free. Qed.
Print Assumptions C83_double_grid.

(** Quantities are multiples of [2^a], in total at most [T]; prices are multiples of [2^b], at most [P].  If these bounds leave
    enough digits, MUDA has the same trades, prices and fees as in exact arithmetic, whatever way sums are computed. *)
Theorem C83_muda : forall (a b : Z) (T P : Qc) (A : adder f64) (S : sorter) (d : df), gridded (p2 a) (p2 b) T P d -> 0 <= P ->
  forall fl, labels_unique d -> T <= p2 (a + 53) -> P <= p2 (b + 51) -> P * T <= p2 (a + b + 51) -> muda_r f64 A S d fl = muda S d fl.
Proof. exact muda_double. Qed.
Print Assumptions C83_muda.
(** The same for peer to peer trading, with a weight that is a multiple of [2^e]. *)
Theorem C83_p2p : forall (a b : Z) (T P : Qc) (A : adder f64) (d : df), gridded (p2 a) (p2 b) T P d -> 0 <= P ->
  forall (e : Z) (c : Qc) (r : nat -> nat), (-53 <= e <= 0)%Z -> on_grid (p2 e) c -> 0 <= c -> c <= 1 -> labels_unique d ->
  T <= p2 (a + 53) -> P <= p2 (b + e + 53) -> p2p_random_r f64 A d c r = p2p_random d c r.
Proof. exact p2p_double. Qed.
Print Assumptions C83_p2p.
(** The same for the uniform price mechanism of the documentation. *)
Theorem C83_uniform : forall (a b : Z) (T P : Qc) (A : adder f64) (S : sorter) (d : df), gridded (p2 a) (p2 b) T P d -> 0 <= P ->
  T <= p2 (a + 53) -> P <= p2 (b + 51) -> uniform_run_r f64 A S d = uniform_run S d.
Proof. exact uniform_double. Qed.
Print Assumptions C83_uniform.
(** Huang's auction divides: the same bids trade at the same prices, and each quantity is wrong by at most [2^-52] times that of the bid.
    Nothing is assumed about the sizes of prices. *)
Theorem C83_huang : forall (a b : Z) (T P : Qc) (A : adder f64) (S : sorter) (d : df), gridded (p2 a) (p2 b) T P d ->
  T < p2 (a + 53) -> same_result (p2 (-53)) d (huang_auction_r f64 A S d) (huang_auction S d).
Proof. exact huang_double. Qed.
Print Assumptions C83_huang.
(** It is exact when the numbers of bids divide the step of the quantities. *)
Theorem C83_huang_exact : forall (a b : Z) (T P : Qc) (A : adder f64) (S : sorter) (d : df), gridded (p2 a) (p2 b) T P d ->
  forall k : Z, (0 < k)%Z -> (forall N, (0 < N <= length d)%nat -> (Z.of_nat N | k)%Z) -> (forall r, In r d -> on_grid (qz k * p2 a) (qty r)) ->
  T < p2 (a + 53) -> huang_auction_r f64 A S d = huang_auction S d.
Proof. exact huang_double_exact. Qed.
Print Assumptions C83_huang_exact.
(** The profits are exact as well, and the shares of the optimum are rounded only once. *)
Theorem C83_profits : forall (a b : Z) (T P F : Qc) (A G : adder f64) (d : df) (ts : list trans) (rp : option dict) (fees : option (list Qc)),
  labels_unique d -> gridded_trades (p2 a) (p2 b) T P ts -> gridded_prices (p2 b) P (map price d) ->
  match rp with Some m => gridded_prices (p2 b) P (map snd m) | None => True end ->
  match fees with Some f => (forall x, In x f -> on_grid (p2 (a + b)) x) /\ qsumf qabs f <= F | None => True end ->
  0 <= P -> 0 <= F -> P <= p2 (b + 52) -> (P + P) * T + F <= p2 (a + b + 53) ->
  calculate_profits_r f64 A G d ts rp fees = calculate_profits d ts rp fees.
Proof. exact profits_double. Qed.
Print Assumptions C83_profits.
Theorem C83_shares : forall (a b : Z) (T P : Qc) (A : adder f64) (d : df) (ts : list trans) (A' : adder exact) (obj : Qc),
  labels_unique d -> gridded_trades (p2 a) (p2 b) T P ts -> gridded_prices (p2 b) P (map price d) ->
  0 <= P -> P <= p2 (b + 52) -> (P + P) * T <= p2 (a + b + 53) -> T <= p2 (a + 52) ->
  percentage_welfare_r f64 A obj d ts = option_map f64 (percentage_welfare_r exact A' obj d ts) /\
  percentage_traded_r f64 A obj ts = option_map f64 (percentage_traded_r exact A' obj ts).
Proof. exact shares_double. Qed.
Print Assumptions C83_shares.
(** In particular for whole numbers. *)
Theorem C83_whole : forall (A : adder f64) (S : sorter) (d : df) (T P : Z), labels_unique d -> whole_table T P d -> (0 <= P)%Z ->
  (T <= 2 ^ 52)%Z -> (P <= 2 ^ 51)%Z -> (P * T <= 2 ^ 51)%Z ->
  (forall fl, muda_r f64 A S d fl = muda S d fl) /\
  (forall r, p2p_random_r f64 A d (qf 1 2) r = p2p_random d (qf 1 2) r) /\
  uniform_run_r f64 A S d = uniform_run S d /\
  same_result (p2 (-53)) d (huang_auction_r f64 A S d) (huang_auction S d).
Proof. exact whole_double. Qed.
Print Assumptions C83_whole.
(** For any rounding the curves list the same bids at the same prices in the same order. *)
Theorem C83_curves : forall (R : rounding) (S : sorter) (d : df),
  snd (demand_curve_r R S d) = snd (demand_curve_from_bids S d) /\ snd (supply_curve_r R S d) = snd (supply_curve_from_bids S d) /\
  map snd (fst (demand_curve_r R S d)) = map snd (fst (demand_curve_from_bids S d)) /\
  map snd (fst (supply_curve_r R S d)) = map snd (fst (supply_curve_from_bids S d)).
Proof. exact curves_same. Qed.
Print Assumptions C83_curves.
(** For tenths this fails, and it fails for whole numbers beyond [2^53]. *)
Theorem C83_tenths_refuted : exists (d : df) (r : nat -> nat), labels_unique d /\ qty_nonneg d /\ price_nonneg d /\ machine_qty f64 d /\ machine_price f64 d /\
  p2p_random_r f64 (np_adder f64) d (qf 1 2) r <> p2p_random d (qf 1 2) r.
Proof. exact tenths_differ. Qed.
Print Assumptions C83_tenths_refuted.
Theorem C83_size_refuted : exists (d : df) (r : nat -> nat) (T P : Z), labels_unique d /\ whole_table T P d /\ (T <= 2 ^ 55)%Z /\ (P <= 8)%Z /\
  machine_qty f64 d /\ machine_price f64 d /\ p2p_random_r f64 (np_adder f64) d (qf 1 2) r <> p2p_random d (qf 1 2) r.
Proof. exact huge_differ. Qed.
Print Assumptions C83_size_refuted.

(** Three sellers share the excess of 4 in Huang's auction: thirds are rounded, the trades are otherwise the same. *)
Example C83_thirds : let d := frame [B (qz 6) (qz 9) 0; B (qz 5) (qz 8) 1; A (qz 2) (qz 1) 2; A (qz 3) (qz 2) 3; A (qz 5) (qz 3) 4; A (qz 4) (qz 4) 5] in
  match huang_auction_r f64 (np_adder f64) stable_sorter d, huang_auction stable_sorter d with
  | Ok (tm, _), Ok (tm', _) => Nat.ltb 2 (length (tm_trans tm)) && Nat.eqb (length (tm_trans tm)) (length (tm_trans tm')) &&
      existsb (fun p => negb (qeqb (t_qty (fst p)) (t_qty (snd p)))) (combine (tm_trans tm) (tm_trans tm'))
  | _, _ => false
  end = true.
Proof. vm_compute. reflexivity. Qed.
(** Quantities in halves and whole prices: prices and fees are those of exact arithmetic. *)
Example C83_muda_run : let d := frame [A (qz 3) (qz 1) 0; A (qf 5 2) (qz 2) 1; A (qz 4) (qz 3) 2; B (qf 13 2) (qz 9) 3; B (qz 1) (qz 7) 4; A (qz 1) (qz 4) 5] in
  forallb (fun r => qeqb (qty r) (qz (Qnum (this (qty r * qz 2))) * p2 (-1))) d = true /\
  match muda_r f64 (np_adder f64) stable_sorter d [true; true; true; true; false; false] with
  | Ok (tm, XMuda _ _ _ _ f) => Nat.ltb 1 (length (tm_trans tm)) && existsb (fun x => qltb 0 x) f
  | _ => false
  end = true.
Proof. vm_compute. split; reflexivity. Qed.
