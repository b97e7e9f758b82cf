(** Property C96: the arithmetic of IEEE 754 doubles is the rounding of the model, and peer to peer trading on doubles
    is the rounded model. *)
From Coq Require Import Floats.SpecFloat.
From Verif Require Import QcTac ModelBase ModelHuang ModelP2P ModelRound ModelFloat ModelBounded ModelAny Spec SpecGrid SpecBounded SpecDouble SpecIeee SpecIeeeRun Conform RoundFacts IeeeOps IeeeTop.

(** C96. Sums, differences, products and quotients of proper doubles: the exact result is rounded by [binary64], and is
    infinite exactly from [2^1024 - 2^970] on. *)
Theorem C96_add : forall x y, proper x -> proper y -> float_of (fval x + fval y) (SFadd 53 1024 x y).
Proof. exact add_ok. Qed.
Print Assumptions C96_add.
Theorem C96_sub : forall x y, proper x -> proper y -> float_of (fval x - fval y) (SFsub 53 1024 x y).
Proof. exact sub_ok. Qed.
Print Assumptions C96_sub.
Theorem C96_mul : forall x y, proper x -> proper y -> float_of (fval x * fval y) (SFmul 53 1024 x y).
Proof. exact mul_ok. Qed.
Print Assumptions C96_mul.
Theorem C96_div : forall x y, proper x -> proper y -> fval y <> 0 -> float_of (fval x / fval y) (SFdiv 53 1024 x y).
Proof. exact div_ok. Qed.
Print Assumptions C96_div.
(** The comparisons are those of the values. *)
Theorem C96_compare : forall x y, proper x -> proper y ->
  SFltb x y = qltb (fval x) (fval y) /\ SFleb x y = qleb (fval x) (fval y) /\ SFeqb x y = qeqb (fval x) (fval y).
Proof. exact (fun x y Hx Hy => conj (ltb_ok x y Hx Hy) (conj (leb_ok x y Hx Hy) (eqb_ok x y Hx Hy))). Qed.
Print Assumptions C96_compare.
(** An exact result has one float, but for the sign of zero. *)
Theorem C96_float : forall v, (exists z, float_of v z) /\
  forall x y, float_of v x -> float_of v y -> x = y \/ (exists s s', x = S754_zero s /\ y = S754_zero s').
Proof. exact (fun v => conj (float_exists v) (float_unique v)). Qed.
Print Assumptions C96_float.

(** Peer to peer trading on doubles has the values of the rounded model: the same meetings, the same quantities and prices. *)
Theorem C96_p2p : forall (d : df) d' c r, Forall2 double_row d d' -> labels_unique d -> proper c -> 0 <= fval c -> fval c <= 1 ->
  double_result (p2p_random_r binary64 (np_adder binary64) d (fval c) r) (a_run (ops_d c) d' r).
Proof. exact ieee_p2p. Qed.
Print Assumptions C96_p2p.
(** If quantities and prices are multiples of powers of two and not too large for them, it has the values of the exact model. *)
Theorem C96_exact : forall (a b e : Z) (T P : Qc) (d : df) d' c r, Forall2 double_row d d' -> labels_unique d -> proper c -> 0 <= fval c -> fval c <= 1 ->
  gridded (p2 a) (p2 b) T P d -> 0 <= P -> (-1074 <= a <= 970)%Z -> (-1074 <= b + e <= 970)%Z -> (-53 <= e <= 0)%Z -> on_grid (p2 e) (fval c) ->
  T <= p2 (a + 53) -> P <= p2 (b + e + 53) -> double_result (p2p_random d (fval c) r) (a_run (ops_d c) d' r).
Proof. exact ieee_exact. Qed.
Print Assumptions C96_exact.
(** At the mean of the two prices: no double that a buyer pays is larger, none that a seller gets is smaller than its own price. *)
Theorem C96_price : forall (d : df) d' r T g, Forall2 double_row d d' -> map lbl d = seq 0 (length d) -> (forall x, In x d -> price_normal (price x)) ->
  a_run (ops_d d_half) d' r = Ok (T, g) ->
  forall u y, In u T -> In y d' -> a_lbl y = x_bid u -> SFeqb (x_qty u) d_zero = false ->
    (if a_buying y then SFleb (x_price u) (a_price y) else SFleb (a_price y) (x_price u)) = true.
Proof. exact ieee_price. Qed.
Print Assumptions C96_price.

(** Tenths: the doubles of the table, the run on them, and that of the rounded model.  The sum of the two quantities of the
    second table is infinite; the run goes on. *)
Definition dbl (m e : Z) : spec_float := binary_normalize 53 1024 m e false.
Definition tenth (k : Z) : spec_float := SFdiv 53 1024 (dbl k 0) (dbl 10 0).
Definition frame_row (y : arow spec_float spec_float) (u : Z) : row := mkRow (a_lbl y) (fval (a_qty y)) (fval (a_price y)) u (a_buying y) 0 true.
Definition agree (d' : list (arow spec_float spec_float)) : bool :=
  match p2p_random_r binary64 (np_adder binary64) (map (fun y => frame_row y 0) d') (qf 1 2) (fun _ => 0%nat), a_run (ops_d d_half) d' (fun _ => 0%nat) with
  | Ok (tm, XP2P g), Ok (T, g') =>
      Nat.ltb 0 (length T) && Nat.eqb (length (tm_trans tm)) (length T) && Nat.eqb (length g) (length g') &&
      forallb (fun p => Nat.eqb (t_bid (fst p)) (x_bid (snd p)) && qeqb (t_qty (fst p)) (fval (x_qty (snd p))) && qeqb (t_price (fst p)) (fval (x_price (snd p))) && qltb 0 (t_qty (fst p))) (combine (tm_trans tm) T)
  | _, _ => false
  end.
Example C96_tenths :
  agree [mkARow 0%nat (tenth 3) (tenth 9) true; mkARow 1%nat (tenth 1) (tenth 3) false; mkARow 2%nat (tenth 1) (tenth 7) false] = true /\
  agree [mkARow 0%nat (S754_finite false (2 ^ 53 - 1) 971) (tenth 9) true; mkARow 1%nat (S754_finite false (2 ^ 53 - 1) 971) (tenth 3) false] = true /\
  SFadd 53 1024 (S754_finite false (2 ^ 53 - 1) 971) (S754_finite false (2 ^ 53 - 1) 971) = S754_infinity false.
Proof. repeat split; vm_compute; reflexivity. Qed.
Example C96_tenth_proper : proper (tenth 3) /\ fval (tenth 3) = binary64 (qf 3 10) /\ fval (tenth 3) <> qf 3 10.
Proof. split; [split; [reflexivity | exact I]|]. split; [apply Qc_is_canon; vm_compute; reflexivity|]. intro E. apply (f_equal this) in E. vm_compute in E. discriminate. Qed.
