(** Property C95: peer to peer trading on any numbers; NaN and infinite values. *)
From Coq Require Import Floats.SpecFloat.
From Verif Require Import QcTac Num ModelBase ModelHuang ModelP2P ModelRound ModelAny SpecAny SpecAnyRel RoundFacts AnyRel AnyNum AnyLast.

(** C95. The model for any numbers is that of the other files on exact and on rounded rationals. *)
Theorem C95_exact : forall (c : Qc) (d : df) (r : nat -> nat),
  p2p_random d c r = match a_run (ops_q c) (map arow_of d) r with Ok (T, g) => Ok (mkTM (length T) (map trans_of T), XP2P g) | Err e => Err e end.
Proof. exact last_exact. Qed.
Print Assumptions C95_exact.
Theorem C95_rounded : forall (R : rounding) (A : adder R) (c : Qc) (d : df) (r : nat -> nat),
  p2p_random_r R A d c r = match a_run (ops_r R A c) (map arow_of d) r with Ok (T, g) => Ok (mkTM (length T) (map trans_of T), XP2P g) | Err e => Err e end.
Proof. exact last_rounded. Qed.
Print Assumptions C95_rounded.

(** Whatever the numbers and their operations are, a run ends without an exception and is a run of SpecAny.v ... *)
Theorem C95_runs : forall (P Q X : Type) (o : ops P Q X) (d : list (arow P Q)), map a_lbl d = seq 0 (length d) ->
  forall r, exists T g q', a_run o d r = Ok (T, g) /\ run o d g T q'.
Proof. intros P Q X. exact last_run. Qed.
Print Assumptions C95_runs.
(** ... and all of these are possible. *)
Theorem C95_all_runs : forall (P Q X : Type) (o : ops P Q X) (d : list (arow P Q)), map a_lbl d = seq 0 (length d) ->
  forall g T q', run o d g T q' -> exists r, a_run o d r = Ok (T, g).
Proof. intros P Q X. exact last_reach. Qed.
Print Assumptions C95_all_runs.
(** Only buyers and sellers meet, no pair twice, no bid twice in a round; there are two transactions per meeting. *)
Theorem C95_meetings : forall (P Q X : Type) (o : ops P Q X) (d : list (arow P Q)), map a_lbl d = seq 0 (length d) ->
  forall r T g, a_run o d r = Ok (T, g) ->
    NoDup (concat g) /\ (forall p, In p (concat g) -> (exists x, In x d /\ a_buying x = true /\ a_lbl x = fst p) /\ (exists y, In y d /\ a_buying y = false /\ a_lbl y = snd p)) /\
    (forall L, In L g -> L <> [] /\ NoDup (flat_map (fun p => [fst p; snd p]) L)) /\ length T = (2 * length (concat g))%nat /\
    (length (concat g) <= length (filter a_buying d) * length (filter (fun x => negb (a_buying x)) d))%nat.
Proof. intros P Q X. exact last_meetings. Qed.
Print Assumptions C95_meetings.

(** Related numbers give related runs. *)
Theorem C95_related : forall (P Q X P' Q' X' : Type) (SP : P -> P' -> Prop) (SQ : Q -> Q' -> Prop) (SX : X -> X' -> Prop)
  (o : ops P Q X) (o' : ops P' Q' X'), same_ops SP SQ SX o o' ->
  forall d d', Forall2 (same_row SP SQ) d d' -> forall r, same_result SQ SX (a_run o d r) (a_run o' d' r).
Proof. intros P Q X P' Q' X'. exact any_related. Qed.
Print Assumptions C95_related.
(** Who meets and how much is traded depends on the prices through their comparisons only. *)
Theorem C95_order : forall (P Q X P' X' : Type) (o : ops P Q X) (o' : ops P' Q X'),
  o_none o' = o_none o -> (forall x y, o_min o' x y = o_min o x y) -> (forall x y, o_sub o' x y = o_sub o x y) ->
  (forall x, o_pos o' x = o_pos o x) -> (forall x, o_is0 o' x = o_is0 o x) -> (forall x, o_more o' x = o_more o x) ->
  forall (d : list (arow P Q)) (d' : list (arow P' Q)) r,
    Forall2 (fun x x' => a_lbl x' = a_lbl x /\ a_qty x' = a_qty x /\ a_buying x' = a_buying x) d d' ->
    (forall x x' y y', In (x, x') (combine d d') -> In (y, y') (combine d d') -> o_le o' (a_price y') (a_price x') = o_le o (a_price y) (a_price x)) ->
    same_result eq (fun _ _ => True) (a_run o d r) (a_run o' d' r).
Proof. intros P Q X P' X'. exact any_order. Qed.
Print Assumptions C95_order.
(** Doubles: the coefficient changes prices only, even if it is infinite or NaN. *)
Theorem C95_coefficient : forall c c' d r, same_result eq (fun _ _ => True) (a_run (ops_d c) d r) (a_run (ops_d c') d r).
Proof. exact last_coef_d. Qed.
Print Assumptions C95_coefficient.
(** Finite values: the numbers with infinities and NaN behave like the rationals. *)
Theorem C95_finite : forall c (d : list (arow Qc Qc)) r,
  same_result (fun q n => n = Fin q) (fun q n => n = Fin q) (a_run (ops_q c) d r)
    (a_run (ops_n (Fin c)) (map (fun x => mkARow (a_lbl x) (Fin (a_qty x)) (Fin (a_price x)) (a_buying x)) d) r).
Proof. exact any_finite. Qed.
Print Assumptions C95_finite.

(** One quantity that is NaN: nobody meets and there are no transactions. *)
Theorem C95_nan_quantity :
  (forall c d r, map a_lbl d = seq 0 (length d) -> (exists x, In x d /\ a_qty x = S754_nan) -> a_run (ops_d c) d r = Ok ([], [])) /\
  (forall c d r, map a_lbl d = seq 0 (length d) -> (exists x, In x d /\ a_qty x = NaN) -> a_run (ops_n c) d r = Ok ([], [])).
Proof. exact (conj last_nan_d last_nan_n). Qed.
Print Assumptions C95_nan_quantity.
(** A price that is NaN: the bid meets others but trades nothing. *)
Theorem C95_nan_price :
  (forall c d r x T g, map a_lbl d = seq 0 (length d) -> In x d -> a_price x = S754_nan -> a_run (ops_d c) d r = Ok (T, g) ->
    forall t, In t T -> x_bid t = a_lbl x \/ x_source t = Z.of_nat (a_lbl x) -> x_qty t = d_zero /\ x_price t = d_zero /\ x_active t = true) /\
  (forall c d r x T g, map a_lbl d = seq 0 (length d) -> In x d -> a_price x = NaN -> a_run (ops_n c) d r = Ok (T, g) ->
    forall t, In t T -> x_bid t = a_lbl x \/ x_source t = Z.of_nat (a_lbl x) -> x_qty t = Fin 0 /\ x_price t = Fin 0 /\ x_active t = true).
Proof. exact (conj last_price_d last_price_n). Qed.
Print Assumptions C95_nan_price.
(** One infinite quantity: it stays infinite, and all bids of the other side with an acceptable price are served in full. *)
Theorem C95_infinite : forall c d x y g T q', map a_lbl d = seq 0 (length d) -> run (ops_n c) d g T q' ->
  In x d -> a_qty x = PInf -> (forall z, In z d -> z <> x -> exists p, 0 <= p /\ a_qty z = Fin p) ->
  In y d -> a_buying y = negb (a_buying x) ->
  (if a_buying x then nleb (a_price y) (a_price x) else nleb (a_price x) (a_price y)) = true ->
  q' (a_lbl x) = PInf /\ q' (a_lbl y) = Fin 0.
Proof. exact last_infinite. Qed.
Print Assumptions C95_infinite.
(** Two infinite quantities that deal: their round is the last, and NaN is what both have left. *)
Theorem C95_infinite_pair : forall c d x y g T q', map a_lbl d = seq 0 (length d) -> run (ops_n c) d g T q' ->
  (forall z, In z d -> a_qty z = PInf \/ exists p, 0 <= p /\ a_qty z = Fin p) ->
  In x d -> In y d -> a_qty x = PInf -> a_qty y = PInf -> nleb (a_price y) (a_price x) = true ->
  forall g1 L g2, g = g1 ++ L :: g2 -> In (a_lbl x, a_lbl y) L -> g2 = [] /\ q' (a_lbl x) = NaN /\ q' (a_lbl y) = NaN.
Proof. exact last_infinite_pair. Qed.
Print Assumptions C95_infinite_pair.
(** The price of a deal with infinite prices, for all coefficients. *)
Theorem C95_infinite_price : forall c p,
  o_mix (ops_n (Fin c)) PInf (Fin p) = (if qltb 0 c then PInf else if qeqb c 0 then NaN else NInf) /\
  o_mix (ops_n (Fin c)) (Fin p) NInf = (if qltb c 1 then NInf else if qeqb c 1 then NaN else PInf) /\
  o_mix (ops_n (Fin c)) PInf PInf = (if qltb 0 c && qltb c 1 then PInf else NaN) /\
  o_mix (ops_n (Fin c)) PInf NInf = (if qltb 1 c then PInf else if qltb c 0 then NInf else NaN).
Proof. exact last_infinite_price. Qed.
Print Assumptions C95_infinite_price.

(** Doubles.  A third bid decides whether the first two trade. *)
Definition dbl (m e : Z) : spec_float := binary_normalize 53 1024 m e false.
Definition two_and (x : arow spec_float spec_float) : list (arow spec_float spec_float) :=
  [mkARow 0%nat (dbl 3 0) (dbl 5 0) true; mkARow 1%nat (dbl 2 0) (dbl 1 (-1)) false; x].
Example C95_doubles :
  a_run (ops_d (dbl 1 (-1))) (two_and (mkARow 2%nat (dbl 1 0) S754_nan false)) (fun _ => 0%nat) =
    Ok ([mkATrans 0%nat (dbl 2 0) (dbl 11 (-2)) 1%Z true; mkATrans 1%nat (dbl 2 0) (dbl 11 (-2)) 0%Z false;
         mkATrans 0%nat d_zero d_zero 2%Z true; mkATrans 2%nat d_zero d_zero 0%Z true], [[(0, 1)]; [(0, 2)]]%nat) /\
  a_run (ops_d (dbl 1 (-1))) (two_and (mkARow 2%nat S754_nan (dbl 1 0) false)) (fun _ => 0%nat) = Ok ([], []) /\
  (* an infinite offer that comes first takes the whole demand; the other seller is not met any more *)
  a_run (ops_d (dbl 1 (-1))) (two_and (mkARow 2%nat (S754_infinity false) (dbl 1 0) false)) (fun _ => 1%nat) =
    Ok ([mkATrans 0%nat (dbl 3 0) (dbl 3 0) 2%Z false; mkATrans 2%nat (dbl 3 0) (dbl 3 0) 0%Z true], [[(0, 2)]]%nat) /\
  (* two infinite bids that deal: the seller 2 is met but not the bid 1 *)
  a_run (ops_d S754_nan) [mkARow 0%nat (S754_infinity false) (dbl 5 0) true; mkARow 1%nat (dbl 2 0) (dbl 1 0) false; mkARow 2%nat (S754_infinity false) (dbl 1 0) false] (fun _ => 1%nat) =
    Ok ([mkATrans 0%nat (S754_infinity false) S754_nan 2%Z false; mkATrans 2%nat (S754_infinity false) S754_nan 0%Z false], [[(0, 2)]]%nat).
Proof. repeat split; vm_compute; reflexivity. Qed.
(** An infinite demand serves the two sellers it accepts, not the third. *)
Example C95_demand :
  a_run (ops_d (dbl 1 0)) [mkARow 0%nat (dbl 2 0) (dbl 1 0) false; mkARow 1%nat (S754_infinity false) (dbl 4 0) true; mkARow 2%nat (dbl 5 0) (dbl 3 0) false; mkARow 3%nat (dbl 5 0) (dbl 9 0) false] (fun _ => 0%nat) =
    Ok ([mkATrans 1%nat (dbl 2 0) (dbl 4 0) 0%Z true; mkATrans 0%nat (dbl 2 0) (dbl 4 0) 1%Z false;
         mkATrans 1%nat (dbl 5 0) (dbl 4 0) 2%Z true; mkATrans 2%nat (dbl 5 0) (dbl 4 0) 1%Z false;
         mkATrans 1%nat d_zero d_zero 3%Z true; mkATrans 3%nat d_zero d_zero 1%Z true], [[(1, 0)]; [(1, 2)]; [(1, 3)]]%nat).
Proof. vm_compute. reflexivity. Qed.
