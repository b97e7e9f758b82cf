(** C102. Generated datasets in floating point. *)
From Verif Require Import QcTac Num ModelBase ModelHuang ModelMuda ModelP2P ModelDatasets ModelMarket ModelRound ModelFloat ModelRoundDatasets Spec SpecTrade SpecGen SpecRound SpecRoundGen
  RoundFacts RoundGen RoundGenTop RoundGenRuns PropertiesGen.

(** With exact operations the rounded generator is the exact one. *)
Theorem C102_exact : forall nb ns os ob r eps, generate_r exact nb ns os ob r eps = generate nb ns os ob r eps.
Proof. exact generate_exact. Qed.
Print Assumptions C102_exact.

(** Any rounding with relative error at most 1/4 for which the positions of the grid and the offsets are machine numbers. *)
Theorem C102_generate :
  forall (R : rounding) u, rel_error R u -> u <= qf 1 4 -> forall nb ns os ob r eps, 0 < eps ->
    let e := grid_step R (Nat.max nb ns) eps in whole R (Nat.max 1 (arange_len_r R e)) -> machine R (qnat (Nat.max nb ns)) -> machine R os -> machine R ob ->
    exists bs ss, generate_r R nb ns os ob r eps = Ok (bs ++ ss) /\
      length bs = nb /\ length ss = ns /\ map b_user (bs ++ ss) = map Z.of_nat (seq 0 (nb + ns)) /\
      (forall b, In b bs -> b_buying b = true /\ ob <= b_price b /\ b_price b <= R (1 + ob)) /\
      (forall b, In b ss -> b_buying b = false /\ os <= b_price b /\ b_price b <= R (1 + os)) /\
      (forall b, In b (bs ++ ss) -> 0 <= b_qty b /\ b_qty b <= 1 /\ machine R (b_qty b) /\ machine R (b_price b) /\ b_time b = 0 /\ b_div b = true) /\
      (u + u < e -> NoDup (map b_qty bs) /\ NoDup (map b_qty ss)) /\
      ((u + u) * (qz 2 + qabs ob) < e -> NoDup (map b_price bs)) /\ ((u + u) * (qz 2 + qabs os) < e -> NoDup (map b_price ss)).
Proof. exact generate_r_ok. Qed.
Print Assumptions C102_generate.

(** Double precision. *)
Theorem C102_double :
  forall nb ns os ob r eps, 0 < eps -> machine f64 os -> machine f64 ob ->
    let e := grid_step f64 (Nat.max nb ns) eps in (Z.of_nat (Nat.max nb ns) <= 2 ^ 53)%Z -> (Z.of_nat (arange_len_r f64 e) <= 2 ^ 53)%Z ->
    exists bs ss, generate_r f64 nb ns os ob r eps = Ok (bs ++ ss) /\ length bs = nb /\ length ss = ns /\
      (forall b, In b (bs ++ ss) -> 0 <= b_qty b /\ b_qty b <= 1) /\
      (forall b, In b bs -> ob <= b_price b /\ b_price b <= f64 (1 + ob)) /\ (forall b, In b ss -> os <= b_price b /\ b_price b <= f64 (1 + os)) /\
      (p2 (-52) < e -> NoDup (map b_qty bs) /\ NoDup (map b_qty ss)) /\
      (p2 (-52) * (qz 2 + qabs ob) < e -> NoDup (map b_price bs)) /\ (p2 (-52) * (qz 2 + qabs os) < e -> NoDup (map b_price ss)).
Proof. exact generate_double. Qed.
Print Assumptions C102_double.

(** A step that is a power of two, and offsets that are multiples of it: no rounding at all. *)
Theorem C102_dyadic :
  forall nb ns r (k ms mb : Z), (0 <= k <= 52)%Z -> (0 <= ms)%Z -> (0 <= mb)%Z -> (ms + 2 ^ k <= 2 ^ 53)%Z -> (mb + 2 ^ k <= 2 ^ 53)%Z ->
    (Z.of_nat (Nat.max nb ns) <= 2 ^ k)%Z ->
    let eps := p2 (- k) in let os := qz ms * eps in let ob := qz mb * eps in
    generate_r f64 nb ns os ob r eps = generate nb ns os ob r eps.
Proof. exact generate_dyadic. Qed.
Print Assumptions C102_dyadic.

(** Peer to peer trading and MUDA in the same arithmetic never fail on the bids. *)
Theorem C102_runs :
  forall (R : rounding) (A : adder R) u, rel_error R u -> u <= qf 1 4 -> forall nb ns os ob r eps, 0 < eps ->
    whole R (Nat.max 1 (arange_len_r R (grid_step R (Nat.max nb ns) eps))) -> machine R (qnat (Nat.max nb ns)) -> machine R os -> machine R ob ->
    forall bs, generate_r R nb ns os ob r eps = Ok bs ->
      (forall c rr, exists tm gtl, p2p_random_r R A (table_of bs) c rr = Ok (tm, XP2P gtl)) /\
      (forall S fl, 0 <= os -> 0 <= ob -> exists tm ex, muda_r R A S (table_of bs) fl = Ok (tm, ex)).
Proof.
  exact (fun R A u RE U nb ns os ob r eps He W Wm Ms Mb bs E =>
    conj (gen_p2p R A u RE U nb ns os ob r eps He W Wm Ms Mb bs E) (gen_muda R A u RE U nb ns os ob r eps He W Wm Ms Mb bs E)).
Qed.
Print Assumptions C102_runs.

(** The exact generator never draws the same price twice on a side.  In double precision it can for large offsets: with offset
    2^53 and step 1/4 two buyers get the same price. *)
Theorem C102_distinct_refuted :
  exists nb ns os ob r eps bs, 0 < eps /\ machine f64 os /\ machine f64 ob /\ machine f64 eps /\ generate_r f64 nb ns os ob r eps = Ok bs /\
    ~ NoDup (map b_price (filter b_buying bs)).
Proof.
  exists 2%nat, 1%nat, 1, (p2 53), (chooser_of true), (qf 1 4).
  destruct (generate_r f64 2 1 1 (p2 53) (chooser_of true) (qf 1 4)) as [bs|e] eqn:E; [|vm_compute in E; discriminate E].
  exists bs. repeat (split; [first [reflexivity | apply Qc_is_canon; vm_compute; reflexivity]|]).
  intro N. assert (Q : map (fun b => this (b_price b)) (filter b_buying bs) = [9007199254740992 # 1; 9007199254740992 # 1]%Q) by (vm_compute in E; injection E as <-; vm_compute; reflexivity).
  assert (N' : NoDup (map (fun b => this (b_price b)) (filter b_buying bs))).
  { rewrite <- (map_map b_price this). apply FinFun.Injective_map_NoDup; [|exact N]. intros x y H. apply Qc_is_canon. rewrite H. reflexivity. }
  rewrite Q in N'. inversion N' as [|? ? X _]. apply X. left. reflexivity.
Qed.
Print Assumptions C102_distinct_refuted.

(** the doctest of [generate] (uniform_bidders.py:46-48): step 0.1, offsets 1 and 2.  The positions are read off the printed bids
    (the random generator is not modelled); the values at these positions are the printed doubles, last digits included *)
Definition positions (k : nat) : list nat := nth k [[5; 7]; [8; 5]; [6; 1; 2]; [2; 7; 3]]%nat [].
Definition dec (n : Z) (d : positive) : Q := this (f64 (qf n d)).
Example C102_doctest :
  let e := f64 (qf 1 10) in let at_ i := this (arange_at_r f64 e i) in let plus o i := this (f64 (arange_at_r f64 e i + o)) in
  arange_len_r f64 e = 10%nat /\
  map at_ (positions 0) = [dec 5 10; dec 7000000000000001 10000000000000000] /\
  map (plus (qz 2)) (positions 1) = [dec 28 10; dec 25 10] /\
  map at_ (positions 2) = [dec 6000000000000001 10000000000000000; dec 1 10; dec 2 10] /\
  map (plus 1) (positions 3) = [dec 12 10; dec 17000000000000002 10000000000000000; dec 13 10].
Proof. vm_compute. auto 10. Qed.
