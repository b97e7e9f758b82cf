(** Properties C49 - C52, and sharper statements for C36, C40 and C41. *)
From Verif Require Import QcTac Num ModelBase ModelCurves ModelHuang ModelMuda ModelP2P ModelMerge ModelMarket ModelStats ModelDatasets
  Spec SpecTrade SpecAlloc SpecStats SpecMarket SpecHuang SpecFee SpecMuda Sorter Solver Conform PriceExact MudaIndex MudaWitness MoreFacts.

(** C49. The competitive price: the price of the marginal bid that is only partly used, and the middle
    of both marginal prices when both are used up; infinity without marginal bids. *)
Theorem C49_price :
  forall (S : sorter) (d : df), qty_pos d -> price_nonneg d -> asks_pos d ->
  forall ps pb c, Marginal d ps pb c ->
    (c = demand_at d pb -> c = supply_at d ps -> find_competitive_price S d = Ok (Fin ((ps + pb) / qz 2))) /\
    (prices_distinct d -> c < supply_at d ps -> c = demand_at d pb /\ find_competitive_price S d = Ok (Fin ps)) /\
    (prices_distinct d -> c < demand_at d pb -> c = supply_at d ps /\ find_competitive_price S d = Ok (Fin pb)).
Proof. exact exact_price. Qed.
Print Assumptions C49_price.
Theorem C49_no_price :
  forall (S : sorter) (d : df), qty_pos d -> price_nonneg d ->
    (forall ps pb c, ~ Marginal d ps pb c) -> find_competitive_price S d = Ok PInf.
Proof. exact no_price. Qed.
Print Assumptions C49_no_price.
Definition show_price (r : res num) : option (option Q) := match r with Ok p => Some (show_num p) | Err _ => None end.
(** the seller at 6 is partly used; the buyer at 8 is partly used; both are used up; no trade *)
Example C49_example :
  let d1 := frame [B (qz 3) (qz 9) 0; B (qz 1) (qz 8) 1; A (qz 2) (qz 1) 3; A (qz 3) (qz 6) 4] in
  let d2 := frame [B (qz 3) (qz 9) 0; B (qz 2) (qz 8) 1; A (qz 2) (qz 1) 3; A (qz 2) (qz 6) 4] in
  let d3 := frame [B (qz 3) (qz 9) 0; B (qz 1) (qz 8) 1; A (qz 2) (qz 1) 3; A (qz 2) (qz 6) 4] in
  let d4 := frame [B (qz 3) (qz 5) 0; A (qz 2) (qz 6) 4] in
  map (fun d => (this (demand_at d (qz 8)), this (supply_at d (qz 6)))) [d1; d2; d3] = [(4, 5); (5, 4); (4, 4)]%Q /\
  map (fun d => show_price (find_competitive_price SS d)) [d1; d2; d3; d4] = [Some (Some 6); Some (Some 8); Some (Some 7); Some None]%Q.
Proof. vm_compute. split; reflexivity. Qed.

(** C50. One half: the transactions do not depend on the fees so far; the run fails exactly when a user
    that is charged has no entry in the list of fees. *)
Theorem C50_half :
  forall (S : sorter) (h : df) (p : num), qty_nonneg h -> labels_unique h ->
  exists tl, forall fees : list Qc,
    ((forall u, charged h p tl u -> valid_index (length fees) u) ->
       exists tm fees', solve_market_side S h p fees = Ok (tm, fees') /\ tm_trans tm = tl /\ length fees' = length fees) /\
    (forall u, charged h p tl u -> ~ valid_index (length fees) u -> solve_market_side S h p fees = Err IndexError).
Proof. exact half_index. Qed.
Print Assumptions C50_half.
(** C50. The whole auction: without repeated prices of one user it succeeds exactly when all charged
    users are valid indices of the list of fees, which has one entry per distinct user. *)
Theorem C50_muda :
  forall (S : sorter) (d : df) (fl : list bool), qty_nonneg d -> price_nonneg d -> labels_unique d -> ~ repeated_price d ->
  exists l r pl pr tlL tlR,
    Permutation (l ++ r) (map lbl d) /\
    (forall n x, nth_error d n = Some x -> (In (lbl x) l <-> nth n fl false = true)) /\
    find_competitive_price S (rows_in l d) = Ok pl /\ find_competitive_price S (rows_in r d) = Ok pr /\
    let n := length (nodup Z.eq_dec (map user d)) in
    ((forall u, charged (rows_in l d) pr tlL u \/ charged (rows_in r d) pl tlR u -> valid_index n u) ->
       exists tm fees, muda S d fl = Ok (tm, XMuda l r pl pr fees) /\ tm_trans tm = tlL ++ tlR /\ length fees = n) /\
    (forall u, charged (rows_in l d) pr tlL u \/ charged (rows_in r d) pl tlR u -> ~ valid_index n u ->
       muda S d fl = Err IndexError).
Proof. exact muda_index. Qed.
Print Assumptions C50_muda.
(** the same bids with users 0..5, with the long side buyer named 6 (no such index) and named -1 (the last one) *)
Example C50_example :
  let d u := frame [B (qz 2) (qz 10) u; B (qz 1) (qz 8) 1; A (qz 1) (qz 1) 2; B (qz 1) (qz 12) 3; A (qz 1) (qz 2) 5; B (qz 1) (qz 9) 4] in
  let fl := [true; true; true; false; false; false] in
  let fees r := match r with Ok (_, XMuda _ _ _ _ f) => Some (map this f) | _ => None end in
  fees (muda SS (d 0%Z) fl) = Some [1; 0; 0; 0; 0; 0]%Q /\
  fees (muda SS (d (-1)%Z) fl) = Some [0; 0; 0; 0; 0; 1]%Q /\
  muda SS (d 6%Z) fl = Err IndexError.
Proof. vm_compute. auto. Qed.

(** C51. [get_trading_bids]: cutting a side at a quantity. *)
Theorem C51_cut :
  forall (L : df) (Q : Qc), (forall r, In r L -> 0 < qty r) -> 0 < Q -> Q <= qsumf qty L ->
  exists pre r post q, L = pre ++ r :: post /\ qsumf qty pre + q = Q /\ 0 < q /\
    (q = qty r -> get_trading_bids L Q = Ok (L, length pre)) /\
    (q <> qty r -> q < qty r /\
       get_trading_bids L Q = Ok (pre ++ [with_qty r q; with_qty r (qty r - q)] ++ post, length pre)).
Proof. exact cut_inside. Qed.
Print Assumptions C51_cut.
Theorem C51_cut_too_much :
  forall (L : df) (Q : Qc), L <> [] -> qsumf qty L < Q -> get_trading_bids L Q = Ok (L, (length L - 1)%nat).
Proof. exact cut_all. Qed.
Print Assumptions C51_cut_too_much.
Theorem C51_cut_empty : forall Q : Qc, get_trading_bids [] Q = Err IndexError.
Proof. exact cut_empty. Qed.
Print Assumptions C51_cut_empty.
Example C51_example :
  let L := frame [B 1 (qz 9) 0; B (qz 3) (qz 8) 1; B 1 (qz 7) 2] in
  let sh r := match r with Ok (l, k) => Some (map (fun x => (lbl x, this (qty x))) l, k) | Err _ => None end in
  sh (get_trading_bids L (qz 2)) = Some ([(0, 1%Q); (1, 1%Q); (1, 2%Q); (2, 1%Q)], 1)%nat /\
  sh (get_trading_bids L (qz 4)) = Some ([(0, 1%Q); (1, 3%Q); (2, 1%Q)], 1)%nat /\
  sh (get_trading_bids L (qz 9)) = Some ([(0, 1%Q); (1, 3%Q); (2, 1%Q)], 2)%nat.
Proof. vm_compute. auto. Qed.

(** C52. The numbers of the curves are ordered and calculated with like IEEE numbers without rounding. *)
Theorem C52_order :
  (forall a, nleb NaN a = false /\ nleb a NaN = false /\ nltb NaN a = false /\ nltb a NaN = false /\ neqb NaN a = false /\ neqb a NaN = false) /\
  (forall x y, nleb (Fin x) (Fin y) = qleb x y /\ nltb (Fin x) (Fin y) = qltb x y /\ neqb (Fin x) (Fin y) = qeqb x y) /\
  (forall a, a <> NaN -> nleb NInf a = true /\ nleb a PInf = true) /\
  (forall a b, a <> NaN -> b <> NaN -> nltb a b = negb (nleb b a) /\ neqb a b = (nleb a b && nleb b a)%bool /\ (neqb a b = true <-> a = b)) /\
  (forall a b c, nleb a b = true -> nleb b c = true -> nleb a c = true).
Proof. exact num_order. Qed.
Print Assumptions C52_order.
Theorem C52_arithmetic :
  (forall x y, nadd (Fin x) (Fin y) = Fin (x + y) /\ nmul (Fin x) (Fin y) = Fin (x * y)) /\
  (forall a b, nadd a b = nadd b a /\ nmul a b = nmul b a) /\
  (forall a, nadd NaN a = NaN /\ nmul NaN a = NaN) /\
  (forall a, a <> NaN -> a <> NInf -> nadd PInf a = PInf) /\ (forall a, a <> NaN -> a <> PInf -> nadd NInf a = NInf) /\ nadd PInf NInf = NaN /\
  (forall a, nltb (Fin 0) a = true -> nmul PInf a = PInf /\ nmul NInf a = NInf) /\
  (forall a, nltb a (Fin 0) = true -> nmul PInf a = NInf /\ nmul NInf a = PInf) /\
  nmul PInf (Fin 0) = NaN /\ nmul NInf (Fin 0) = NaN.
Proof. exact num_arith. Qed.
Print Assumptions C52_arithmetic.
Theorem C52_extrema :
  forall a b, (a = NaN \/ b = NaN -> nmax a b = NaN /\ nmin a b = NaN) /\
  (a <> NaN -> b <> NaN -> (nmax a b = a \/ nmax a b = b) /\ nleb a (nmax a b) = true /\ nleb b (nmax a b) = true /\
     (nmin a b = a \/ nmin a b = b) /\ nleb (nmin a b) a = true /\ nleb (nmin a b) b = true).
Proof. exact num_extrema. Qed.
Print Assumptions C52_extrema.
Example C52_example :
  nmul PInf (Fin (- (1))) = NInf /\ nmax (Fin 1) PInf = PInf /\ nadd (nmul (Fin 0) PInf) (Fin 1) = NaN /\
  show_num (nadd (nmul (Fin (qf 1 2)) (Fin (qz 5))) (nmul (Fin (qf 1 2)) (Fin (qz 2)))) = Some (7#2)%Q.
Proof. vm_compute. auto. Qed.

(** C36 without any condition on the transactions: half of the total quantity over the maximum. *)
Theorem C36_traded_any :
  forall (sv : solver) (d : df) (tl : list trans), map lbl d = seq 0 (length d) -> qty_nonneg d -> solver_ok sv ->
  exists x vmax, alloc_ok d x /\ alloc_compat d x /\ SpecAlloc.volume d x = vmax /\
    (forall y, alloc_ok d y -> alloc_compat d y -> SpecAlloc.volume d y <= vmax) /\
    percentage_traded sv d tl = Ok (if qltb 0 vmax then Some (qsumf t_qty tl / qz 2 / vmax) else None).
Proof. exact traded_any. Qed.
Print Assumptions C36_traded_any.
(** one transaction without a counterpart counts half *)
Example C36_any_example :
  match percentage_traded fm_solver (frame [B (qz 2) (qz 3) 0; A (qz 2) 1 1]) [mkTrans 0 1 1 (-1) false] with
  | Ok (Some x) => this x = (1#4)%Q | _ => False end.
Proof. vm_compute. reflexivity. Qed.

(** C40. Each name runs its own mechanism on the stored bids when both sides are present; any other name
    is a KeyError. *)
Theorem C40_dispatch :
  forall (S : sorter) (m : market), ~ one_sided (get_df (mk_bm m)) ->
  (forall fl, snd (market_run S m (AMuda fl)) = muda S (get_df (mk_bm m)) fl) /\
  (forall c r, snd (market_run S m (AP2P c r)) = p2p_random (get_df (mk_bm m)) c r).
Proof. exact run_dispatch. Qed.
Print Assumptions C40_dispatch.
Theorem C40_unknown : forall (S : sorter) (m : market), snd (market_run S m AUnknown) = Err KeyError.
Proof. exact run_unknown. Qed.
Print Assumptions C40_unknown.
Example C40_dispatch_example :
  let m := session SS fm_solver market_init [OAccept (B 1 (qz 3) 0); OAccept (A 1 1 1)] in
  map (fun r => match r with Ok (_, x) => Some (show_x x) | Err _ => None end)
    [snd (market_run SS m (AMuda [true; true])); snd (market_run SS m (AP2P (qf 1 2) (fun _ => 0%nat))); snd (market_run SS m AUnknown)] =
  [Some (SM [0; 1]%nat [] (Some 2%Q) None [0; 0]%Q); Some (SP [[(0, 1)]]%nat); None].
Proof. vm_compute. reflexivity. Qed.

(** C41. Quantities and prices are drawn from a grid on [0, 1): four draws, with the given step or, if
    that has too few points, half of one over the larger number of bids. *)
Theorem C41_grid :
  forall (nb ns : nat) (os ob : Qc) (r : chooser) (eps : Qc), 0 < eps ->
  exists e n bs ss, generate nb ns os ob r eps = Ok (bs ++ ss) /\
    (qnat (Nat.max nb ns) <= 1 / eps -> e = eps) /\ (1 / eps < qnat (Nat.max nb ns) -> e = 1 / (qz 2 * qnat (Nat.max nb ns))) /\
    0 < e /\ (Nat.max nb ns <= n)%nat /\ 1 <= qnat n * e /\ (forall i, (i < n)%nat -> qnat i * e < 1) /\
    map b_qty bs = map (fun i => qnat i * e) (ch r 0 n nb) /\ map b_price bs = map (fun i => ob + qnat i * e) (ch r 1 n nb) /\
    map b_qty ss = map (fun i => qnat i * e) (ch r 2 n ns) /\ map b_price ss = map (fun i => os + qnat i * e) (ch r 3 n ns) /\
    length bs = nb /\ length ss = ns.
Proof. exact generate_grid. Qed.
Print Assumptions C41_grid.
