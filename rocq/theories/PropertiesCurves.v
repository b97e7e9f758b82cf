(** Properties C03-C07 and C44: demand and supply curves, their values and their intersection. *)
From Verif Require Import QcTac Num ModelBase ModelCurves Spec NumFacts CurveFacts IntersectFacts CurveTop Sorter Conform.

(** C03. The demand curve is the inverse of aggregate demand. *)
Theorem C03_demand_curve :
  forall (S : sorter) (d : df), qty_nonneg d ->
    (forall x, 0 < x -> x <= total_demand d ->
       exists p, get_value_stepwise (Fin x) (fst (demand_curve_from_bids S d)) = Some (Fin p) /\
         x <= demand_at d p /\ demand_above d p < x /\
         exists r, In r d /\ buying r = true /\ price r = p) /\
    (forall x, 0 <= x -> total_demand d < x ->
       get_value_stepwise (Fin x) (fst (demand_curve_from_bids S d)) = Some (Fin 0)).
Proof. exact (fun S d H => conj (demand_inverse S d H) (demand_beyond S d H)). Qed.
Print Assumptions C03_demand_curve.

(** C03, continued: the value at any point depends only on the multiset of buying bids, not on the
    selling bids, the order of submission or the way the sort breaks ties. *)
Theorem C03_demand_curve_only_buyers :
  forall (S1 S2 : sorter) (d d' : df) (x : num), qty_nonneg d -> qty_nonneg d' ->
    Permutation (filter buying d) (filter buying d') ->
    get_value_stepwise x (fst (demand_curve_from_bids S1 d)) =
    get_value_stepwise x (fst (demand_curve_from_bids S2 d')).
Proof. exact demand_value_indep. Qed.
Print Assumptions C03_demand_curve_only_buyers.

Definition ex_bids : df :=
  frame [B (qz 2) (qz 5) 0; A (qz 1) (qz 1) 1; B (qz 1) (qz 7) 2; A (qz 3) (qz 6) 3; B (qz 1) (qz 5) 4].
Lemma ex_bids_qty : qty_nonneg ex_bids.
Proof. intros r Hr. repeat (destruct Hr as [<-|Hr]; [vm_compute; congruence|]). contradiction. Qed.
(** at 2 units the curve is 5; 4 units are wanted at >= 5 and only 1 at > 5 *)
Example C03_example :
  option_map show_num (get_value_stepwise (Fin (qz 2)) (fst (demand_curve_from_bids SS ex_bids))) = Some (Some 5%Q)
  /\ this (demand_at ex_bids (qz 5)) = 4%Q /\ this (demand_above ex_bids (qz 5)) = 1%Q.
Proof. vm_compute. auto. Qed.

(** C04. The supply curve is the inverse of aggregate supply. *)
Theorem C04_supply_curve :
  forall (S : sorter) (d : df), qty_nonneg d ->
    (forall x, 0 < x -> x <= total_supply d ->
       exists p, get_value_stepwise (Fin x) (fst (supply_curve_from_bids S d)) = Some (Fin p) /\
         x <= supply_at d p /\ supply_below d p < x /\
         exists r, In r d /\ buying r = false /\ price r = p) /\
    (forall x, 0 <= x -> total_supply d < x ->
       get_value_stepwise (Fin x) (fst (supply_curve_from_bids S d)) = Some PInf).
Proof. exact (fun S d H => conj (supply_inverse S d H) (supply_beyond S d H)). Qed.
Print Assumptions C04_supply_curve.

Theorem C04_supply_curve_only_sellers :
  forall (S1 S2 : sorter) (d d' : df) (x : num), qty_nonneg d -> qty_nonneg d' ->
    Permutation (filter (fun r => negb (buying r)) d) (filter (fun r => negb (buying r)) d') ->
    get_value_stepwise x (fst (supply_curve_from_bids S1 d)) =
    get_value_stepwise x (fst (supply_curve_from_bids S2 d')).
Proof. exact supply_value_indep. Qed.
Print Assumptions C04_supply_curve_only_sellers.

Example C04_example :
  option_map show_num (get_value_stepwise (Fin (qz 2)) (fst (supply_curve_from_bids SS ex_bids))) = Some (Some 6%Q)
  /\ this (supply_at ex_bids (qz 6)) = 4%Q /\ this (supply_below ex_bids (qz 6)) = 1%Q.
Proof. vm_compute. auto. Qed.

(** C05. The curves list each bid of their side once in price order, with cumulative quantities,
    followed by the sentinel row. *)
Theorem C05_demand_shape :
  forall (S : sorter) (d : df), exists l,
    Permutation l (filter buying d) /\ StronglySorted (fun a b => price b <= price a) l /\
    snd (demand_curve_from_bids S d) = map lbl l /\
    length (fst (demand_curve_from_bids S d)) = Datatypes.S (length l) /\
    nth_error (fst (demand_curve_from_bids S d)) (length l) = Some (PInf, Fin 0) /\
    forall i r, nth_error l i = Some r ->
      nth_error (fst (demand_curve_from_bids S d)) i =
        Some (Fin (qsumf qty (firstn (Datatypes.S i) l)), Fin (price r)).
Proof. exact demand_shape. Qed.
Print Assumptions C05_demand_shape.

Theorem C05_supply_shape :
  forall (S : sorter) (d : df), exists l,
    Permutation l (filter (fun r => negb (buying r)) d) /\ StronglySorted (fun a b => price a <= price b) l /\
    snd (supply_curve_from_bids S d) = map lbl l /\
    length (fst (supply_curve_from_bids S d)) = Datatypes.S (length l) /\
    nth_error (fst (supply_curve_from_bids S d)) (length l) = Some (PInf, PInf) /\
    forall i r, nth_error l i = Some r ->
      nth_error (fst (supply_curve_from_bids S d)) i =
        Some (Fin (qsumf qty (firstn (Datatypes.S i) l)), Fin (price r)).
Proof. exact supply_shape. Qed.
Print Assumptions C05_supply_shape.

Example C05_example : snd (demand_curve_from_bids SS ex_bids) = [2; 0; 4]%nat
  /\ map (fun p => show_num (fst p)) (fst (demand_curve_from_bids SS ex_bids)) = [Some 1%Q; Some 3%Q; Some 4%Q; None].
Proof. vm_compute. auto. Qed.

(** C06. [intersect_stepwise] never fails on well formed curves; it returns the crossing (and the
    pieces of both curves it lies in) if there is one, and None exactly when there is none. *)
Theorem C06_intersection :
  forall (f g : steps) (k : Qc),
    f <> [] -> g <> [] -> ends_sorted f -> ends_sorted g -> decreasing f -> increasing g ->
    (exists x i j u w v,
       intersect_stepwise f g k = Ok (Some x, Some i, Some j, v) /\
       Crossing f g x /\ (is_end f x \/ is_end g x) /\ StepAt f x i u /\ StepAt g x j w) \/
    (exists v, intersect_stepwise f g k = Ok (None, None, None, v) /\ forall x, ~ Crossing f g x).
Proof. exact intersect_cases. Qed.
Print Assumptions C06_intersection.

Theorem C06_crossing_unique :
  forall (f g : steps) (x y : num), Crossing f g x -> Crossing f g y -> x = y.
Proof. exact crossing_unique. Qed.
Print Assumptions C06_crossing_unique.

Example C06_example :
  show_int (intersect_stepwise (crv [(qz 1, qz 9); (qz 2, qz 6); (qz 5, qz 1)]) (crv [(qz 1, qz 2); (qz 4, qz 5)]) (qf 1 2))
  = Some (Some (Some 2%Q), Some 1%nat, Some 1%nat, Some 5%Q).
Proof. vm_compute. reflexivity. Qed.

(** The curves built from bids satisfy the hypotheses of C06. *)
Theorem C06_bid_curves_well_formed :
  forall (S : sorter) (d : df), qty_nonneg d -> price_nonneg d ->
    let f := fst (demand_curve_from_bids S d) in
    let g := fst (supply_curve_from_bids S d) in
    f <> [] /\ g <> [] /\ ends_sorted f /\ ends_sorted g /\ decreasing f /\ increasing g.
Proof.
  exact (fun S d Hq Hp => conj (demand_nonempty S d) (conj (supply_nonempty S d)
    (conj (demand_ends S d Hq) (conj (supply_ends S d Hq)
    (conj (demand_decreasing S d Hp) (supply_increasing S d)))))).
Qed.
Print Assumptions C06_bid_curves_well_formed.

(** C07. The ordinate at a crossing lies between the curves; if the crossing is an end point of only
    one of them, it also lies between the values just after the crossing, i.e. it clears the market. *)
Theorem C07_ordinate :
  forall (f g : steps) (k : Qc) (x : num) (i j : nat) (u w : Qc) (v : num),
    f <> [] -> g <> [] -> ends_sorted f -> ends_sorted g -> decreasing f -> increasing g ->
    0 <= k -> k <= 1 ->
    intersect_stepwise f g k = Ok (Some x, Some i, Some j, v) ->
    StepAt f x i (Fin u) -> StepAt g x j (Fin w) ->
    exists q, v = Fin q /\ w <= q /\ q <= u /\
      (~ (is_end f x /\ is_end g x) ->
       forall y m a n b, nltb x y = true -> StepAt f y m a -> StepAt g y n b ->
         nleb a (Fin q) = true /\ nleb (Fin q) b = true).
Proof. exact ordinate_spec. Qed.
Print Assumptions C07_ordinate.

(** C07, refuted in general: at a common end point the returned ordinate need not clear the market.
    Demand 10 up to 1 and 9 up to 2, supply 1 up to 1 and 19/2 up to 2: the result is 11/2, at which
    demand (2 units) exceeds supply (1 unit). *)
Theorem C07_common_end_refuted :
  exists (f g : steps) (x : num) (i j : nat) (q : Qc),
    f <> [] /\ g <> [] /\ ends_sorted f /\ ends_sorted g /\ decreasing f /\ increasing g /\
    intersect_stepwise f g (qf 1 2) = Ok (Some x, Some i, Some j, Fin q) /\
    exists y m a n b, nltb x y = true /\ StepAt f y m a /\ StepAt g y n b /\ nleb a (Fin q) = false.
Proof. exact common_end_witness. Qed.
Print Assumptions C07_common_end_refuted.

Example C07_example :
  show_int (intersect_stepwise (crv [(qz 1, qz 10); (qz 2, qz 9)]) (crv [(qz 1, qz 1); (qz 2, qf 19 2)]) (qf 1 2))
  = Some (Some (Some 1%Q), Some 0%nat, Some 0%nat, Some (11#2)%Q).
Proof. vm_compute. reflexivity. Qed.

(** C07. Which value is returned at a crossing. *)
Theorem C07_ordinate_exact :
  forall (f g : steps) (k : Qc) (x : num) (i j : nat) (u w : Qc) (v : num),
    f <> [] -> g <> [] -> ends_sorted f -> ends_sorted g -> decreasing f -> increasing g ->
    intersect_stepwise f g k = Ok (Some x, Some i, Some j, v) ->
    StepAt f x i (Fin u) -> StepAt g x j (Fin w) ->
    (is_end f x /\ is_end g x -> v = Fin (w * k + (1 - k) * u)) /\
    (is_end f x /\ ~ is_end g x -> v = Fin w) /\
    (~ is_end f x /\ is_end g x -> v = Fin u).
Proof. exact ordinate_exact. Qed.
Print Assumptions C07_ordinate_exact.

(** C07. Without a crossing the value is the weighted mean at the end of the common domain. *)
Theorem C07_ordinate_no_crossing :
  forall (f g : steps) (k : Qc) (v : num),
    f <> [] -> g <> [] -> ends_sorted f -> ends_sorted g -> decreasing f -> increasing g ->
    intersect_stepwise f g k = Ok (None, None, None, v) ->
    exists xm i u j w, nleb (Fin 0) xm = true /\
      (forall x, nleb (Fin 0) x = true -> (nleb x xm = true <-> both_defined f g x)) /\
      StepAt f xm i u /\ StepAt g xm j w /\
      v = nadd (nmul w (Fin k)) (nmul (Fin (1 - k)) u).
Proof. exact ordinate_none. Qed.
Print Assumptions C07_ordinate_no_crossing.
Example C07_no_crossing_example :
  show_int (intersect_stepwise (crv [(qz 1, qz 10); (qz 2, qz 9)]) (crv [(qz 1, qz 1); (qz 3, qz 5)]) (qf 1 4))
  = Some (None, None, None, Some 8%Q).
Proof. vm_compute. reflexivity. Qed.

(** C44. [get_value_stepwise] evaluates the step function; it has no value for negative arguments. *)
Theorem C44_value :
  forall (x : num) (f : steps) (v : num), nleb (Fin 0) x = true ->
    (get_value_stepwise x f = Some v <-> exists i, StepAt f x i v).
Proof. exact value_exact. Qed.
Print Assumptions C44_value.
Theorem C44_negative :
  forall (x : num) (f : steps), nltb x (Fin 0) = true -> get_value_stepwise x f = None.
Proof. exact value_negative. Qed.
Print Assumptions C44_negative.
Example C44_example :
  map (fun x => option_map show_num (get_value_stepwise (Fin x) (crv [(qz 1, qz 9); (qz 3, qz 4)]))) [qz (-1); 0; qz 1; qf 3 2; qz 3; qz 4]
  = [None; Some (Some 9%Q); Some (Some 9%Q); Some (Some 4%Q); Some (Some 4%Q); None].
Proof. vm_compute. reflexivity. Qed.
