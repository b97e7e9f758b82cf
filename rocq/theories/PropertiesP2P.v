(** Properties C28 - C33: the p2p mechanism.  [r] is the sequence of answers of the random generator.
    Labels are positions, as in the tables of the bid manager (C01). *)
From Verif Require Import QcTac Num ModelBase ModelHuang ModelP2P ModelStats Spec SpecTrade SpecAlloc Conform
  P2PFacts P2PTrades LPFacts.

(** C28. The run returns; two transactions per meeting; no pair meets twice; each round is a nonempty
    matching; each pair joins a buying and a selling bid. *)
Theorem C28_p2p_terminates :
  forall (d : df) (c : Qc) (r : nat -> nat), map lbl d = seq 0 (length d) -> qty_nonneg d ->
    exists tm ex, p2p_random d c r = Ok (tm, ex).
Proof. exact (fun d c r Hl Hq => let '(ex_intro _ _ (conj E _)) := p2p_run d c r Hl Hq in ex_intro _ _ (ex_intro _ _ E)). Qed.
Print Assumptions C28_p2p_terminates.
(** labels that are not positions of the table *)
Theorem C28_p2p_labels :
  forall (d : df) (c : Qc) (r : nat -> nat) (x y : row), In x d -> In y d -> buying x = true -> buying y = false ->
    (length d <= lbl x \/ length d <= lbl y)%nat -> p2p_random d c r = Err IndexError.
Proof. exact p2p_labels. Qed.
Print Assumptions C28_p2p_labels.
Theorem C28_p2p_matching :
  forall (d : df) (c : Qc) (r : nat -> nat), map lbl d = seq 0 (length d) -> qty_nonneg d ->
    forall tm ex, p2p_random d c r = Ok (tm, ex) ->
    exists gtl, ex = XP2P gtl /\ Meetings (concat gtl) (tm_trans tm) /\ NoDup (concat gtl) /\
      (forall T, In T gtl -> T <> [] /\ NoDup (flat_map (fun p => [fst p; snd p]) T)) /\
      (forall b s, In (b, s) (concat gtl) ->
         exists x y, In x d /\ In y d /\ buying x = true /\ buying y = false /\ lbl x = b /\ lbl y = s).
Proof. exact p2p_matching. Qed.
Print Assumptions C28_p2p_matching.
Definition p2p_bids := frame [B (qz 2) (qz 5) 0; A (qz 1) (qz 1) 1; B (qz 1) (qz 2) 2; A (qz 3) (qz 3) 3].
Example C28_example :
  (map lbl p2p_bids = seq 0 (length p2p_bids) /\ qty_pos p2p_bids) /\
  show (p2p_random p2p_bids (qf 1 2) (fun _ => 1%nat)) = Some
  ([(0%nat, 2%Q, 4%Q, 3%Z, false); (3%nat, 2%Q, 4%Q, 0%Z, true);
    (2%nat, 1%Q, (3#2)%Q, 1%Z, false); (1%nat, 1%Q, (3#2)%Q, 2%Z, false)], SP [[(0, 3); (2, 1)]%nat]).
Proof.
  split; [split; [reflexivity|]|vm_compute; reflexivity].
  intros r H. repeat (destruct H as [<-|H]; [reflexivity|]). destruct H.
Qed.

(** C29. Transactions come in pairs with the same quantity and price (C28: [Meetings]); what is bought
    is sold; no quantity is negative, no bid is over-filled. *)
Theorem C29_p2p_conserves :
  forall (d : df) (c : Qc) (r : nat -> nat), map lbl d = seq 0 (length d) -> qty_nonneg d ->
    forall tm ex, p2p_random d c r = Ok (tm, ex) ->
    bought d (tm_trans tm) = sold d (tm_trans tm) /\ refer d (tm_trans tm) /\ feasible d (tm_trans tm).
Proof.
  exact (fun d c r Hl Hq tm ex E =>
    conj (p2p_balanced d c r Hl Hq tm ex E) (conj (p2p_refer d c r Hl Hq tm ex E) (p2p_feasible d c r Hl Hq tm ex E))).
Qed.
Print Assumptions C29_p2p_conserves.
Example C29_example :
  match p2p_random p2p_bids (qf 1 2) (fun _ => 1%nat) with
  | Ok (tm, _) => map this [bought p2p_bids (tm_trans tm); sold p2p_bids (tm_trans tm); traded_by 3 (tm_trans tm)] = [3; 3; 2]%Q
  | Err _ => False
  end.
Proof. vm_compute. reflexivity. Qed.

(** C30. The price of a meeting is the weighted mean of bid and ask, and the quantity and price are 0
    when the bid is below the ask; with a weight in [0,1] nobody loses. *)
Theorem C30_p2p_price :
  forall (d : df) (c : Qc) (r : nat -> nat), map lbl d = seq 0 (length d) -> qty_nonneg d ->
    forall tm ex, p2p_random d c r = Ok (tm, ex) -> forall t, In t (tm_trans tm) ->
    exists x y, In x d /\ In y d /\ buying x = true /\ buying y = false /\
      (t_bid t = lbl x /\ t_source t = Z.of_nat (lbl y) \/ t_bid t = lbl y /\ t_source t = Z.of_nat (lbl x)) /\
      (price y <= price x -> t_price t = price x * c + (1 - c) * price y) /\
      (price x < price y -> t_qty t = 0 /\ t_price t = 0).
Proof. exact p2p_prices. Qed.
Print Assumptions C30_p2p_price.
Theorem C30_p2p_rational :
  forall (d : df) (c : Qc) (r : nat -> nat), map lbl d = seq 0 (length d) -> qty_nonneg d ->
    forall tm ex, p2p_random d c r = Ok (tm, ex) -> 0 <= c -> c <= 1 ->
    forall t x, In t (tm_trans tm) -> 0 < t_qty t -> In x d -> lbl x = t_bid t ->
    if buying x then t_price t <= price x else price x <= t_price t.
Proof. exact p2p_rational. Qed.
Print Assumptions C30_p2p_rational.
(** draws that make the incompatible pair meet: price 0 and quantity 0 *)
Example C30_example :
  show (p2p_random p2p_bids (qf 1 2) (fun k => match k with O => 3 | _ => 0 end)%nat) = Some
  ([(2%nat, 0%Q, 0%Q, 3%Z, true); (3%nat, 0%Q, 0%Q, 2%Z, true);
    (0%nat, 1%Q, 3%Q, 1%Z, true); (1%nat, 1%Q, 3%Q, 0%Z, false);
    (0%nat, 1%Q, 4%Q, 3%Z, false); (3%nat, 1%Q, 4%Q, 0%Z, true)], SP [[(2, 3); (0, 1)]; [(0, 3)]]%nat).
Proof. vm_compute. reflexivity. Qed.

(** C31. No buyer and seller with bid >= ask both keep untraded quantity. *)
Theorem C31_p2p_no_trade_left :
  forall (d : df) (c : Qc) (r : nat -> nat), map lbl d = seq 0 (length d) -> qty_nonneg d ->
    forall tm ex, p2p_random d c r = Ok (tm, ex) ->
    forall x y, In x d -> In y d -> buying x = true -> buying y = false -> price y <= price x ->
    traded_by (lbl x) (tm_trans tm) = qty x \/ traded_by (lbl y) (tm_trans tm) = qty y.
Proof. exact p2p_exhausts. Qed.
Print Assumptions C31_p2p_no_trade_left.
Example C31_example :
  match p2p_random p2p_bids (qf 1 2) (fun k => match k with O => 3 | _ => 0 end)%nat with
  | Ok (tm, _) => map (fun i => this (traded_by i (tm_trans tm))) [0; 1; 2; 3]%nat = [2; 1; 0; 1]%Q
  | Err _ => False
  end.
Proof. vm_compute. reflexivity. Qed.

(** C32. At least half of the best volume is traded: against every allocation between compatible bids,
    against the optimum of [maximum_traded_volume], and as [percentage_traded] (C36 gives <= 1). *)
Theorem C32_p2p_half :
  forall (d : df) (c : Qc) (r : nat -> nat) tm ex (x : alloc), map lbl d = seq 0 (length d) -> qty_nonneg d ->
    p2p_random d c r = Ok (tm, ex) -> alloc_ok d x -> alloc_compat d x ->
    volume d x <= qz 2 * bought d (tm_trans tm).
Proof. exact p2p_half. Qed.
Print Assumptions C32_p2p_half.
Theorem C32_p2p_half_optimum :
  forall (sv : solver) (d : df) (c : Qc) (r : nat -> nat) tm ex, map lbl d = seq 0 (length d) -> qty_nonneg d -> solver_ok sv ->
    p2p_random d c r = Ok (tm, ex) ->
    exists obj vars, maximum_traded_volume sv d = Ok (Some (obj, vars)) /\ obj <= qz 2 * bought d (tm_trans tm).
Proof. exact p2p_half_volume. Qed.
Print Assumptions C32_p2p_half_optimum.
Theorem C32_p2p_half_percentage :
  forall (sv : solver) (d : df) (c : Qc) (r : nat -> nat) tm ex x, map lbl d = seq 0 (length d) -> qty_nonneg d -> solver_ok sv ->
    p2p_random d c r = Ok (tm, ex) -> percentage_traded sv d (tm_trans tm) = Ok (Some x) -> 1 / qz 2 <= x.
Proof. exact p2p_half_percentage. Qed.
Print Assumptions C32_p2p_half_percentage.
(** the bound is attained: 1 traded where 2 is possible *)
Example C32_example :
  let d := frame [B (qz 1) (qz 5) 0; B (qz 1) (qz 2) 1; A (qz 1) (qz 1) 2; A (qz 1) (qz 3) 3] in
  match p2p_random d (qf 1 2) (fun _ => 0%nat) with
  | Ok (tm, _) => this (bought d (tm_trans tm)) = 1%Q
  | Err _ => False
  end /\ this (volume d (fun b s => if Nat.eqb (b + s) 3 then 1 else 0)) = 2%Q.
Proof. split; vm_compute; reflexivity. Qed.

(** C33. The active flag of a transaction tells whether the bid has quantity left just after it. *)
Theorem C33_p2p_active :
  forall (d : df) (c : Qc) (r : nat -> nat), map lbl d = seq 0 (length d) -> qty_nonneg d ->
    forall tm ex, p2p_random d c r = Ok (tm, ex) -> qty_pos d ->
    forall l1 t l2 x, tm_trans tm = l1 ++ t :: l2 -> In x d -> lbl x = t_bid t ->
    (t_active t = true <-> traded_by (lbl x) (l1 ++ [t]) < qty x).
Proof. exact p2p_active. Qed.
Print Assumptions C33_p2p_active.
(** With zero quantities it is false: an incompatible meeting of an empty bid is reported active. *)
Theorem C33_p2p_active_zero_refuted :
  exists (d : df) (c : Qc) (r : nat -> nat) tm ex t, map lbl d = seq 0 (length d) /\ qty_nonneg d /\
    p2p_random d c r = Ok (tm, ex) /\ In t (tm_trans tm) /\ t_active t = true /\
    forall x, In x d -> lbl x = t_bid t -> qty x = 0.
Proof. exact p2p_active_zero. Qed.
Print Assumptions C33_p2p_active_zero_refuted.
