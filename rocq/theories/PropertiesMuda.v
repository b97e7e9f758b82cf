(** Properties C19-C27 (MUDA) and C43 (ties in the sort). *)
From Verif Require Import QcTac Num ModelBase ModelCurves ModelHuang ModelMuda Spec SpecTrade SpecMuda
  NumFacts MudaOutcome MudaFacts MudaTruth MudaPrice MudaErrors MudaTop MudaWitness SortFacts Sorter Conform.


(** user 0 buys in both halves, user 1 is its competitor in both *)
Definition ex_two : df :=
  frame [B (qz 1) (qz 10) 0; B (qz 1) (qz 8) 1; A (qz 1) (qz 1) 2; B (qz 1) (qz 12) 0; B (qz 1) (qz 9) 1; A (qz 1) (qz 2) 3].
Definition ex_flips := [true; true; true; false; false; false].
Example ex_two_run : show (muda SS ex_two ex_flips)
  = Some ([(2%nat, 1, 7, (-1)%Z, false); (0%nat, 1, 7, (-1)%Z, false); (5%nat, 1, 11#2, (-1)%Z, false); (3%nat, 1, 11#2, (-1)%Z, false)]%Q,
          SM [0;1;2]%nat [3;4;5]%nat (Some (11#2)) (Some 7) [7#2; 0; 0; 0])%Q.
Proof. vm_compute. reflexivity. Qed.
Lemma ex_two_ok : qty_nonneg ex_two /\ labels_unique ex_two /\ price_nonneg ex_two /\ forall r, In r ex_two -> (0 <= user r)%Z.
Proof. split; [each_row|]. split; [no_dup|]. split; each_row. Qed.

(** C19. The draws split the bids in two disjoint halves covering everything; each half trades only at
    the price found in the other half. *)
Theorem C19_halves :
  forall (S : sorter) (d : df) (fl : list bool) (tm : transmgr) (ex : extra),
    qty_nonneg d -> labels_unique d -> muda S d fl = Ok (tm, ex) ->
    exists l r pl pr fees, ex = XMuda l r pl pr fees /\ Permutation (l ++ r) (map lbl d) /\
      (forall i, In i l -> ~ In i r) /\
      (forall n row, nth_error d n = Some row -> (In (lbl row) l <-> nth n fl false = true)) /\
      find_competitive_price S (rows_in l d) = Ok pl /\ find_competitive_price S (rows_in r d) = Ok pr /\
      forall t, In t (tm_trans tm) -> (In (t_bid t) l /\ pr = Fin (t_price t)) \/ (In (t_bid t) r /\ pl = Fin (t_price t)).
Proof. exact top_split. Qed.
Print Assumptions C19_halves.

(** C19, independence: whatever changes in one half, it still trades at the same price as long as the
    bids of the other half are the same. *)
Theorem C19_price_from_other_half :
  forall (S : sorter) (d d' : df) (fl fl' : list bool) (tm tm' : transmgr) l r pl pr fees l' r' pl' pr' fees',
    qty_nonneg d -> labels_unique d -> qty_nonneg d' -> labels_unique d' ->
    muda S d fl = Ok (tm, XMuda l r pl pr fees) -> muda S d' fl' = Ok (tm', XMuda l' r' pl' pr' fees') ->
    (rows_in r d = rows_in r' d' -> pr' = pr) /\ (rows_in l d = rows_in l' d' -> pl' = pl).
Proof. exact top_independent. Qed.
Print Assumptions C19_price_from_other_half.

(** dropping the competitor of user 0 from the left half changes price_left but not price_right *)
Example C19_example : show (muda SS (filter (fun r => negb (Nat.eqb (lbl r) 1)) ex_two) [true; true; false; false; false])
  = Some ([(2%nat, 1, 7, (-1)%Z, false); (0%nat, 1, 7, (-1)%Z, false); (5%nat, 1, 11#2, (-1)%Z, false); (3%nat, 1, 11#2, (-1)%Z, false)]%Q,
          SM [0;2]%nat [3;4;5]%nat (Some (11#2)) (Some 7) [7#2; 0; 0; 0])%Q.
Proof. vm_compute. reflexivity. Qed.

(** C20. Safety of the transactions. *)
Theorem C20_muda_safe :
  forall (S : sorter) (d : df) (fl : list bool) (tm : transmgr) (ex : extra),
    qty_nonneg d -> labels_unique d -> muda S d fl = Ok (tm, ex) ->
    refer d (tm_trans tm) /\ once (tm_trans tm) /\ feasible d (tm_trans tm) /\ rational d (tm_trans tm) /\
    (forall t, In t (tm_trans tm) -> t_source t = (-1)%Z /\ t_active t = false) /\
    forall h p, half_of ex d h p -> bought h (tm_trans tm) = sold h (tm_trans tm) /\
      forall t r, In t (tm_trans tm) -> In r h -> lbl r = t_bid t -> p = Fin (t_price t).
Proof. exact top_safe. Qed.
Print Assumptions C20_muda_safe.

(** a run with a split bid: 3 wanted, 2 offered *)
Definition ex_split : df := frame [B (qz 3) (qz 8) 0; A (qz 2) (qz 1) 1; B (qz 1) (qz 5) 2; A (qz 1) (qz 2) 3].
Example C20_example : show (muda SS ex_split [true; true; false; false])
  = Some ([(1%nat, 2, 7#2, (-1)%Z, false); (0%nat, 2, 7#2, (-1)%Z, false)],
          SM [0;1]%nat [2;3]%nat (Some 8) (Some (7#2)) [0; 0; 0; 0])%Q.
Proof. vm_compute. reflexivity. Qed.

(** C21. Each half trades the maximum volume at its price (nothing if the price is not a number)... *)
Theorem C21_volume :
  forall (S : sorter) (d : df) (fl : list bool) (tm : transmgr) (ex : extra),
    qty_nonneg d -> labels_unique d -> muda S d fl = Ok (tm, ex) ->
    forall h p, half_of ex d h p -> bought h (tm_trans tm) = volume h p /\ sold h (tm_trans tm) = volume h p.
Proof. exact top_volume. Qed.
Print Assumptions C21_volume.

(** ... serving better bids first, the short side completely, and with the largest possible total gain
    on each side. *)
Theorem C21_priority :
  forall (S : sorter) (d : df) (fl : list bool) (tm : transmgr) (ex : extra),
    qty_nonneg d -> labels_unique d -> muda S d fl = Ok (tm, ex) ->
    forall h q, half_of ex d h (Fin q) ->
    (forall r1 r2, In r1 h -> In r2 h -> buying r1 = buying r2 -> gain q r2 < gain q r1 ->
       traded_by (lbl r1) (tm_trans tm) < qty r1 -> traded_by (lbl r2) (tm_trans tm) = 0) /\
    (forall r, In r h -> buying r = negb (long_side h q) -> 0 <= gain q r -> traded_by (lbl r) (tm_trans tm) = qty r) /\
    (forall b, best_gain (side_of b h) q (side_qty (negb b) h q) (fill_gain (side_of b h) q (fun i => traded_by i (tm_trans tm)))).
Proof. exact top_priority. Qed.
Print Assumptions C21_priority.

Example C21_example :
  this (volume (rows_in [0;1]%nat ex_split) (Fin (qf 7 2))) = 2%Q /\ long_side (rows_in [0;1]%nat ex_split) (qf 7 2) = true /\
  this (demand_at (rows_in [0;1]%nat ex_split) (qf 7 2)) = 3%Q.
Proof. vm_compute. auto. Qed.

(** C22. The fees charged in one half at any price: a user trading on the long side pays the best total
    gain of the others in its absence minus what they got, nobody else pays. *)
Theorem C22_fees_are_externalities :
  forall (S : sorter) (d : df) (p : num) (fees : list Qc) (tm : transmgr) (fees' : list Qc),
    qty_nonneg d -> labels_unique d -> solve_market_side S d p fees = Ok (tm, fees') ->
    (forall r, In r d -> (0 <= user r)%Z) -> forall u, (0 <= u)%Z -> fee_of fees u = 0 ->
    HalfFee d p (tm_trans tm) u (fee_of fees' u) /\ 0 <= fee_of fees' u /\ fee_of fees' u <= profit d u (tm_trans tm).
Proof. exact side_outcome. Qed.
Print Assumptions C22_fees_are_externalities.

(** the fee is determined by this specification *)
Theorem C22_fee_unique :
  forall (h : df) (p : num) (tl : list trans) (u : Z) (v v' : Qc), HalfFee h p tl u v -> HalfFee h p tl u v' -> v = v'.
Proof. exact HalfFee_unique. Qed.
Print Assumptions C22_fee_unique.

(** left half of [ex_two] at 7: without user 0, user 1 would gain 8 - 7 *)
Example C22_example :
  match solve_market_side SS (rows_in [0;1;2]%nat ex_two) (Fin (qz 7)) [0; 0; 0; 0] with
  | Ok (tm, f) => map this f = [1; 0; 0; 0]%Q /\ this (profit ex_two 0 (tm_trans tm)) = 3%Q
  | Err _ => False
  end.
Proof. vm_compute. auto. Qed.

(** C23. In the whole mechanism every reported fee is nonnegative and at most the gain of the user. *)
Theorem C23_fee_bounds :
  forall (S : sorter) (d : df) (fl : list bool) (tm : transmgr) (ex : extra),
    qty_nonneg d -> labels_unique d -> muda S d fl = Ok (tm, ex) -> (forall r, In r d -> (0 <= user r)%Z) ->
    exists l r pl pr fees, ex = XMuda l r pl pr fees /\ forall u, (0 <= u)%Z ->
      0 <= fee_of fees u /\ fee_of fees u <= profit d u (tm_trans tm) /\
      exists tlL tlR vl vr, tm_trans tm = tlL ++ tlR /\ (forall t, In t tlL -> In (t_bid t) l) /\ (forall t, In t tlR -> In (t_bid t) r) /\
        HalfFee (rows_in l d) pr tlL u vl /\ HalfFee (rows_in r d) pl tlR u vr /\
        (fee_of fees u = vl \/ fee_of fees u = vr) /\
        ((forall ql qr, pr = Fin ql -> pl = Fin qr -> ~ (trades_on (long_side (rows_in l d) ql) (rows_in l d) tlL u /\ trades_on (long_side (rows_in r d) qr) (rows_in r d) tlR u)) ->
         fee_of fees u = vl + vr).
Proof. exact top_fees. Qed.
Print Assumptions C23_fee_bounds.

Example C23_example :
  match muda SS ex_two ex_flips with
  | Ok (tm, XMuda _ _ _ _ fees) => this (fee_of fees 0) = (7#2)%Q /\ this (profit ex_two 0 (tm_trans tm)) = (19#2)%Q
  | _ => False
  end.
Proof. vm_compute. auto. Qed.

(** C24. A user whose bids are on one side and in one half does not gain by reporting other prices (or
    smaller quantities), for the same draws: its profit according to its true bids [d] minus its fee is
    largest with the true bids. *)
Theorem C24_truthful :
  forall (S : sorter) (d d' : df) (fl : list bool) (tm tm' : transmgr) l r pl pr fees l' r' pl' pr' fees' (u : Z) (b : bool),
    qty_nonneg d -> labels_unique d -> (forall x, In x d -> (0 <= user x)%Z) -> (0 <= u)%Z ->
    (forall x, In x d -> user x = u -> buying x = b) -> Forall2 (misreport u) d d' ->
    muda S d fl = Ok (tm, XMuda l r pl pr fees) -> muda S d' fl = Ok (tm', XMuda l' r' pl' pr' fees') ->
    (forall x, In x d -> user x = u -> In (lbl x) l) \/ (forall x, In x d -> user x = u -> In (lbl x) r) ->
    profit d u (tm_trans tm') - fee_of fees' u <= profit d u (tm_trans tm) - fee_of fees u.
Proof. exact top_truthful. Qed.
Print Assumptions C24_truthful.

(** user 1 (true value 8) outbids user 0 in the left half: it then trades at 7 but pays a fee of 3 *)
Definition ex_truth : df :=
  frame [B (qz 1) (qz 10) 0; B (qz 1) (qz 8) 1; A (qz 1) (qz 1) 2; B (qz 1) (qz 12) 3; B (qz 1) (qz 9) 4; A (qz 1) (qz 2) 5].
Definition ex_lie : df :=
  frame [B (qz 1) (qz 10) 0; B (qz 1) (qz 11) 1; A (qz 1) (qz 1) 2; B (qz 1) (qz 12) 3; B (qz 1) (qz 9) 4; A (qz 1) (qz 2) 5].
Definition utility d d' fl u := match muda SS d' fl with
  | Ok (tm, XMuda _ _ _ _ fees) => Some (this (profit d u (tm_trans tm) - fee_of fees u))
  | _ => None end.
Example C24_example : Forall2 (misreport 1) ex_truth ex_lie /\
  utility ex_truth ex_truth ex_flips 1 = Some 0%Q /\ utility ex_truth ex_lie ex_flips 1 = Some (-2)%Q.
Proof.
  split; [|vm_compute; auto].
  repeat (constructor; [vm_compute; intuition congruence|]). constructor.
Qed.

(** C25. [muda] raises NotImplementedError exactly when a user has two bids of the same side at the same
    price ... *)
Theorem C25_not_implemented :
  forall (S : sorter) (d : df) (fl : list bool), qty_nonneg d -> price_nonneg d -> labels_unique d ->
    (muda S d fl = Err NotImplementedError <-> repeated_price d).
Proof. exact muda_not_implemented. Qed.
Print Assumptions C25_not_implemented.

(** ... apart from it only IndexError can occur ... *)
Theorem C25_errors :
  forall (S : sorter) (d : df) (fl : list bool), qty_nonneg d -> price_nonneg d -> labels_unique d ->
    forall e, muda S d fl = Err e -> e = NotImplementedError \/ e = IndexError.
Proof. exact muda_err. Qed.
Print Assumptions C25_errors.

(** ... and not when the user ids are smaller than the number of users. *)
Theorem C25_total :
  forall (S : sorter) (d : df) (fl : list bool), qty_nonneg d -> price_nonneg d -> labels_unique d ->
    ~ repeated_price d ->
    (forall r, In r d -> (0 <= user r)%Z /\ (user r < Z.of_nat (length (nodup Z.eq_dec (map user d))))%Z) ->
    exists tm ex, muda S d fl = Ok (tm, ex).
Proof. exact muda_total. Qed.
Print Assumptions C25_total.

(** the IndexError does occur: six users, the one with id 10 has to pay *)
Example C25_index_error :
  muda SS (frame [B (qz 1) (qz 10) 0; B (qz 1) (qz 8) 1; A (qz 1) (qz 1) 2; B (qz 1) (qz 12) 10; B (qz 1) (qz 9) 4; A (qz 1) (qz 2) 3])
    ex_flips = Err IndexError
  /\ muda SS (frame [B (qz 1) (qz 10) 0; B (qz 2) (qz 10) 0]) [] = Err NotImplementedError.
Proof. vm_compute. auto. Qed.

(** C26, refuted: the fees of a user that has to pay in both halves are not added, the second one
    replaces the first. *)
Theorem C26_total_fee_refuted :
  exists (d : df) (fl : list bool) (tm : transmgr) l r pl pr fees tlL tlR vl vr,
    qty_nonneg d /\ labels_unique d /\ (forall x, In x d -> (0 <= user x)%Z) /\
    muda SS d fl = Ok (tm, XMuda l r pl pr fees) /\ tm_trans tm = tlL ++ tlR /\
    HalfFee (rows_in l d) pr tlL 0 vl /\ HalfFee (rows_in r d) pl tlR 0 vr /\ fee_of fees 0 <> vl + vr.
Proof. exact fee_lost_witness. Qed.
Print Assumptions C26_total_fee_refuted.

(** C26, what holds: the reported fee is the sum of the two fees for each user that is not charged in
    both halves. *)
Theorem C26_total_fee_partial :
  forall (S : sorter) (d : df) (fl : list bool) (tm : transmgr) (ex : extra),
    qty_nonneg d -> labels_unique d -> muda S d fl = Ok (tm, ex) -> (forall r, In r d -> (0 <= user r)%Z) ->
    exists l r pl pr fees, ex = XMuda l r pl pr fees /\ forall u, (0 <= u)%Z ->
      exists tlL tlR vl vr, tm_trans tm = tlL ++ tlR /\ HalfFee (rows_in l d) pr tlL u vl /\ HalfFee (rows_in r d) pl tlR u vr /\
        ((forall ql qr, pr = Fin ql -> pl = Fin qr -> ~ (trades_on (long_side (rows_in l d) ql) (rows_in l d) tlL u /\ trades_on (long_side (rows_in r d) qr) (rows_in r d) tlR u)) ->
         fee_of fees u = vl + vr).
Proof. exact top_fees_partial. Qed.
Print Assumptions C26_total_fee_partial.

(** in [ex_two] user 0 owes 1 and 7/2 but 7/2 is reported *)
Example C26_example :
  match muda SS ex_two ex_flips, solve_market_side SS (rows_in [0;1;2]%nat ex_two) (Fin (qz 7)) [0; 0; 0; 0],
        solve_market_side SS (rows_in [3;4;5]%nat ex_two) (Fin (qf 11 2)) [0; 0; 0; 0] with
  | Ok (_, XMuda _ _ _ _ fees), Ok (_, fl), Ok (_, fr) => map (fun f => this (fee_of f 0)) [fl; fr; fees] = [1; 7#2; 7#2]%Q
  | _, _, _ => False
  end.
Proof. vm_compute. reflexivity. Qed.

(** C27, refuted: buyers at 10 and 5, sellers at 1 and 5 can trade but the price is infinite (the curves
    touch at 5); the same happens with a seller asking 0 that offers more than is wanted. *)
Theorem C27_clearing_price_refuted :
  exists (d : df) (rb rs : row), qty_nonneg d /\ price_nonneg d /\ In rb d /\ In rs d /\
    buying rb = true /\ buying rs = false /\ price rs < price rb /\ find_competitive_price SS d = Ok PInf.
Proof. exact price_infinite_witness. Qed.
Print Assumptions C27_clearing_price_refuted.

(** C27, what holds: the price is a number if some buyer bids more than some seller asks, no buyer and
    seller name the same price and no seller asks 0; ... *)
Theorem C27_price_exists_partial :
  forall (S : sorter) (d : df), qty_nonneg d -> price_nonneg d ->
    forall rb rs, In rb d -> In rs d -> buying rb = true -> buying rs = false -> price rs < price rb ->
    (forall b s, In b d -> In s d -> buying b = true -> buying s = false -> price b <> price s) ->
    (forall s, In s d -> buying s = false -> 0 < price s) ->
    exists p, find_competitive_price S d = Ok (Fin p).
Proof. exact price_exists. Qed.
Print Assumptions C27_price_exists_partial.

(** ... it is never anything else than a number or infinity ... *)
Theorem C27_price_or_infinite :
  forall (S : sorter) (d : df), qty_nonneg d -> price_nonneg d ->
    find_competitive_price S d = Ok PInf \/ exists p, find_competitive_price S d = Ok (Fin p).
Proof. exact price_or_infinite. Qed.
Print Assumptions C27_price_or_infinite.

(** ... and if it is a number then it lies between a seller and a buyer and no other price allows more
    volume. *)
Theorem C27_price_clears :
  forall (S : sorter) (d : df), qty_nonneg d -> price_nonneg d ->
    forall p, find_competitive_price S d = Ok (Fin p) ->
    (exists rb rs, In rb d /\ In rs d /\ buying rb = true /\ buying rs = false /\ price rs <= p /\ p <= price rb /\ price rs < price rb) /\
    forall q, qmin (demand_at d q) (supply_at d q) <= qmin (demand_at d p) (supply_at d p).
Proof. exact price_finite. Qed.
Print Assumptions C27_price_clears.

Definition price_of (d : df) := match find_competitive_price SS d with Ok p => Some (show_num p) | Err _ => None end.
Example C27_example :
  price_of (frame [B (qz 1) (qz 10) 0; B (qz 1) (qz 6) 1; A (qz 1) (qz 1) 2; A (qz 1) (qz 5) 3]) = Some (Some (11#2)%Q)
  /\ price_of (frame [B (qz 1) (qz 5) 0; A (qz 2) (qz 0) 2]) = Some None.
Proof. vm_compute. auto. Qed.

(** C43, refuted: the price depends on the order of bids with the same price. *)
Theorem C43_order_refuted :
  exists (d d' : df) (p p' : Qc), Permutation d d' /\ labels_unique d /\ qty_nonneg d /\ price_nonneg d /\
    find_competitive_price SS d = Ok (Fin p) /\ find_competitive_price SS d' = Ok (Fin p') /\ p <> p'.
Proof. exact price_order_witness. Qed.
Print Assumptions C43_order_refuted.

(** C43, what holds: if no two bids of a side have the same price, neither the order of submission nor
    the sorting algorithm influences the price, the Huang auction and a half of MUDA ... *)
Theorem C43_order_partial :
  forall (S1 S2 : sorter) (d d' : df), Permutation d d' -> prices_distinct d ->
    find_competitive_price S1 d = find_competitive_price S2 d' /\ huang_auction S1 d = huang_auction S2 d' /\
    forall p fees, solve_market_side S1 d p fees = solve_market_side S2 d' p fees.
Proof. exact (fun S1 S2 d d' P N => conj (tie_price S1 S2 d d' P N) (conj (tie_huang S1 S2 d d' P N) (tie_side S1 S2 d d' P N))). Qed.
Print Assumptions C43_order_partial.

(** ... and the sorting algorithm does not influence MUDA. *)
Theorem C43_muda_sort_partial :
  forall (S1 S2 : sorter) (d : df) (fl : list bool), labels_unique d -> prices_distinct d -> muda S1 d fl = muda S2 d fl.
Proof. exact tie_muda. Qed.
Print Assumptions C43_muda_sort_partial.

Example C43_example :
  price_of (frame [B (qz 1) (qz 5) 0; B (qz 2) (qz 5) 1; A (qz 1) (qz 1) 2]) = Some (Some 3%Q)
  /\ price_of (frame [B (qz 2) (qz 5) 0; B (qz 1) (qz 5) 1; A (qz 1) (qz 1) 2]) = Some (Some 5%Q).
Proof. vm_compute. auto. Qed.

(** C33, the other mechanisms: their transactions have no counterpart and are never active. *)
Theorem C33_huang_inactive :
  forall (S : sorter) (d : df) (tm : transmgr) (ex : extra), huang_auction S d = Ok (tm, ex) ->
    forall t, In t (tm_trans tm) -> t_source t = (-1)%Z /\ t_active t = false.
Proof. exact huang_flags. Qed.
Print Assumptions C33_huang_inactive.

Theorem C33_muda_inactive :
  forall (S : sorter) (d : df) (fl : list bool) (tm : transmgr) (ex : extra),
    qty_nonneg d -> labels_unique d -> muda S d fl = Ok (tm, ex) ->
    forall t, In t (tm_trans tm) -> t_source t = (-1)%Z /\ t_active t = false.
Proof. exact muda_flags. Qed.
Print Assumptions C33_muda_inactive.
