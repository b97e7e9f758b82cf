(** Sharper forms of C26, C27, C33, C43 and C61 - C63. *)
From Verif Require Import QcTac Num ModelBase ModelCurves ModelHuang ModelMuda ModelP2P ModelMerge ModelMarket Spec SpecTrade SpecHuang SpecMuda SpecFee SpecExact
  SpecUnits SpecOrder Sorter UnitFacts PriceIff ExactFacts MarketOrder Conform PlotWitness PropertiesMuda PropertiesUnits.

(** C26. Exactly which fee is reported: the one owed in the right half if the user is charged there, otherwise the one
    owed in the left half. *)
Theorem C26_fee_exact :
  forall (S : sorter) (d : df) (fl : list bool) (tm : transmgr) (ex : extra),
    qty_nonneg d -> labels_unique d -> muda S d fl = Ok (tm, ex) -> (forall r, In r d -> (0 <= user r)%Z) ->
    exists l r pl pr fees, ex = XMuda l r pl pr fees /\ forall u, (0 <= u)%Z ->
      exists tlL tlR vl vr, tm_trans tm = tlL ++ tlR /\
        (forall t, In t tlL -> In (t_bid t) l) /\ (forall t, In t tlR -> In (t_bid t) r) /\
        HalfFee (rows_in l d) pr tlL u vl /\ HalfFee (rows_in r d) pl tlR u vr /\
        (charged (rows_in r d) pl tlR u -> fee_of fees u = vr) /\
        (~ charged (rows_in r d) pl tlR u -> fee_of fees u = vl).
Proof. exact fee_exact. Qed.
Print Assumptions C26_fee_exact.

(** C27. Exactly when there is a competitive price, for every sorting algorithm: some buyer bids more than some seller
    asks, and no price is common to both curves over a quantity. *)
Theorem C27_finite_iff :
  forall (S : sorter) (d : df), qty_nonneg d -> price_nonneg d ->
    ((exists p, find_competitive_price S d = Ok (Fin p)) <-> can_trade d /\ gap_free d).
Proof. exact price_iff. Qed.
Print Assumptions C27_finite_iff.
(** The Huang auction has price setters in exactly the same cases. *)
Theorem C27_huang_iff :
  forall (S : sorter) (d : df), qty_nonneg d -> price_nonneg d ->
    ((exists tm ps pb q, huang_auction S d = Ok (tm, XHuang ps pb q)) <-> can_trade d /\ gap_free d).
Proof. exact huang_iff. Qed.
Print Assumptions C27_huang_iff.
(** curves that touch at 5 over a quantity, curves that only meet there in a point, and a seller asking 0 *)
Example C27_iff_example :
  price_of (frame [B (qz 1) (qz 10) 0; B (qz 1) (qz 5) 1; A (qz 1) (qz 1) 2; A (qz 1) (qz 5) 3]) = Some None /\
  price_of (frame [B (qz 1) (qz 10) 0; B (qz 1) (qz 5) 1; A (qz 2) (qz 1) 2; A (qz 1) (qz 5) 3]) = Some (Some 3%Q) /\
  price_of (frame [B (qz 2) (qz 5) 0; A (qz 2) (qz 0) 2]) = Some (Some (5#2)%Q).
Proof. vm_compute. auto. Qed.

(** C33. The flag for all quantities, zero included: active means something is left or the meeting made no deal. *)
Theorem C33_p2p_active_exact :
  forall (d : df) (c : Qc) (r : nat -> nat), map lbl d = seq 0 (length d) -> qty_nonneg d ->
    forall tm ex, p2p_random d c r = Ok (tm, ex) ->
    forall l1 t l2 x y, tm_trans tm = l1 ++ t :: l2 -> In x d -> lbl x = t_bid t -> In y d -> Z.of_nat (lbl y) = t_source t ->
    (t_active t = true <-> traded_by (lbl x) (l1 ++ [t]) < qty x \/ no_deal x y).
Proof. exact p2p_active_exact. Qed.
Print Assumptions C33_p2p_active_exact.
(** an empty bid of 3 meets an ask of 4 and is reported active; an empty bid of 5 is not *)
Example C33_exact_example :
  show (p2p_random (frame [B (qz 0) (qz 3) 0; A (qz 1) (qz 4) 1]) (qf 1 2) (fun _ => O)) =
    Some ([(0%nat, 0%Q, 0%Q, 1%Z, true); (1%nat, 0%Q, 0%Q, 0%Z, true)], SP [[(0, 1)]]%nat) /\
  show (p2p_random (frame [B (qz 0) (qz 5) 0; A (qz 1) (qz 4) 1]) (qf 1 2) (fun _ => O)) =
    Some ([(0%nat, 0%Q, 9#2, 1%Z, false); (1%nat, 0%Q, 9#2, 0%Z, true)], SP [[(0, 1)]]%nat).
Proof. vm_compute. auto. Qed.

(** C43. What ties can change.  The marginal prices and the competitive quantity are unique and depend on neither the order
    of the bids nor the sort; *)
Theorem C43_marginal_unique :
  forall (d d' : df) (ps pb c ps' pb' c' : Qc), qty_nonneg d -> Permutation d d' ->
    Marginal d ps pb c -> Marginal d' ps' pb' c' -> ps' = ps /\ pb' = pb /\ c' = c.
Proof. exact (fun d d' ps pb c ps' pb' c' Hq P M M' => marginal_unique d ps pb c ps' pb' c' Hq M (marginal_perm d' d ps' pb' c' (Permutation_sym P) M')). Qed.
Print Assumptions C43_marginal_unique.
(** whether there is a price does not depend on them either; *)
Theorem C43_finite_order :
  forall (S S' : sorter) (d d' : df), Permutation d d' -> qty_nonneg d -> price_nonneg d ->
    (exists p, find_competitive_price S d = Ok (Fin p)) -> exists p, find_competitive_price S' d' = Ok (Fin p).
Proof. exact finite_perm. Qed.
Print Assumptions C43_finite_order.
(** and the price itself is one of at most two values determined by the marginal bids. *)
Theorem C43_price_values :
  forall (S : sorter) (d : df) (ps pb c : Qc), qty_pos d -> price_nonneg d -> asks_pos d -> Marginal d ps pb c ->
    exists p, find_competitive_price S d = Ok (Fin p) /\ price_of_marginal d ps pb c p.
Proof. exact price_marginal. Qed.
Print Assumptions C43_price_values.
(** C61 - C63 for the Huang auction run by the market hold for every sorting algorithm, even for two different ones. *)
Theorem C62_huang_quantity_any :
  forall (S S' : sorter) (m m' : market) (a : Qc) (smp smp' : nat -> nat) (cnt cnt' : Z), 0 < a ->
    Forall2 (same_bid a 1) (get_df (mk_bm m)) (get_df (mk_bm m')) ->
    snd (market_run S' m' (AHuang smp' cnt')) = result_units a 1 (snd (market_run S m (AHuang smp cnt))).
Proof. exact any_qty. Qed.
Print Assumptions C62_huang_quantity_any.
Theorem C62_huang_price_any :
  forall (S S' : sorter) (m m' : market) (a b : Qc) (smp smp' : nat -> nat) (cnt cnt' : Z), 0 < a -> 0 < b ->
    Forall2 (same_bid a b) (get_df (mk_bm m)) (get_df (mk_bm m')) ->
    (forall r, In r (get_df (mk_bm m)) -> np_round 5 (price r) = price r) ->
    (forall r, In r (get_df (mk_bm m')) -> np_round 5 (price r) = price r) ->
    snd (market_run S' m' (AHuang smp' cnt')) = result_units a b (snd (market_run S m (AHuang smp cnt))).
Proof. exact any_grid. Qed.
Print Assumptions C62_huang_price_any.
Theorem C63_huang_any :
  forall (S S' : sorter) (m m' : market) (smp smp' : nat -> nat) (cnt cnt' : Z),
    Forall2 same_terms_anon (get_df (mk_bm m)) (get_df (mk_bm m')) ->
    snd (market_run S' m' (AHuang smp' cnt')) = snd (market_run S m (AHuang smp cnt)).
Proof. exact any_names. Qed.
Print Assumptions C63_huang_any.
