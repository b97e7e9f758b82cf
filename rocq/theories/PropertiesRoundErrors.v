(** Property C86: what the helper functions raise in rounded arithmetic, and exactly when, for every rounding; and the
    attributes that the rounded merge samples. *)
From Coq Require Import Permutation Sorted.
From Verif Require Import QcTac Num NumFacts ModelBase ModelCurves ModelHuang ModelMuda ModelMerge ModelP2P ModelRound ModelRoundMarket ModelFloat Spec SpecErrors SpecRoundErrors
  Sorter RoundFacts MergeSample RoundErrorsTop.

(** [update_quantity] raises ValueError exactly when taking equal rounded shares uses up all quantities; otherwise it
    returns as many quantities as it was given. *)
Theorem C86_update_quantity :
  forall (R : rounding) (Q : list Qc) (gap : Qc) (l : list Qc), StronglySorted Qcle l -> Permutation l Q ->
    (used_up R gap l -> update_quantity_r R Q gap = Err ValueError) /\
    (~ used_up R gap l -> exists Q', update_quantity_r R Q gap = Ok Q' /\ length Q' = length Q).
Proof. exact update_r_raises. Qed.
Print Assumptions C86_update_quantity.

(** [intersect_stepwise] raises in the same cases as in exact arithmetic. *)
Theorem C86_intersect :
  forall (R : rounding) (f g : curve) (k : Qc), (forall x, In x (abscissae f g) -> ok x) ->
    (f = [] \/ g = [] -> intersect_stepwise_r R f g k = Err ValueError) /\
    (f <> [] -> g <> [] -> (exists x, In x (abscissae f g) /\ nlt x (Fin 0)) -> intersect_stepwise_r R f g k = Err TypeError) /\
    (f <> [] -> g <> [] -> (forall x, In x (abscissae f g) -> nle (Fin 0) x) -> exists r, intersect_stepwise_r R f g k = Ok r).
Proof. exact intersect_r_raises. Qed.
Print Assumptions C86_intersect.

(** [get_trading_bids] raises IndexError exactly on a table without bids, whatever the quantities. *)
Theorem C86_trading_bids :
  forall (R : rounding) (A : adder R) (d : df) (x : Qc),
    (d = [] -> get_trading_bids_r R A d x = Err IndexError) /\ (d <> [] -> exists r, get_trading_bids_r R A d x = Ok r).
Proof. exact cut_r_raises. Qed.
Print Assumptions C86_trading_bids.

(** Writing the fees of a half of MUDA: the rounded counterpart of C71_fees. *)
Theorem C86_fees :
  forall (R : rounding) (A : adder R) (long_side : df) (l_index : nat) (total p : Qc) (us : list Z) (fees : list Qc),
    ((forall u, In u us -> in_range (length fees) u) ->
       exists fees', charge_users_r R A long_side l_index total p us fees = Ok fees' /\ length fees' = length fees /\
         forall i, (i < length fees)%nat ->
           ((forall u, In u us -> entry (length fees) u <> i) -> nth i fees' 0 = nth i fees 0) /\
           (forall l1 u l2, us = l1 ++ u :: l2 -> entry (length fees) u = i -> (forall w, In w l2 -> entry (length fees) w <> i) ->
              nth i fees' 0 = compute_fee_r R A (indexed long_side) l_index u total p)) /\
    (forall u, In u us -> ~ in_range (length fees) u -> charge_users_r R A long_side l_index total p us fees = Err IndexError).
Proof. exact charge_r_raises. Qed.
Print Assumptions C86_fees.

(** P2P trading raises IndexError if a bid of a pair has a label that is not a position. *)
Theorem C86_p2p_labels :
  forall (R : rounding) (A : adder R) (d : df) (c : Qc) (r : nat -> nat) (x y : row),
    In x d -> In y d -> buying x = true -> buying y = false -> (length d <= lbl x \/ length d <= lbl y)%nat -> p2p_random_r R A d c r = Err IndexError.
Proof. exact p2p_r_labels. Qed.
Print Assumptions C86_p2p_labels.

(** Splitting raises what the first transaction that cannot be split raises. *)
Theorem C86_split :
  forall (R : rounding) (A : adder R) (d : df) (mp : list (list nat)) (tm : transmgr) (e : exn),
    split_transactions_r R A tm d mp = Err e <->
    exists l1 t l2, tm_trans tm = l1 ++ t :: l2 /\ (forall t', In t' l1 -> forall e', ~ split_fails_r R A d mp t' e') /\ split_fails_r R A d mp t e.
Proof. exact split_r_raises. Qed.
Print Assumptions C86_split.

(** The attributes sampled for a merged bid are any combination of those of its members: the side, the time and the
    divisibility are three independent choices, whatever the rounding. *)
Theorem C86_sampling :
  forall (R : rounding) (G : adder R) (prec : Z) (d : df) (cnt : Z) (cb ct cd : nat -> nat), exists smp,
    forall nd mp cnt', merge_same_price_r R G prec smp d cnt = Ok (nd, mp, cnt') ->
      length mp = length nd /\
      forall g r m, nth_error nd g = Some r -> nth_error mp g = Some m -> exists rows, map lbl rows = m /\ incl rows d /\ takes (cb g) (ct g) (cd g) r rows.
Proof. exact (fun R G prec d cnt cb ct cd => ex_intro _ (chooser cb ct cd) (any_sample_r R G prec d cnt cb ct cd)). Qed.
Print Assumptions C86_sampling.

(** In doubles 0.1 + 0.2 is larger than the sum of the two doubles: taking it away from them raises, as in exact
    arithmetic.  With 0.3, which is smaller, both return, the second quantity being reduced to a tiny rest. *)
Example C86_example :
  let a := f64 (qf 1 10) in let b := f64 (qf 2 10) in
  update_quantity_r f64 [b; a] (f64 (a + b)) = Err ValueError /\ used_up f64 (f64 (a + b)) [a; b] /\
  update_quantity [b; a] (f64 (a + b)) = Err ValueError /\
  option_map (map this) (match update_quantity_r f64 [b; a] (f64 (qf 3 10)) with Ok l => Some l | Err _ => None end) =
    Some [(1 # 36028797018963968); 0]%Q /\
  get_trading_bids_r f64 (np_adder f64) [] 1 = Err IndexError.
Proof.
  cbn zeta. split; [vm_compute; reflexivity|]. split.
  { constructor; [apply qltb_lt; vm_compute; reflexivity|]. constructor; [apply qltb_lt; vm_compute; reflexivity | constructor]. }
  split; [vm_compute; reflexivity|]. split; vm_compute; reflexivity.
Qed.
