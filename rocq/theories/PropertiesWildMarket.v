(** C104: [Market.run('huang')] with infinite and NaN prices. *)
From Verif Require Import QcTac Num ModelBase ModelHuang ModelMerge ModelMarket ModelAny ModelWild ModelWildMarket Spec SpecWild SpecWildMarket Sorter WildSort WildMarketTop WildMarketCap WildMarketNan WildMarketOnce.

(** Rational prices: the run of the main model. *)
Theorem C104_finite : forall S smp cnt (d : df), (forall r, In r d -> 0 < qty r) ->
  exists S' P, same_run P (w_run_huang S smp cnt (map wrow_of d)) (run_algo S' (AHuang smp cnt) d).
Proof. exact run_finite. Qed.
Print Assumptions C104_finite.

(** Infinite prices, if what is wanted at any price is on offer: the run with any integer above all finite prices in their place. *)
Theorem C104_large_prices : forall S smp cnt d n, w_qty_pos d -> no_nan d -> beyond (qz n) (map round_row d) -> wanted_at_any_price d <= offered d ->
  exists S', same_run (qz n) (w_run_huang S smp cnt d) (run_algo S' (AHuang smp cnt) (map (cap_row (qz n)) d)).
Proof. exact run_large_prices. Qed.
Print Assumptions C104_large_prices.

(** If more is wanted at any price than is on offer at a price, nobody trades. *)
Theorem C104_flood : forall S smp cnt d, w_qty_pos d -> priced true d -> priced false d ->
  offered (filter not_nan d) < wanted_at_any_price d -> w_run_huang S smp cnt d = Ok ([], None).
Proof. exact run_flood. Qed.
Print Assumptions C104_flood.

(** What NaN bids ask for does not matter: neither their quantity nor their side. *)
Theorem C104_nan : forall S smp cnt d d', w_positions d -> Forall2 nan_alike d d' -> w_run_huang S smp cnt d = w_run_huang S smp cnt d'.
Proof. exact run_nan. Qed.
Print Assumptions C104_nan.

(** With a priced bid on either side the run returns; sold is bought; nobody gets more than the bid; the prices respect the rounded
    prices of the bids, so no NaN bid gets a transaction. *)
Theorem C104_fair : forall S smp cnt d, w_positions d -> w_qty_pos d -> priced true d -> priced false d ->
  (forall x, In x d -> w_buying x = false -> nltb (w_price x) (Fin 0) = false) ->
  exists ss bs e, w_run_huang S smp cnt d = Ok (ss ++ bs, e) /\ qsumf x_qty ss = qsumf x_qty bs /\
    (forall t, In t ss -> exists x, In x d /\ w_buying x = false /\ x_bid t = w_lbl x /\ 0 <= x_qty t /\ x_qty t <= w_qty x /\ respects (round_row x) t) /\
    (forall t, In t bs -> exists x, In x d /\ w_buying x = true /\ x_bid t = w_lbl x /\ 0 <= x_qty t /\ x_qty t <= w_qty x /\ respects (round_row x) t).
Proof. exact run_fair. Qed.
Print Assumptions C104_fair.

(** Each bid has at most one transaction, so that nobody gets more than the bid in total; NaN bids have none. *)
Theorem C104_total : forall S smp cnt d, w_positions d -> w_qty_pos d -> priced true d -> priced false d -> forall ts e,
  (forall x, In x d -> w_buying x = false -> nltb (w_price x) (Fin 0) = false) -> w_run_huang S smp cnt d = Ok (ts, e) ->
  NoDup (map x_bid ts) /\
  (forall x, In x d -> 0 <= w_gets ts (w_lbl x) /\ w_gets ts (w_lbl x) <= w_qty x /\ (w_price x = NaN -> ~ In (w_lbl x) (map x_bid ts))).
Proof. exact run_total. Qed.
Print Assumptions C104_total.

(** Errors, for prices that are not NaN: KeyError exactly if all bids are bids to buy at one rounded price, which can be infinite. *)
Theorem C104_errors : forall S smp cnt d, w_positions d -> w_qty_pos d -> no_nan d -> (forall x, In x d -> w_buying x = false -> nltb (w_price x) (Fin 0) = false) ->
  (w_lone_price d /\ w_run_huang S smp cnt d = Err KeyError) \/ (~ w_lone_price d /\ exists ts e, w_run_huang S smp cnt d = Ok (ts, e)).
Proof. exact run_errors. Qed.
Print Assumptions C104_errors.

(** ** Examples *)
Definition bid (i : nat) (q : Qc) (p : num) (b : bool) : wrow := mkWRow i q p (Z.of_nat i) b 0 true.
Definition first (_ : nat) : nat := 0%nat.
Definition show (r : res (list (atrans Qc num) * option (num * num * Qc))) : option (list (nat * Q)) :=
  match r with Ok (ts, _) => Some (map (fun t => (x_bid t, this (x_qty t))) ts) | Err _ => None end.

(** two bids at any price get the four units of the first seller; with the price 100 the same happens *)
Definition ex_inf : wdf := [bid 0 1 PInf true; bid 1 (qz 3) PInf true; bid 2 (qz 3) (Fin (qz 4)) true; bid 3 (qz 4) (Fin 1) false; bid 4 (qz 2) (Fin (qz 3)) false].
Example C104_inf_ex : show (w_run_huang w_stable first 0 ex_inf) = Some [(3%nat, 4%Q); (0%nat, 1%Q); (1%nat, 3%Q)].
Proof. vm_compute. reflexivity. Qed.
Example C104_total_ex : match w_run_huang w_stable first 0 ex_inf with Ok (ts, _) => map (fun x => this (w_gets ts (w_lbl x))) ex_inf = [1; 3; 0; 4; 0]%Q | Err _ => False end.
Proof. vm_compute. reflexivity. Qed.
Example C104_inf_finite_ex : option_map (map (fun t => (t_bid t, this (t_qty t)))) (match run_algo stable_sorter (AHuang first 0) (map (cap_row (qz 100)) ex_inf) with Ok (tm, _) => Some (tm_trans tm) | Err _ => None end)
  = Some [(3%nat, 4%Q); (0%nat, 1%Q); (1%nat, 3%Q)].
Proof. vm_compute. reflexivity. Qed.
Example C104_finite_ex : show (w_run_huang w_stable first 0 (map wrow_of (map (cap_row (qz 100)) ex_inf))) = Some [(3%nat, 4%Q); (0%nat, 1%Q); (1%nat, 3%Q)].
Proof. vm_compute. reflexivity. Qed.
(** seven units at any price, of six on offer: nobody trades *)
Definition ex_flood : wdf := bid 0 (qz 4) PInf true :: skipn 1 ex_inf.
Example C104_flood_ex : show (w_run_huang w_stable first 0 ex_flood) = Some [] /\ this (offered (filter not_nan ex_flood)) = 6%Q /\ this (wanted_at_any_price ex_flood) = 7%Q.
Proof. vm_compute. auto. Qed.
(** two NaN bids; the auction alone does nothing with them (C99), the run of the market leaves them out *)
Definition ex_nan (q : Qc) (b : bool) : wdf :=
  [bid 0 (qz 2) (Fin (qz 9)) true; bid 1 (qz 3) (Fin (qz 8)) true; bid 2 (qz 2) (Fin 1) false; bid 3 (qz 2) (Fin (qz 3)) false; bid 4 q NaN b; bid 5 1 NaN false].
Example C104_nan_ex : show (w_run_huang w_stable first 0 (ex_nan 1 true)) = Some [(2%nat, 2%Q); (0%nat, 2%Q)] /\
  show (w_run_huang w_stable first 0 (ex_nan (qz 7) false)) = Some [(2%nat, 2%Q); (0%nat, 2%Q)] /\ show (w_huang w_stable (ex_nan 1 true)) = Some [].
Proof. vm_compute. auto. Qed.
Example C104_nan_hyp_ex : Forall2 nan_alike (ex_nan 1 true) (ex_nan (qz 7) false).
Proof. repeat (constructor; [left; reflexivity|]). constructor; [right; repeat split|]. repeat (constructor; [left; reflexivity|]). constructor. Qed.
Example C104_fair_ex : match w_run_huang w_stable first 0 ex_inf with
  | Ok (ts, Some (ps, pb, q)) => (map (fun t => match x_price t with Fin p => Some (this p) | _ => None end) ts, this q) = ([Some 3%Q; Some 4%Q; Some 4%Q], 4%Q) | _ => False end.
Proof. vm_compute. reflexivity. Qed.
Example C104_errors_ex : w_run_huang w_stable first 0 [bid 0 1 PInf true; bid 1 1 PInf true] = Err KeyError /\
  w_run_huang w_stable first 0 [bid 0 1 PInf true; bid 1 1 (Fin 1) true] = Ok ([], None).
Proof. vm_compute. auto. Qed.
