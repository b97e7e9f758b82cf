(** C99: infinite and NaN prices in the Huang auction. *)
From Verif Require Import QcTac Num ModelBase ModelCurves ModelHuang ModelAny ModelWild Spec SpecWild Sorter WildSort WildCap WildTop WildNan.

(** Tables with rational prices: the auction of the main model. *)
Theorem C99_finite : forall S (d : df), (forall r, In r d -> 0 < qty r) ->
  exists S' P, same_run P (w_huang S (map wrow_of d)) (huang_auction S' d).
Proof. exact finite_prices. Qed.
Print Assumptions C99_finite.

(** Infinite prices, if what is wanted at any price is on offer: the auction with any price [P] above all finite ones. *)
Theorem C99_large_prices : forall S d P, w_qty_pos d -> no_nan d -> beyond P d -> wanted_at_any_price d <= offered d ->
  exists S', same_run P (w_huang S d) (huang_auction S' (map (cap_row P) d)).
Proof. exact large_prices. Qed.
Print Assumptions C99_large_prices.

(** If more is wanted at any price than is on offer, nobody trades. *)
Theorem C99_flood : forall S d, w_qty_nonneg d -> offered d < wanted_at_any_price d -> w_huang S d = Ok ([], None).
Proof. exact flood_none. Qed.
Print Assumptions C99_flood.

(** No error for any prices. *)
Theorem C99_no_error : forall S d, w_qty_nonneg d -> exists ts e, w_huang S d = Ok (ts, e).
Proof. exact w_no_error. Qed.
Print Assumptions C99_no_error.

(** Sold is bought, no more than the bid, at prices that respect the bids: so no NaN bid trades. *)
Theorem C99_fair : forall S d, w_qty_nonneg d -> forall ts e, w_huang S d = Ok (ts, e) ->
  (forall x, In x d -> w_buying x = false -> nltb (w_price x) (Fin 0) = false) ->
  exists ss bs, ts = ss ++ bs /\ qsumf x_qty ss = qsumf x_qty bs /\
    (forall t, In t ss -> exists x, In x d /\ w_buying x = false /\ x_bid t = w_lbl x /\ 0 <= x_qty t /\ x_qty t <= w_qty x /\ respects x t) /\
    (forall t, In t bs -> exists x, In x d /\ w_buying x = true /\ x_bid t = w_lbl x /\ 0 <= x_qty t /\ x_qty t <= w_qty x /\ respects x t).
Proof. exact w_fair. Qed.
Print Assumptions C99_fair.

(** NaN bids are left out, unless the crossing uses up all other bids of their side: then the auction does nothing. *)
Theorem C99_nan : forall S d, w_qty_pos d -> no_negative d -> exists S',
  (nan_blocks S' d /\ w_huang S d = Ok ([], None)) \/ (~ nan_blocks S' d /\ w_huang S d = w_huang S' (filter not_nan d)).
Proof. exact nan_bids. Qed.
Print Assumptions C99_nan.

(** ** Examples *)
Definition bid (i : nat) (q : Qc) (p : num) (b : bool) : wrow := mkWRow i q p (Z.of_nat i) b 0 true.
Definition show (r : res (list (atrans Qc num) * option (num * num * Qc))) : option (list (nat * Q)) :=
  match r with Ok (ts, _) => Some (map (fun t => (x_bid t, this (x_qty t))) ts) | Err _ => None end.

(** two units at any price, of four on offer: they are bought *)
Definition ex_inf : wdf := [bid 0 (qz 2) PInf true; bid 1 (qz 3) (Fin (qz 4)) true; bid 2 (qz 2) (Fin 1) false; bid 3 (qz 2) (Fin (qz 3)) false].
Example C99_inf_ex : show (w_huang w_stable ex_inf) = Some [(2%nat, 2%Q); (0%nat, 2%Q)].
Proof. vm_compute. reflexivity. Qed.
Example C99_inf_finite_ex : option_map (map (fun t => (t_bid t, this (t_qty t)))) (match huang_auction stable_sorter (map (cap_row (qz 100)) ex_inf) with Ok (tm, _) => Some (tm_trans tm) | Err _ => None end)
  = Some [(2%nat, 2%Q); (0%nat, 2%Q)].
Proof. vm_compute. reflexivity. Qed.

(** five units at any price, of four on offer: nobody trades, although two units are traded at the price 100 *)
Definition ex_flood : wdf := [bid 0 (qz 2) PInf true; bid 1 (qz 3) PInf true; bid 2 (qz 2) (Fin 1) false; bid 3 (qz 2) (Fin (qz 3)) false].
Example C99_flood_ex : show (w_huang w_stable ex_flood) = Some [].
Proof. vm_compute. reflexivity. Qed.
Example C99_flood_hyp_ex : this (offered ex_flood) = 4%Q /\ this (wanted_at_any_price ex_flood) = 5%Q.
Proof. vm_compute. auto. Qed.
Example C99_flood_finite_ex : option_map (map (fun t => (t_bid t, this (t_qty t)))) (match huang_auction stable_sorter (map (cap_row (qz 100)) ex_flood) with Ok (tm, _) => Some (tm_trans tm) | Err _ => None end)
  = Some [(2%nat, 2%Q); (0%nat, 2%Q)].
Proof. vm_compute. reflexivity. Qed.

(** a NaN bid that is left out, and one that stops the auction *)
Definition ex_nan : wdf := [bid 0 (qz 2) (Fin (qz 9)) true; bid 1 (qz 3) (Fin (qz 8)) true; bid 2 (qz 2) (Fin 1) false; bid 3 (qz 2) (Fin (qz 3)) false; bid 4 1 NaN true].
Example C99_nan_out_ex : show (w_huang w_stable ex_nan) = Some [(2%nat, 2%Q); (0%nat, 2%Q)].
Proof. vm_compute. reflexivity. Qed.
Example C99_nan_stop_ex : show (w_huang w_stable (bid 5 1 NaN false :: ex_nan)) = Some [].
Proof. vm_compute. reflexivity. Qed.

(** With a negative asking price a NaN bid can trade: at the price 0, which no bid asked for. *)
Definition ex_negative : wdf := [bid 0 1 NaN true; bid 1 1 (Fin (- qz 3)) false; bid 2 (qz 2) (Fin (- qz 1)) false].
Theorem C99_nan_negative_refuted : ~ (forall S d ts e, w_qty_pos d -> w_huang S d = Ok (ts, e) ->
  forall x t, In x d -> w_price x = NaN -> In t ts -> x_bid t = w_lbl x -> x_qty t = 0).
Proof. exact nan_negative_refuted. Qed.
Print Assumptions C99_nan_negative_refuted.
Example C99_negative_ex : show (w_huang w_stable ex_negative) = Some [(1%nat, 1%Q); (0%nat, 1%Q)].
Proof. vm_compute. reflexivity. Qed.
(** a table with finite prices *)
Example C99_finite_ex : show (w_huang w_stable (map wrow_of (map (cap_row (qz 100)) ex_inf))) = Some [(2%nat, 2%Q); (0%nat, 2%Q)].
Proof. vm_compute. reflexivity. Qed.
(** what [C99_fair] says for [ex_inf]: two units sold and bought; the buyer at any price pays 4 *)
Example C99_fair_ex : match w_huang w_stable ex_inf with Ok (ts, Some (ps, pb, q)) => (map (fun t => match x_price t with Fin p => Some (this p) | _ => None end) ts, this q) = ([Some 3%Q; Some 4%Q], 2%Q) | _ => False end.
Proof. vm_compute. reflexivity. Qed.
