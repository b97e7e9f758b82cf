(** C106: infinite and NaN prices in the uniform price mechanism. *)
From Verif Require Import QcTac Num ModelBase ModelCurves ModelHuang ModelMarket ModelUniform ModelAny ModelWild ModelWildUniform Spec SpecWild SpecWildMuda SpecWildUniform Sorter WildSort WildUniformTop.

(** Tables with rational prices: the mechanism of the main model, errors included. *)
Theorem C106_finite : forall S (d : df), (forall r, In r d -> 0 <= qty r) ->
  exists S', w_uniform_run S (map wrow_of d) = match uniform_run S' d with Ok x => Ok (lift_uniform x) | Err e => Err e end.
Proof. exact run_finite. Qed.
Print Assumptions C106_finite.

(** Any prices, if no seller asks for less than 0: either nobody trades and TypeError is raised, exactly when the Huang auction returns nothing;
    or the market is cleared, at the price of the last bid of the longer side, or at the mean if both sides are equally long. *)
Theorem C106_cleared : forall S d b s, w_qty_nonneg d -> asks_not_negative d -> In b d -> In s d -> w_buying b = true -> w_buying s = false ->
  w_uniform_run S d = Err TypeError /\ w_huang S d = Ok ([], None) \/
  exists ts q p, w_uniform_run S d = Ok (ts, Some (Fin q, p)) /\ Cleared (w_desc S (w_buyers d)) (w_asc S (w_sellers d)) ts q p /\ w_huang S d <> Ok ([], None).
Proof. exact run_cleared. Qed.
Print Assumptions C106_cleared.
Theorem C106_one_sided : forall S d, (forall x, In x d -> w_buying x = true) \/ (forall x, In x d -> w_buying x = false) -> w_uniform_run S d = Ok ([], None).
Proof. exact run_one_side. Qed.
Print Assumptions C106_one_sided.

(** The price is no NaN; as much is sold as bought, each bid at most once, within its quantity and its price. *)
Theorem C106_fair : forall S d ts q p, w_qty_nonneg d -> asks_not_negative d -> w_uniform_run S d = Ok (ts, Some (q, p)) ->
  p <> NaN /\ exists c ss bs, q = Fin c /\ 0 <= c /\ Permutation ts (ss ++ bs) /\ qsumf x_qty ss = c /\ qsumf x_qty bs = c /\
    (forall t, In t ss -> fair_trans d false p t) /\ (forall t, In t bs -> fair_trans d true p t) /\ (NoDup (map w_lbl d) -> NoDup (map x_bid ts)).
Proof. exact run_fair. Qed.
Print Assumptions C106_fair.
(** So no NaN bid trades, and at an infinite price only bids at any price buy. *)
Theorem C106_nan : forall S d ts q p x, w_qty_nonneg d -> asks_not_negative d -> NoDup (map w_lbl d) -> w_uniform_run S d = Ok (ts, Some (q, p)) ->
  In x d -> w_price x = NaN -> ~ In (w_lbl x) (map x_bid ts).
Proof. exact run_nan. Qed.
Print Assumptions C106_nan.
Theorem C106_infinite : forall S d ts q x t, w_qty_nonneg d -> asks_not_negative d -> NoDup (map w_lbl d) -> w_uniform_run S d = Ok (ts, Some (q, PInf)) ->
  In x d -> In t ts -> x_bid t = w_lbl x -> w_buying x = true -> w_price x = PInf.
Proof. exact run_infinite. Qed.
Print Assumptions C106_infinite.

(** If more is wanted at any price than is on offer, TypeError is raised. *)
Theorem C106_flood : forall S d b s, w_qty_nonneg d -> asks_not_negative d -> In b d -> In s d -> w_buying b = true -> w_buying s = false ->
  offered d < wanted_at_any_price d -> w_uniform_run S d = Err TypeError.
Proof. exact run_flood. Qed.
Print Assumptions C106_flood.
(** Otherwise infinite prices give the same trades as any price [P] above all finite ones, up to the price of the trades. *)
Theorem C106_large_prices : forall S d P, w_qty_pos d -> no_nan d -> beyond P d -> wanted_at_any_price d <= offered d ->
  exists S', same_but_prices (w_uniform_run S d) (uniform_run S' (map (cap_row P) d)).
Proof. exact run_large. Qed.
Print Assumptions C106_large_prices.

(** ** Examples *)
Definition bid (i : nat) (q : Qc) (p : num) (b : bool) : wrow := mkWRow i q p (Z.of_nat i) b 0 true.
Definition pq (p : num) : option Q := match p with Fin x => Some (this x) | _ => None end.
Definition show (r : res (list (atrans Qc num) * option (num * num))) : option (list (nat * Q) * option (option Q * option Q)) :=
  match r with Ok (ts, e) => Some (map (fun t => (x_bid t, this (x_qty t))) ts, option_map (fun e => (pq (fst e), pq (snd e))) e) | Err _ => None end.

(** two units at any price and two units on offer: they are traded at an infinite price, although the seller asks for 3 *)
Definition ex_pair : wdf := [bid 0 (qz 2) PInf true; bid 1 (qz 2) (Fin (qz 3)) false].
Theorem C106_price_refuted : exists S d, w_qty_pos d /\ no_nan d /\ (forall x, In x d -> w_buying x = false -> exists a, w_price x = Fin a /\ 0 < a) /\
  match w_uniform_run S d with Ok (ts, Some (_, PInf)) => ts <> [] | _ => False end.
Proof.
  exists w_stable, ex_pair. split; [|split; [|split]].
  - intros x [<-|[<-|[]]]; apply qltb_lt; reflexivity.
  - intros x [<-|[<-|[]]]; discriminate.
  - intros x [<-|[<-|[]]] H; [discriminate|]. exists (qz 3). split; [reflexivity | apply qltb_lt; reflexivity].
  - vm_compute. discriminate.
Qed.
Print Assumptions C106_price_refuted.
Example C106_pair_ex : show (w_uniform_run w_stable ex_pair) = Some ([(0%nat, 2%Q); (1%nat, 2%Q)], Some (Some 2%Q, None)).
Proof. vm_compute. reflexivity. Qed.
(** the same two units at a price of 100: the same trades, at the mean *)
Example C106_pair_finite_ex : show (w_uniform_run w_stable (map wrow_of (map (cap_row (qz 100)) ex_pair))) = Some ([(0%nat, 2%Q); (1%nat, 2%Q)], Some (Some 2%Q, Some (103 # 2)%Q)).
Proof. vm_compute. reflexivity. Qed.
(** with an offer at "any price" on the other side too the trades have the price NaN *)
Definition ex_both : wdf := [bid 0 (qz 2) PInf true; bid 1 (qz 2) NInf false].
Theorem C106_nan_price_refuted : exists S d, w_qty_pos d /\ no_nan d /\ match w_uniform_run S d with Ok (ts, Some (_, NaN)) => ts <> [] | _ => False end.
Proof.
  exists w_stable, ex_both. split; [|split].
  - intros x [<-|[<-|[]]]; apply qltb_lt; reflexivity.
  - intros x [<-|[<-|[]]]; discriminate.
  - vm_compute. discriminate.
Qed.
Print Assumptions C106_nan_price_refuted.

(** two units at any price, of four on offer: bids at any price are served first; the longer side sets the price *)
Definition ex_inf : wdf := [bid 0 (qz 2) PInf true; bid 1 (qz 1) (Fin (qz 4)) true; bid 2 (qz 2) (Fin 1) false; bid 3 (qz 2) (Fin (qz 3)) false].
Example C106_inf_ex : show (w_uniform_run w_stable ex_inf) = Some ([(0%nat, 2%Q); (1%nat, 1%Q); (2%nat, 2%Q); (3%nat, 1%Q)], Some (Some 3%Q, Some 3%Q)).
Proof. vm_compute. reflexivity. Qed.
(** five units at any price, of four on offer: an error *)
Definition ex_flood : wdf := [bid 0 (qz 2) PInf true; bid 1 (qz 3) PInf true; bid 2 (qz 2) (Fin 1) false; bid 3 (qz 2) (Fin (qz 3)) false].
Example C106_flood_ex : w_uniform_run w_stable ex_flood = Err TypeError.
Proof. vm_compute. reflexivity. Qed.
Example C106_flood_hyp_ex : this (offered ex_flood) = 4%Q /\ this (wanted_at_any_price ex_flood) = 5%Q.
Proof. vm_compute. auto. Qed.
(** a NaN bid that is left out, and one that makes the run fail: it stands where the curves would cross *)
Example C106_nan_ex : show (w_uniform_run w_stable (ex_inf ++ [bid 4 1 NaN false])) = show (w_uniform_run w_stable ex_inf).
Proof. vm_compute. reflexivity. Qed.
Example C106_nan_stop_ex : w_uniform_run w_stable (ex_inf ++ [bid 4 1 NaN true]) = Err TypeError.
Proof. vm_compute. reflexivity. Qed.
(** buyers only *)
Example C106_one_sided_ex : w_uniform_run w_stable [bid 0 1 PInf true; bid 1 1 NaN true] = Ok ([], None).
Proof. vm_compute. reflexivity. Qed.
