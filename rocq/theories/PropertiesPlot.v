(** Properties C58 - C60: what the figures show. *)
From Verif Require Import QcTac Num ModelBase ModelCurves ModelHuang ModelMuda ModelP2P ModelMarket ModelPlot
  Spec SpecTrade SpecMuda SpecHuang SpecStats SpecPlot Sorter Conform PlotFacts PlotGraph PlotTop PlotWitness PlotLabels.

(** C58. The figure of the curves covers everything from 0 to its right end. *)
Theorem C58_curves_drawn :
  forall (S : sorter) (mx my : Qc) (d : df), price_nonneg d -> let f := plot_demand_curves S mx my d in
    forall x, 0 <= x -> x < extent mx d -> (exists v, Drawn (fig_dx f) (fig_dy f) x v) /\ (exists v, Drawn (fig_sx f) (fig_sy f) x v).
Proof. exact plot_exists. Qed.
Print Assumptions C58_curves_drawn.
(** The height of the demand at [x] is the largest price at which more than [x] is demanded, however equal prices are
    sorted; the height of the supply is the smallest price at which more than [x] is offered, and beyond
    the supply the best bid times the margin. *)
Theorem C58_demand_shown :
  forall (S : sorter) (mx my : Qc) (d : df), qty_nonneg d -> price_nonneg d -> let f := plot_demand_curves S mx my d in
    forall x v, Drawn (fig_dx f) (fig_dy f) x v -> 0 <= x /\ 0 <= v /\ forall p, 0 < p -> (p <= v <-> x < demand_at d p).
Proof. exact plot_demand. Qed.
Print Assumptions C58_demand_shown.
Theorem C58_supply_shown :
  forall (S : sorter) (mx my : Qc) (d : df), qty_nonneg d -> price_nonneg d -> let f := plot_demand_curves S mx my d in
    forall x v, Drawn (fig_sx f) (fig_sy f) x v ->
    0 <= x /\ (x < total_supply d -> 0 <= v /\ forall p, v <= p <-> x < supply_at d p) /\
    (total_supply d <= x -> forall m, best_bid d m -> v = m * my).
Proof. exact plot_supply. Qed.
Print Assumptions C58_supply_shown.
(** [Market.plot] draws the bids of the market. *)
Theorem C58_market_plot :
  forall (S : sorter) (m : market), let d := get_df (mk_bm m) in let f := market_plot S m in qty_nonneg d -> price_nonneg d ->
    (forall x, 0 <= x -> x < extent margin d -> (exists v, Drawn (fig_dx f) (fig_dy f) x v) /\ (exists v, Drawn (fig_sx f) (fig_sy f) x v)) /\
    (forall x v, Drawn (fig_dx f) (fig_dy f) x v -> forall p, 0 < p -> (p <= v <-> x < demand_at d p)) /\
    (forall x v, Drawn (fig_sx f) (fig_sy f) x v -> (x < total_supply d -> forall p, v <= p <-> x < supply_at d p) /\
       (total_supply d <= x -> forall b, best_bid d b -> v = b * qf 6 5)).
Proof. exact plot_market. Qed.
Print Assumptions C58_market_plot.
(** The drawn curves cross at the competitive quantity. *)
Theorem C58_curves_cross :
  forall (S : sorter) (mx my : Qc) (d : df) ps pb c x vd vs, qty_nonneg d -> price_nonneg d -> 1 <= my -> Marginal d ps pb c ->
    let f := plot_demand_curves S mx my d in
    Drawn (fig_dx f) (fig_dy f) x vd -> Drawn (fig_sx f) (fig_sy f) x vs -> (x < c -> vs < vd) /\ (c <= x -> vd <= vs).
Proof. exact plot_crossing. Qed.
Print Assumptions C58_curves_cross.
(** The drawn demand never rises; the drawn supply never falls exactly when no ask is above the top of the figure. *)
Theorem C58_demand_falls :
  forall (S : sorter) (mx my : Qc) (d : df), qty_nonneg d -> price_nonneg d -> let f := plot_demand_curves S mx my d in
    forall x y v w, Drawn (fig_dx f) (fig_dy f) x v -> Drawn (fig_dx f) (fig_dy f) y w -> x <= y -> w <= v.
Proof. exact plot_demand_decreasing. Qed.
Print Assumptions C58_demand_falls.
Theorem C58_supply_rises_iff :
  forall (S : sorter) (mx my : Qc) (d : df), qty_nonneg d -> price_nonneg d -> let f := plot_demand_curves S mx my d in
    forall m, 1 < mx -> best_bid d m ->
    ((forall x y v w, Drawn (fig_sx f) (fig_sy f) x v -> Drawn (fig_sx f) (fig_sy f) y w -> x <= y -> v <= w) <->
     (forall r, In r d -> buying r = false -> 0 < qty r -> price r <= m * my)).
Proof. exact plot_supply_increasing. Qed.
Print Assumptions C58_supply_rises_iff.
Theorem C58_supply_rises_refuted :
  exists (S : sorter) (d : df) x y v w, qty_pos d /\ price_nonneg d /\
    let f := plot_demand_curves S margin margin d in
    Drawn (fig_sx f) (fig_sy f) x v /\ Drawn (fig_sx f) (fig_sy f) y w /\ x < y /\ w < v.
Proof. exact supply_falls. Qed.
Print Assumptions C58_supply_rises_refuted.
Definition shown_num (x : num) : option Q := match x with Fin q => Some (this q) | _ => None end.
(** two buyers, two sellers; the right end is 1.2 * 4 and the top 1.2 * 6 *)
Example C58_example :
  let f := plot_demand_curves stable_sorter margin margin (frame [B (qz 1) (qz 4) 0; A (qz 3) (qz 5) 1; B (qz 2) (qz 6) 2; A (qz 1) (qz 1) 3]) in
  map shown_num (fig_dx f) = [Some 0; Some 2; Some 3; Some (24 # 5)]%Q /\ map shown_num (fig_dy f) = [Some 6; Some 4; Some 0; Some 0]%Q /\
  map shown_num (fig_sx f) = [Some 0; Some 1; Some 4; Some (24 # 5)]%Q /\ map shown_num (fig_sy f) = [Some 1; Some 5; Some (36 # 5); Some (36 # 5)]%Q.
Proof. vm_compute. auto. Qed.

(** C59. The graph drawn after a p2p run in which every user has one bid: two users are joined exactly when their
    bids met, and the labels are the quantities of the buyers' transactions, in order; they add up to what was bought. *)
Theorem C59_graph :
  forall (S : sorter) (m : market) c r m' tm ex, let d := get_df (mk_bm m) in qty_nonneg d -> NoDup (map user d) ->
    market_run S m (AP2P c r) = (m', Ok (tm, ex)) ->
    exists f, plot_method S m' MP2P = FTrades f /\
      (forall x y, In x d -> In y d -> (joins (fig_edges f) (user x) (user y) <-> met (tm_trans tm) x y)) /\
      Forall2 (labelled d) (filter (on_side true d) (tm_trans tm)) (fig_labels f) /\
      qsumf snd (fig_labels f) = bought d (tm_trans tm).
Proof. exact plot_p2p. Qed.
Print Assumptions C59_graph.
(** For any bids: a pair of users has the label of the direction met first, with the quantity of the last transaction
    in that direction. *)
Theorem C59_labels_exact :
  forall (bids : df) (tl : list trans) x y v, In ((x, y), v) (fig_labels (plot_trades_as_graph bids tl)) <->
    (exists a t b, tl = a ++ t :: b /\ ends bids t = (x, y) /\ forall s, In s a -> ends bids s <> (x, y) /\ ends bids s <> (y, x)) /\
    (exists a t b, tl = a ++ t :: b /\ ends bids t = (x, y) /\ t_qty t = v /\ forall s, In s b -> ends bids s <> (x, y)).
Proof. exact plot_labels. Qed.
Print Assumptions C59_labels_exact.
(** buyers are on one side and sellers on the other if the user of each bid is its identifier *)
Theorem C59_layout_partial :
  forall (S : sorter) (m : market) f, (forall r, In r (get_df (mk_bm m)) -> user r = Z.of_nat (lbl r)) -> plot_method S m MP2P = FTrades f ->
    forall r, In r (get_df (mk_bm m)) -> ((exists i, In i (fig_top f) /\ Z.of_nat i = user r) <-> buying r = true).
Proof. exact plot_layout. Qed.
Print Assumptions C59_layout_partial.
(** otherwise they can be on the wrong side *)
Theorem C59_layout_refuted :
  exists (S : sorter) (m : market) f, NoDup (map user (get_df (mk_bm m))) /\ plot_method S m MP2P = FTrades f /\
    (exists x y, get_df (mk_bm m) = [x; y] /\ buying x = true /\ buying y = false /\
       ~ (exists i, In i (fig_top f) /\ Z.of_nat i = user x) /\ (exists i, In i (fig_top f) /\ Z.of_nat i = user y)).
Proof. exact layout_swapped. Qed.
Print Assumptions C59_layout_refuted.
(** "an edge between each pair that traded": there is also one between pairs that did not *)
Theorem C59_edges_traded_refuted :
  exists (S : sorter) (m : market) c r m' tm ex f, let d := get_df (mk_bm m) in qty_pos d /\ NoDup (map user d) /\
    market_run S m (AP2P c r) = (m', Ok (tm, ex)) /\ plot_method S m' MP2P = FTrades f /\
    (forall t, In t (tm_trans tm) -> t_qty t = 0) /\ exists u v, joins (fig_edges f) u v.
Proof. exact idle_edge. Qed.
Print Assumptions C59_edges_traded_refuted.
(** a user with two bids: quantities are lost *)
Theorem C59_labels_refuted :
  exists (S : sorter) (m : market) c r m' tm ex f, let d := get_df (mk_bm m) in qty_pos d /\
    market_run S m (AP2P c r) = (m', Ok (tm, ex)) /\ plot_method S m' MP2P = FTrades f /\
    qsumf snd (fig_labels f) < bought d (tm_trans tm).
Proof. exact label_lost. Qed.
Print Assumptions C59_labels_refuted.
Definition shown_trades (f : figure) : option (list edge * list (edge * Q) * list nat) :=
  match f with FTrades f => Some (fig_edges f, map (fun e => (fst e, this (snd e))) (fig_labels f), fig_top f) | _ => None end.
Example C59_example :
  let m := market_of [B (qz 2) (qz 5) 0; A (qz 1) (qz 1) 1; B (qz 1) (qz 2) 2; A (qz 3) (qz 3) 3] in
  shown_trades (plot_method stable_sorter (fst (market_run stable_sorter m (AP2P (qf 1 2) (fun _ => 1%nat)))) MP2P) =
  Some ([(Some 0, Some 3); (Some 3, Some 0); (Some 2, Some 1); (Some 1, Some 2)]%Z,
        [((Some 0%Z, Some 3%Z), 2%Q); ((Some 2%Z, Some 1%Z), 1%Q)], [0; 2]%nat).
Proof. vm_compute. reflexivity. Qed.

(** C60. After a MUDA run each panel shows the bids of one half and the price they trade at. *)
Theorem C60_muda_panels :
  forall (S : sorter) (m : market) fl m' tm ex, let d := get_df (mk_bm m) in qty_nonneg d -> market_run S m (AMuda fl) = (m', Ok (tm, ex)) ->
    (plot_method S m' MMuda = FNone /\ tm_trans tm = []) \/
    exists f l r, plot_method S m' MMuda = FMuda f /\ Permutation (l ++ r) (map lbl d) /\
      fig_left f = plot_demand_curves S margin margin (rows_in l d) /\ fig_right f = plot_demand_curves S margin margin (rows_in r d) /\
      forall t, In t (tm_trans tm) -> (In (t_bid t) l /\ fig_left_line f = Fin (t_price t)) \/ (In (t_bid t) r /\ fig_right_line f = Fin (t_price t)).
Proof. exact plot_muda. Qed.
Print Assumptions C60_muda_panels.
(** After a Huang run with transactions the lines are the prices and the quantity traded, the area between the lines is
    the money that buyers pay and sellers do not get, and it is filled up to 0.01. *)
Theorem C60_huang_area :
  forall (S : sorter) (m : market) smp cnt m' tm ex, let d := get_df (mk_bm m) in qty_pos d -> price_nonneg d ->
    market_run S m (AHuang smp cnt) = (m', Ok (tm, ex)) ->
    tm_trans tm = [] \/
    exists f, plot_method S m' MHuang = FHuang f /\
      (forall t r, In t (tm_trans tm) -> In r d -> lbl r = t_bid t -> t_price t = if buying r then fig_buy_line f else fig_sell_line f) /\
      fig_sell_line f < fig_buy_line f /\
      bought d (tm_trans tm) = fig_quantity_line f /\ sold d (tm_trans tm) = fig_quantity_line f /\
      (fig_buy_line f - fig_sell_line f) * fig_quantity_line f = money true d (tm_trans tm) - money false d (tm_trans tm) /\
      fig_curves f = plot_demand_curves S margin margin d /\
      (0 < fig_quantity_line f -> (forall x, In x (fig_fill_x f) -> 0 <= x /\ x < fig_quantity_line f) /\ In 0 (fig_fill_x f) /\
         exists x, In x (fig_fill_x f) /\ fig_quantity_line f - qf 1 100 <= x).
Proof. exact plot_huang. Qed.
Print Assumptions C60_huang_area.
(** without transactions an area of market profit can be drawn all the same *)
Theorem C60_huang_area_refuted :
  exists (S : sorter) (m : market) smp cnt m' tm ex f, let d := get_df (mk_bm m) in qty_pos d /\ price_nonneg d /\
    market_run S m (AHuang smp cnt) = (m', Ok (tm, ex)) /\ tm_trans tm = [] /\ plot_method S m' MHuang = FHuang f /\
    0 < fig_quantity_line f /\ 0 < (fig_buy_line f - fig_sell_line f) * fig_quantity_line f.
Proof. exact phantom_profit. Qed.
Print Assumptions C60_huang_area_refuted.
(** a figure asked for after another mechanism ran: nothing is drawn; the last point of the filled area *)
Example C60_example :
  let m := market_of [B (qz 3) (qz 9) 0; B (qz 1) (qz 8) 1; B (qz 1) (qz 7) 2; A (qz 2) (qz 1) 3; A (qz 3) (qz 6) 4] in
  let m' := fst (market_run stable_sorter m (AHuang (fun _ => 0%nat) 0)) in
  plot_method stable_sorter m' MMuda = FNone /\ plot_method stable_sorter m' MOther = FNone /\
  match plot_method stable_sorter m' MHuang with
  | FHuang f => (map this [fig_sell_line f; fig_buy_line f; fig_quantity_line f], length (fig_fill_x f), option_map this (nth_error (fig_fill_x f) 199)) =
      ([6; 7; 2]%Q, 200%nat, Some (199 # 100)%Q)
  | _ => False
  end.
Proof. vm_compute. auto. Qed.
