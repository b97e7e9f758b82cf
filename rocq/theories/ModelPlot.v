(** Model of pymarket/plot and of [Market.plot], [Market.plot_method]: the data handed to the drawing
    calls.  A figure is the list of the arguments; matplotlib and networkx themselves are not modelled.
    Simplifications: colours, labels, titles, legends and axes objects are left out; a missing user
    (pandas NaN) is [None]. *)
From Coq Require Import QArith.Qround.
From Verif Require Import QcTac Num ModelBase ModelCurves ModelHuang ModelMuda ModelMarket.

(** ** plot/demand_curves.py *)
(** the two calls of [ax.step(x, y, where='post')] *)
Record curves_fig := mkCurves { fig_dx : list num; fig_dy : list num; fig_sx : list num; fig_sy : list num }.

(** [a[-k]] *)
Definition from_end (k : nat) (l : list num) : num := nth (length l - k) l NaN.
(** [a[-1] = v] *)
Definition set_last (v : num) (l : list num) : list num := removelast l ++ [v].
(** python's [max(a, b)]: the first unless the second is larger *)
Definition py_max (a b : num) : num := if nltb a b then b else a.
(** [a.max()] *)
Definition arr_max (l : list num) : num := match l with [] => NaN | x :: r => fold_left nmax r x end.

(** plot/demand_curves.py:10-62 [plot_demand_curves]; [y_sp] is a view of the second column of [sp], which
    is not used afterwards *)
Definition plot_demand_curves (S : sorter) (margin_X margin_Y : Qc) (bids : df) : curves_fig :=
  let dc := fst (demand_curve_from_bids S bids) in
  let sp := fst (supply_curve_from_bids S bids) in
  let x_dc := Fin 0 :: map fst dc in
  let x_sp := Fin 0 :: map fst sp in
  let y_sp := map snd sp in
  let y_dc := map snd dc in
  let max_x := py_max (from_end 2 x_dc) (from_end 2 x_sp) in
  let extra_X := nmul max_x (Fin margin_X) in
  let x_dc := set_last extra_X x_dc in
  let y_dc := y_dc ++ [Fin 0] in
  let max_point := nmul (arr_max y_dc) (Fin margin_Y) in
  let x_sp := set_last extra_X x_sp in
  let y_sp := set_last max_point y_sp in
  let y_sp := y_sp ++ [from_end 1 y_sp] in
  mkCurves x_dc y_dc x_sp y_sp.
(** the default margins, 1.2 *)
Definition margin : Qc := qf 6 5.

(** ** plot/trades.py *)
Definition node := option Z.
Definition node_eqb (a b : node) : bool :=
  match a, b with Some x, Some y => Z.eqb x y | None, None => true | _, _ => false end.
Definition edge := (node * node)%type.
Definition edge_eqb (a b : edge) : bool := node_eqb (fst a) (fst b) && node_eqb (snd a) (snd b).
Definition labels := list (edge * Qc).
Definition has_key (k : edge) (l : labels) : bool := existsb (fun e => edge_eqb k (fst e)) l.
(** [d[k] = v]: a key keeps its place *)
Fixpoint dict_put (k : edge) (v : Qc) (l : labels) : labels :=
  match l with
  | [] => [(k, v)]
  | e :: r => if edge_eqb k (fst e) then (fst e, v) :: r else e :: dict_put k v r
  end.
(** [series.map(bids.user)]: the user of the bid with a given label *)
Definition user_of (bids : df) (z : Z) : node :=
  option_map user (find (fun r => Z.eqb (Z.of_nat (lbl r)) z) bids).
(** trades.py:33-34: the columns [user_1], [user_2] and [quantity] *)
Definition edge_rows (bids : df) (tl : list trans) : labels :=
  map (fun t => ((user_of bids (Z.of_nat (t_bid t)), user_of bids (t_source t)), t_qty t)) tl.
(** trades.py:42-43: [tmp.set_index(...)['quantity'].to_dict()], the last of equal keys wins *)
Definition to_dict (rows : labels) : labels := fold_left (fun acc e => dict_put (fst e) (snd e) acc) rows [].
(** trades.py:44-46 *)
Definition edge_labels (rows : labels) : labels :=
  fold_left (fun acc e => let '((x, y), v) := e in
    if negb (has_key (x, y) acc) && negb (has_key (y, x) acc) then dict_put (x, y) v acc else acc) (to_dict rows) [].
(** the graph: one undirected edge per row (trades.py:39), the labels, and the identifiers given to
    [bipartite_layout] as one of the two sides (trades.py:37,51) *)
Record trades_fig := mkTrades { fig_edges : list edge; fig_labels : labels; fig_top : list nat }.
(** plot/trades.py:9-68 [plot_trades_as_graph] *)
Definition plot_trades_as_graph (bids : df) (tl : list trans) : trades_fig :=
  let rows := edge_rows bids tl in
  mkTrades (map fst rows) (edge_labels rows) (map lbl (buyers bids)).

(** ** plot/muda.py:7-50 [plot_both_side_muda]: for each panel the curves and the horizontal line *)
Record muda_fig := mkMudaFig { fig_left : curves_fig; fig_left_line : num; fig_right : curves_fig; fig_right_line : num }.
Definition plot_both_side_muda (S : sorter) (bids : df) (left_players right_players : list nat) (left_price right_price : num) : muda_fig :=
  mkMudaFig
    (plot_demand_curves S margin margin (filter (fun r => existsb (Nat.eqb (lbl r)) left_players) bids)) right_price
    (plot_demand_curves S margin margin (filter (fun r => existsb (Nat.eqb (lbl r)) right_players) bids)) left_price.

(** ** plot/huang.py:8-48 [plot_huang_auction]: curves, lines, abscissas and ordinates of the filled area *)
Record huang_fig := mkHuangFig {
  fig_curves : curves_fig; fig_sell_line : Qc; fig_buy_line : Qc; fig_quantity_line : Qc; fig_fill_x : list Qc }.
(** [np.arange(0, q, 0.01)]: [ceil (q / 0.01)] points *)
Definition arange (q step : Qc) : list Qc :=
  map (fun i => qnat i * step) (seq 0 (Z.to_nat (Qceiling (this (q / step))))).
Definition plot_huang_auction (S : sorter) (bids : df) (price_sell price_buy quantity_traded : Qc) : huang_fig :=
  mkHuangFig (plot_demand_curves S margin margin bids) price_sell price_buy quantity_traded (arange quantity_traded (qf 1 100)).

(** ** market.py:195-255 *)
Inductive method := MP2P | MMuda | MHuang | MOther.
(** [FNone]: nothing is drawn (an unknown method, or the message about missing parameters) *)
Inductive figure := FNone | FTrades (f : trades_fig) | FMuda (f : muda_fig) | FHuang (f : huang_fig).
(** market.py:195-198 [plot] *)
Definition market_plot (S : sorter) (m : market) : curves_fig := plot_demand_curves S margin margin (get_df (mk_bm m)).
(** market.py:200-255 [plot_method]: a missing key of [extra] raises KeyError, which is caught *)
Definition plot_method (S : sorter) (m : market) (k : method) : figure :=
  let bids := get_df (mk_bm m) in
  match k with
  | MP2P => FTrades (plot_trades_as_graph bids (tm_trans (mk_trans m)))
  | MMuda => match mk_extra m with
             | XMuda l r pl pr _ => FMuda (plot_both_side_muda S bids l r pl pr)
             | _ => FNone
             end
  | MHuang => match mk_extra m with
              | XHuang ps pb q => FHuang (plot_huang_auction S bids ps pb q)
              | _ => FNone
              end
  | MOther => FNone
  end.
