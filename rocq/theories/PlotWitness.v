(** Figures that do not show what they are said to show. *)
From Verif Require Import QcTac Num NumFacts ListFacts ModelBase ModelCurves ModelHuang ModelMuda ModelP2P ModelMarket ModelPlot
  Spec SpecTrade SpecPlot SpecStats Sorter Conform PlotFacts PlotTop.

Definition market_of (l : list bid) : market := mkMarket (mkBM (length l) l) tm_init XEmpty.

(** an ask above 1.2 times the best bid: the drawn supply falls at its end *)
Definition dear_ask : df := frame [B (qz 1) (qz 1) 0; A (qz 1) (qz 5) 1].
Lemma supply_falls : exists (S : sorter) (d : df) x y v w, qty_pos d /\ price_nonneg d /\
  let f := plot_demand_curves S margin margin d in
  Drawn (fig_sx f) (fig_sy f) x v /\ Drawn (fig_sx f) (fig_sy f) y w /\ x < y /\ w < v.
Proof.
  exists stable_sorter, dear_ask, 0, 1, (qz 5), (1 * qf 6 5).
  assert (Q : qty_pos dear_ask) by (intros r H; repeat (destruct H as [<-|H]; [reflexivity|]); destruct H).
  assert (P : price_nonneg dear_ask) by (intros r H; repeat (destruct H as [<-|H]; [discriminate|]); destruct H).
  split; [exact Q|]. split; [exact P|]. cbv zeta. rewrite figure_eq by exact P. cbn [fig_sx fig_sy].
  assert (E : extent margin dear_ask = qf 6 5) by (apply Qc_is_canon; vm_compute; reflexivity).
  assert (T : top_bid (s_desc stable_sorter (buyers dear_ask)) = 1) by (apply Qc_is_canon; vm_compute; reflexivity).
  assert (L : s_asc stable_sorter (sellers dear_ask) = [row_of 1 (A (qz 1) (qz 5) 1)]) by reflexivity.
  rewrite E, T, L. unfold ends, heights. cbn [map cumsum_from qty row_of app b_qty b_price price A].
  assert (Z1 : 0 + qz 1 = 1) by (apply Qc_is_canon; reflexivity). rewrite Z1.
  split; [exists 0%nat, 0, 1; repeat split; discriminate|].
  split; [exists 1%nat, 1, (qf 6 5); repeat split; try discriminate | split; reflexivity].
Qed.

(** nothing is traded and an area of market profit is drawn *)
Definition phantom : list bid :=
  [mkBid (qf 1 5) (qf 33 10) 0 true 0 true; mkBid (qz 1) (qz 3) 1 true 0 true; mkBid (qz 2) (qz 1) 2 true 0 true; mkBid (qz 2) (qz 2) 3 false 0 true].
Lemma phantom_profit : exists (S : sorter) (m : market) smp cnt m' tm ex f, let d := get_df (mk_bm m) in qty_pos d /\ price_nonneg d /\
  market_run S m (AHuang smp cnt) = (m', Ok (tm, ex)) /\ tm_trans tm = [] /\ plot_method S m' MHuang = FHuang f /\
  0 < fig_quantity_line f /\ 0 < (fig_buy_line f - fig_sell_line f) * fig_quantity_line f.
Proof.
  assert (K : match market_run stable_sorter (market_of phantom) (AHuang (fun _ => 0%nat) 0) with
    | (m', Ok (tm, _)) => match tm_trans tm, plot_method stable_sorter m' MHuang with
        | [], FHuang f => qltb 0 (fig_quantity_line f) && qltb 0 ((fig_buy_line f - fig_sell_line f) * fig_quantity_line f) | _, _ => false end
    | _ => false end = true) by (vm_compute; reflexivity).
  destruct (market_run stable_sorter (market_of phantom) (AHuang (fun _ => 0%nat) 0)) as [m' [[tm ex]|e]] eqn:E; [|discriminate K].
  destruct (tm_trans tm) eqn:Et; [|discriminate K].
  destruct (plot_method stable_sorter m' MHuang) as [| | |f] eqn:F; try discriminate K.
  apply andb_true_iff in K. destruct K as [K1 K2].
  exists stable_sorter, (market_of phantom), (fun _ => 0%nat), 0%Z, m', tm, ex, f.
  split; [intros r H; repeat (destruct H as [<-|H]; [reflexivity|]); destruct H|].
  split; [intros r H; repeat (destruct H as [<-|H]; [discriminate|]); destruct H|].
  split; [exact E|]. split; [exact Et|]. split; [exact F|]. split; apply (proj1 (qltb_lt _ _)); assumption.
Qed.

(** a buyer and a seller that meet and do not trade are joined *)
Definition idle_bids : list bid := [B (qz 1) (qz 1) 0; A (qz 1) (qz 5) 1].
Lemma idle_edge : exists (S : sorter) (m : market) c r m' tm ex f, let d := get_df (mk_bm m) in qty_pos d /\ NoDup (map user d) /\
  market_run S m (AP2P c r) = (m', Ok (tm, ex)) /\ plot_method S m' MP2P = FTrades f /\
  (forall t, In t (tm_trans tm) -> t_qty t = 0) /\ exists u v, joins (fig_edges f) u v.
Proof.
  destruct (market_run stable_sorter (market_of idle_bids) (AP2P (qf 1 2) (fun _ => 0%nat))) as [m' [[tm ex]|e]] eqn:E; [|vm_compute in E; discriminate].
  destruct (plot_method stable_sorter m' MP2P) as [|f| |] eqn:F; try discriminate F.
  exists stable_sorter, (market_of idle_bids), (qf 1 2), (fun _ => 0%nat), m', tm, ex, f.
  split; [intros r H; repeat (destruct H as [<-|H]; [reflexivity|]); destruct H|].
  split; [cbn; repeat constructor; cbn; intuition discriminate|].
  split; [exact E|]. split; [exact F|].
  assert (K : match market_run stable_sorter (market_of idle_bids) (AP2P (qf 1 2) (fun _ => 0%nat)) with
    | (m', Ok (tm, _)) => match plot_method stable_sorter m' MP2P with
        | FTrades f => forallb (fun t => qeqb (t_qty t) 0) (tm_trans tm) && existsb (edge_eqb (Some 0%Z, Some 1%Z)) (fig_edges f) | _ => false end
    | _ => false end = true) by (vm_compute; reflexivity).
  rewrite E, F in K. apply andb_true_iff in K. destruct K as [K1 K2]. split.
  - intros t Ht. apply (proj1 (qeqb_eq _ _)). apply (proj1 (forallb_forall _ _) K1 t Ht).
  - exists 0%Z, 1%Z. left. apply existsb_exists in K2. destruct K2 as (e & He & K2). apply PlotGraph.edge_eqb_eq in K2. subst e. exact He.
Qed.

(** one buyer and the two asks of one seller: only the last quantity is written *)
Definition twice_bids : list bid := [B (qz 3) (qz 9) 0; A (qz 1) (qz 1) 1; A (qz 2) (qz 2) 1].
Lemma label_lost : exists (S : sorter) (m : market) c r m' tm ex f, let d := get_df (mk_bm m) in qty_pos d /\
  market_run S m (AP2P c r) = (m', Ok (tm, ex)) /\ plot_method S m' MP2P = FTrades f /\
  qsumf snd (fig_labels f) < bought d (tm_trans tm).
Proof.
  destruct (market_run stable_sorter (market_of twice_bids) (AP2P (qf 1 2) (fun _ => 0%nat))) as [m' [[tm ex]|e]] eqn:E; [|vm_compute in E; discriminate].
  destruct (plot_method stable_sorter m' MP2P) as [|f| |] eqn:F; try discriminate F.
  exists stable_sorter, (market_of twice_bids), (qf 1 2), (fun _ => 0%nat), m', tm, ex, f.
  split; [intros r H; repeat (destruct H as [<-|H]; [reflexivity|]); destruct H|].
  split; [exact E|]. split; [exact F|].
  assert (K : match market_run stable_sorter (market_of twice_bids) (AP2P (qf 1 2) (fun _ => 0%nat)) with
    | (m', Ok (tm, _)) => match plot_method stable_sorter m' MP2P with
        | FTrades f => qltb (qsumf snd (fig_labels f)) (bought (get_df (mk_bm (market_of twice_bids))) (tm_trans tm)) | _ => false end
    | _ => false end = true) by (vm_compute; reflexivity).
  rewrite E, F in K. apply (proj1 (qltb_lt _ _)), K.
Qed.

(** the buyer is user 1 and the seller user 0: each is drawn on the side of the other *)
Definition swapped_bids : list bid := [B (qz 1) (qz 5) 1; A (qz 1) (qz 1) 0].
Lemma layout_swapped : exists (S : sorter) (m : market) f, NoDup (map user (get_df (mk_bm m))) /\ plot_method S m MP2P = FTrades f /\
  (exists x y, get_df (mk_bm m) = [x; y] /\ buying x = true /\ buying y = false /\
     ~ (exists i, In i (fig_top f) /\ Z.of_nat i = user x) /\ (exists i, In i (fig_top f) /\ Z.of_nat i = user y)).
Proof.
  exists stable_sorter, (market_of swapped_bids). eexists. split; [cbn; repeat constructor; cbn; intuition discriminate|].
  split; [reflexivity|]. do 2 eexists. split; [reflexivity|]. split; [reflexivity|]. split; [reflexivity|]. split.
  - intros (i & [<-|[]] & H). discriminate H.
  - exists 0%nat. split; [left; reflexivity | reflexivity].
Qed.
