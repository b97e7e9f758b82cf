(** The theorems about [Market.run] on arbitrary bids, for a market. *)
From Verif Require Import QcTac Num ModelBase ModelCurves ModelHuang ModelP2P ModelMerge ModelMarket Spec SpecTrade SpecMerge SpecHuang SpecSign SpecShort
  HuangMarketFacts MarketTables MarketZero TableP2P.

Lemma market_same S m a e : snd (market_run S m a) = Err e -> fst (market_run S m a) = m.
Proof. unfold market_run. destruct (run_algo S a (get_df (mk_bm m))) as [[t x]|]; [discriminate | reflexivity]. Qed.
Lemma market_huang_any S m smp cnt : let d := get_df (mk_bm m) in let rd := map (rounded 5) d in
  (~ two_sided d -> ~ lone_price (np_round 5) d -> snd (market_run S m (AHuang smp cnt)) = Ok (tm_init, XEmpty)) /\
  (two_sided d -> short rd -> snd (market_run S m (AHuang smp cnt)) = Err TypeError) /\
  (two_sided d -> ~ short rd -> exists md mp c tm0 ex, merge_same_price 5 smp d cnt = Ok (md, mp, c) /\ huang_auction S md = Ok (tm0, ex) /\
     ((exists t r, In t (tm_trans tm0) /\ In r md /\ lbl r = t_bid t /\ qty r = 0) -> snd (market_run S m (AHuang smp cnt)) = Err NaNProduced) /\
     ((forall t r, In t (tm_trans tm0) -> In r md -> lbl r = t_bid t -> qty r <> 0) -> exists tm, snd (market_run S m (AHuang smp cnt)) = Ok (tm, ex))).
Proof. cbv zeta. rewrite market_run_snd. exact (huang_run_any S smp cnt _ (get_df_lbl _)). Qed.
Lemma market_huang_sound S m smp cnt tm ex : let d := get_df (mk_bm m) in qty_nonneg d -> snd (market_run S m (AHuang smp cnt)) = Ok (tm, ex) ->
    bought d (tm_trans tm) = sold d (tm_trans tm) /\ once (tm_trans tm) /\ refer d (tm_trans tm) /\ feasible d (tm_trans tm) /\ nearly_rational d (tm_trans tm) /\
    (tm_trans tm <> [] -> exists ps pb q, ex = XHuang ps pb q /\ q = bought d (tm_trans tm) /\ ps < pb /\
       forall t r, In t (tm_trans tm) -> In r d -> lbl r = t_bid t -> t_price t = if buying r then pb else ps).
Proof. cbv zeta. rewrite market_run_snd. intro Hq. exact (huang_run_sound S smp cnt _ (get_df_lbl _) Hq tm ex). Qed.
Lemma market_huang_zero S m smp cnt : let d := get_df (mk_bm m) in qty_nonneg d -> price_nonneg d -> asks_pos (map (rounded 5) d) ->
  (zero_wins d -> snd (market_run S m (AHuang smp cnt)) = Err NaNProduced) /\
  (~ zero_wins d -> ~ lone_price (np_round 5) d -> exists tm ex, snd (market_run S m (AHuang smp cnt)) = Ok (tm, ex)).
Proof. cbv zeta. rewrite market_run_snd. intro Hq. exact (huang_run_zero S smp cnt _ (get_df_lbl _) Hq). Qed.
Lemma market_p2p S m c r : exists tm ex, snd (market_run S m (AP2P c r)) = Ok (tm, ex).
Proof.
  rewrite market_run_snd. cbn [run_algo]. unfold mechanism, mech_run0. destruct (_ || _); [eauto|].
  destruct (p2p_table (get_df (mk_bm m)) c r) as (tm & gtl & -> & _); [|eauto].
  assert (L : forall x, In x (get_df (mk_bm m)) -> (lbl x < length (get_df (mk_bm m)))%nat).
  { intros x Hx. assert (I : In (lbl x) (seq 0 (length (get_df (mk_bm m))))) by (rewrite <- get_df_lbl; apply in_map, Hx). apply in_seq in I. lia. }
  auto.
Qed.
