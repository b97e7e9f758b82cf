(** The statistics of markets in which nothing was traded: statements used in PropertiesNoTrade.v *)
From Verif Require Import QcTac Num ModelBase ModelHuang ModelMuda ModelP2P ModelMarket ModelStats ModelRound ModelRoundStats Spec SpecTrade SpecAlloc SpecStats SpecMarket Sorter Conform Solver
  ListFacts LPFacts P2PFacts P2PTrades StatsFacts StatsTop FairFacts FairRuns MarketFacts MoreFacts StoreFacts HuangMarketFacts RoundFacts.

Lemma profits_err d tl rp fees e : fst (calculate_profits d tl rp fees) = Err e <-> e = ValueError /\ ~ some_deal d tl.
Proof.
  destruct (calculate_profits d tl rp fees) as [o rp'] eqn:E. cbn [fst]. split.
  - intros ->. apply profits_raise in E. tauto.
  - intros [-> N]. destruct o as [p|e]; [|apply profits_raise in E; destruct E as [-> _]; reflexivity].
    exfalso. apply N, join_some. unfold calculate_profits in E. cbv zeta in E. destruct (join tl d); discriminate.
Qed.
Lemma profits_r_err R (A G : adder R) d tl rp fees e : fst (calculate_profits_r R A G d tl rp fees) = Err e <-> e = ValueError /\ ~ some_deal d tl.
Proof.
  rewrite <- join_some. unfold calculate_profits_r. cbv zeta. cbn [fst]. destruct (join tl d) as [|x l]; split.
  - intros [= <-]. auto.
  - intros [-> _]. reflexivity.
  - discriminate.
  - intros [_ H]. exfalso. apply H. discriminate.
Qed.
Lemma one_sided_dec d : one_sided d \/ exists x y, In x d /\ In y d /\ buying x = true /\ buying y = false.
Proof.
  destruct (existsb buying d) eqn:E1; [|left; right; intros r Hr; apply not_true_iff_false; intro B; apply not_true_iff_false in E1; apply E1, existsb_exists; eauto].
  destruct (existsb (fun r => negb (buying r)) d) eqn:E2.
  - right. apply existsb_exists in E1, E2. destruct E1 as (x & Hx & Bx), E2 as (y & Hy & By). apply negb_true_iff in By. eauto 6.
  - left. left. intros r Hr. apply not_false_iff_true. intro B. apply not_true_iff_false in E2. apply E2, existsb_exists. exists r. rewrite B. auto.
Qed.

Section History.
  Variables (S : sorter) (sv : solver) (ops : list op).
  Hypothesis Ops : Forall op_ok ops.
  Hypothesis Hsv : solver_ok sv.
  Let m := session S sv market_init ops.
  Let d := get_df (mk_bm m).
  Let tl := tm_trans (mk_trans m).

  Lemma deal_iff : some_deal d tl <-> tl <> [].
  Proof.
    split.
    - intros (t & r & Ht & _) E. rewrite E in Ht. exact Ht.
    - intro Ne. pose proof (fair_refer _ _ (inv_fair m (inv_session S sv ops Ops _ inv_init))) as Rf. fold d tl in Rf.
      destruct tl as [|t l]; [contradiction|]. destruct (Rf t (or_introl eq_refl)) as (r & Hr & E). exists t, r. split; [left; reflexivity|]. auto.
  Qed.
  Theorem stats_cases rp ex : exists t w, percentage_traded sv d tl = Ok t /\ percentage_welfare sv d tl rp = Ok w /\
    (In SProfits ex -> statistics sv m rp ex = (m, rp, Ok (filter (fun x => negb (stat_mem ex (fst x))) [(STraded, VRatio t); (SWelfare, VRatio w)]))) /\
    (tl = [] -> ~ In SProfits ex -> statistics sv m rp ex = (m, option_map (fun x => dict_fill x d) rp, Err ValueError)).
  Proof.
    destruct (history_traded S sv ops Ops Hsv) as (t & Et & _). destruct (history_welfare S sv ops Ops rp Hsv) as (w & Ew & _).
    fold m d tl in Et, Ew. exists t, w. split; [exact Et|]. split; [exact Ew|].
    assert (L : forall p, existsb (stat_eqb p) ex = stat_mem ex p) by reflexivity. split.
    - intro I. apply stat_mem_in in I. unfold statistics, STATS. cbn [stats_loop filter fst]. rewrite !L, I.
      unfold run_stat. fold d tl. destruct (stat_mem ex STraded), (stat_mem ex SWelfare); rewrite ?Et, ?Ew; cbn [bind negb]; rewrite ?Ew; reflexivity.
    - intros E0 N. assert (F : stat_mem ex SProfits = false) by (apply not_true_iff_false; intro H; apply N, stat_mem_in, H).
      assert (Ep : calculate_profits d tl rp (extra_fees (mk_extra m)) = (Err ValueError, option_map (fun x => dict_fill x d) rp)).
      { rewrite E0. unfold calculate_profits. cbv zeta. cbn [join flat_map]. destruct rp; reflexivity. }
      unfold statistics, STATS. cbn [stats_loop]. rewrite !L, F. unfold run_stat. fold d tl. rewrite Et, Ew, Ep.
      destruct (stat_mem ex STraded), (stat_mem ex SWelfare); reflexivity.
  Qed.
  Theorem stats_raise rp ex e : snd (statistics sv m rp ex) = Err e <-> e = ValueError /\ tl = [] /\ ~ In SProfits ex.
  Proof.
    destruct (stats_cases rp ex) as (t & w & _ & _ & K1 & K2). destruct (stat_mem ex SProfits) eqn:I.
    - apply stat_mem_in in I. rewrite (K1 I). cbn [snd]. split; [discriminate|]. tauto.
    - assert (N : ~ In SProfits ex) by (intro H; apply stat_mem_in in H; congruence).
      destruct tl as [|t0 l0] eqn:El.
      + rewrite (K2 eq_refl N). cbn [snd]. split; [intros [= <-]; auto | intros (-> & _); reflexivity].
      + destruct (stats_complete S sv ops Ops Hsv rp ex) as (t1 & w1 & p & rp' & _ & _ & _ & E); [fold m tl; rewrite El; discriminate|].
        fold m in E. rewrite E. cbn [snd]. split; [discriminate|]. intros (_ & H & _). discriminate.
  Qed.
  (** the caller's dictionary is filled unless the profits are excluded *)
  Theorem stats_dict_exact rp ex : snd (fst (statistics sv m rp ex)) = if stat_mem ex SProfits then rp else option_map (fun x => dict_fill x d) rp.
  Proof.
    destruct (stats_cases rp ex) as (t & w & _ & _ & K1 & K2). destruct (stat_mem ex SProfits) eqn:I.
    - apply stat_mem_in in I. rewrite (K1 I). reflexivity.
    - assert (N : ~ In SProfits ex) by (intro H; apply stat_mem_in in H; congruence).
      destruct tl as [|t0 l0] eqn:El; [rewrite (K2 eq_refl N); reflexivity|].
      destruct (stats_complete S sv ops Ops Hsv rp ex) as (t1 & w1 & p & rp' & _ & _ & Ep & E); [fold m tl; rewrite El; discriminate|].
      fold m d tl in Ep, E. rewrite E, I. cbn [fst snd]. assert (Er : rp' = snd (calculate_profits d tl rp (extra_fees (mk_extra m)))) by (rewrite Ep; reflexivity).
      rewrite Er. unfold calculate_profits. destruct rp; reflexivity.
  Qed.
  (** the two shares of a market without trade *)
  Theorem zero_shares rp : tl = [] -> exists t w, percentage_traded sv d tl = Ok t /\ percentage_welfare sv d tl rp = Ok w /\
    (forall x, t = Some x -> x = 0) /\ (forall x, w = Some x -> x = 0).
  Proof.
    intro E0. destruct (stats_cases rp []) as (t & w & Et & Ew & _). exists t, w. split; [exact Et|]. split; [exact Ew|]. rewrite E0 in Et, Ew. split.
    - intros x ->. unfold percentage_traded in Et. destruct (maximum_traded_volume sv d) as [[[v vs]|]|]; cbn [bind ratio] in Et; try discriminate.
      unfold ratio in Et. cbn [map qsum fold_right] in Et. destruct (qltb 0 v) eqn:L; [|discriminate]. injection Et as <-. apply qltb_lt in L.
      assert (N : v <> 0) by (intros ->; qlra). change (0 / qz 2 / v = 0). field. repeat split; try exact N; discriminate.
    - intros x ->. unfold percentage_welfare in Ew. destruct (maximum_aggregated_utility sv d None) as [[[[v vs]|] rp']|]; cbn [bind ratio] in Ew; try discriminate.
      unfold ratio in Ew. cbn [join flat_map filter map qsum fold_right] in Ew. destruct (qltb 0 v) eqn:L; [|discriminate]. injection Ew as <-. apply qltb_lt in L.
      assert (N : v <> 0) by (intros ->; qlra). change ((0 + 0) / v = 0). field. exact N.
  Qed.
End History.

(** the program of the best welfare fills it too *)
Theorem optimum_dict sv d rp r rp' : maximum_aggregated_utility sv d rp = Ok (r, rp') -> rp' = option_map (fun x => dict_fill x d) rp.
Proof.
  unfold maximum_aggregated_utility. cbv zeta. destruct (welfare_lp _ _) as [p|e]; cbn [bind]; [|discriminate]. intros [= _ <-]. destruct rp; reflexivity.
Qed.
(** before any run *)
Lemma never_run S sv ops : (forall a, ~ In (ORun a) ops) -> forall m, mk_trans (session S sv m ops) = mk_trans m.
Proof.
  unfold session. induction ops as [|o ops IH]; intros N m; [reflexivity|]. cbn [fold_left]. rewrite IH by (intros a H; apply (N a); right; exact H).
  destruct o as [b|a|rp ex]; cbn [step].
  - unfold accept_bid. destruct (add_bid (mk_bm m) b). reflexivity.
  - exfalso. apply (N a). left. reflexivity.
  - rewrite stats_market. reflexivity.
Qed.
Theorem stats_before_run S sv ops rp ex : Forall op_ok ops -> solver_ok sv -> (forall a, ~ In (ORun a) ops) -> ~ In SProfits ex ->
  let m := session S sv market_init ops in
  statistics sv m rp ex = (m, option_map (fun x => dict_fill x (get_df (mk_bm m))) rp, Err ValueError).
Proof.
  intros Ops Hsv Nr Np. cbv zeta. destruct (stats_cases S sv ops Ops Hsv rp ex) as (t & w & _ & _ & _ & K). apply K; [|exact Np].
  rewrite never_run by exact Nr. reflexivity.
Qed.

(** peer to peer: every run with both sides makes transactions, though perhaps all of quantity 0 *)
Theorem p2p_some d c r tm ex : map lbl d = seq 0 (length d) -> qty_pos d -> p2p_random d c r = Ok (tm, ex) ->
  forall x y, In x d -> In y d -> buying x = true -> buying y = false -> tm_trans tm <> [].
Proof.
  intros Hl Hp E x y Hx Hy Bx By E0. assert (Hq : qty_nonneg d) by (intros z Hz; apply Qclt_le_weak, Hp, Hz).
  destruct (run_shape d c r Hl Hq tm ex E) as (gtl & _ & T & _ & F). rewrite E0 in T.
  assert (C : concat gtl = []).
  { destruct (concat gtl) as [|[b s] l]; [reflexivity|]. exfalso. pose proof (trades_meet c (map price d) ((b, s) :: l) (map qty d)) as M. rewrite <- T in M. inversion M. }
  destruct (F (lbl x) (lbl y)) as [I|[Z|Z]].
  - apply pair_iff. exists x, y. auto 10.
  - rewrite C in I. exact I.
  - rewrite C in Z. cbn [after fold_left] in Z. unfold after in Z. cbn [fold_left] in Z. rewrite (get_qty d Hl x Hx) in Z. pose proof (Hp x Hx). qlra.
  - rewrite C in Z. unfold after in Z. cbn [fold_left] in Z. rewrite (get_qty d Hl y Hy) in Z. pose proof (Hp y Hy). qlra.
Qed.
Lemma session_snoc S sv m ops o : session S sv m (ops ++ [o]) = step S sv (session S sv m ops) o.
Proof. unfold session. rewrite fold_left_app. reflexivity. Qed.
Theorem p2p_stats_raise S sv ops c r rp ex e : Forall op_ok ops -> 0 <= c -> c <= 1 -> solver_ok sv ->
  let m := session S sv market_init (ops ++ [ORun (AP2P c r)]) in
  snd (statistics sv m rp ex) = Err e <-> e = ValueError /\ one_sided (get_df (mk_bm m)) /\ ~ In SProfits ex.
Proof.
  intros Ops C0 C1 Hsv. cbv zeta. assert (Ops' : Forall op_ok (ops ++ [ORun (AP2P c r)])) by (apply Forall_app; split; [exact Ops | repeat constructor; assumption]).
  rewrite (stats_raise S sv _ Ops' Hsv rp ex e).
  cut (tm_trans (mk_trans (session S sv market_init (ops ++ [ORun (AP2P c r)]))) = [] <-> one_sided (get_df (mk_bm (session S sv market_init (ops ++ [ORun (AP2P c r)])))));
    [intros ->; reflexivity|].
  rewrite session_snoc. set (m := session S sv market_init ops). cbn [step].
  pose proof (inv_session S sv ops Ops _ inv_init) as I. fold m in I. destruct (inv_qty m I) as (Hp & Hq & _).
  pose proof (get_df_lbl (mk_bm m)) as Hl. set (d := get_df (mk_bm m)) in *.
  assert (B : mk_bm (fst (market_run S m (AP2P c r))) = mk_bm m) by (unfold market_run; destruct (run_algo _ _ _) as [[? ?]|]; reflexivity).
  rewrite B. fold d. unfold market_run. fold d. cbn [run_algo mechanism]. destruct (one_sided_dec d) as [O|(x & y & Hx & Hy & Bx & By)].
  - rewrite (one_sided_run0 _ d O). cbn [fst mk_trans]. tauto.
  - assert (NO : ~ one_sided d) by (intros [K|K]; [rewrite (K y Hy) in By | rewrite (K x Hx) in Bx]; discriminate).
    rewrite (run0_two_sided _ d NO). destruct (p2p_run d c r Hl Hq) as (gtl & E & _). rewrite E. cbn [fst mk_trans].
    pose proof (p2p_some d c r _ _ Hl Hp E x y Hx Hy Bx By). tauto.
Qed.

(** a buyer of 1 at 3 and a seller of 1 at 2: the Huang auction needs a third bid *)
Definition idle_ops : list op := [OAccept (B 1 (qz 3) 0); OAccept (A 1 (qz 2) 1); ORun (AHuang (fun _ => O) 0)].
Lemma idle_ok : Forall op_ok idle_ops.
Proof. unfold idle_ops, B, A, op_ok, bid_ok, Qclt, Qcle. simpl. repeat constructor; simpl; try discriminate; reflexivity. Qed.
Lemma idle_witness : exists (S : sorter) (sv : solver) (ops : list op),
  Forall op_ok ops /\ solver_ok sv /\ let m := session S sv market_init ops in
  ~ one_sided (get_df (mk_bm m)) /\ (exists ps pb q, mk_extra m = XHuang ps pb q) /\ snd (statistics sv m None []) = Err ValueError /\
  exists t w, snd (statistics sv m None [SProfits]) = Ok [(STraded, VRatio t); (SWelfare, VRatio w)].
Proof.
  exists SS, fm_solver, idle_ops. split; [exact idle_ok|]. split; [exact fm_solver_ok|]. cbv zeta. split.
  - intros [H|H].
    + specialize (H (mkRow 1 1 (qz 2) 1 false 0 true)). discriminate H. vm_compute. auto.
    + specialize (H (mkRow 0 1 (qz 3) 0 true 0 true)). discriminate H. vm_compute. auto.
  - split; [vm_compute; eauto|]. split; [vm_compute; reflexivity|]. vm_compute. eauto.
Qed.
