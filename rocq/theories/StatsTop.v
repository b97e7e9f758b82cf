(** The statistics of any market reached by a sequence of calls. *)
From Verif Require Import QcTac Num ModelBase ModelHuang ModelMuda ModelP2P ModelMerge ModelMarket ModelStats ListFacts Spec SpecTrade SpecMuda SpecAlloc SpecStats SpecMarket
  TradeFacts AllocFacts CoverFacts LPFacts P2PFacts P2PTrades StoreFacts StatsFacts FairFacts FairRuns HuangMarketFacts.

Lemma div_bounds x y : 0 <= x -> x <= y -> 0 < y -> 0 <= x / y /\ x / y <= 1.
Proof.
  intros H0 H1 Hy. pose proof (qinv_pos y Hy) as Hi. split; unfold Qcdiv.
  - apply qmult_nonneg; [exact H0 | apply Qclt_le_weak, Hi].
  - assert (E : y * / y = 1) by (apply Qcmult_inv_r; intro Z; rewrite Z in Hy; revert Hy; apply Qcle_not_lt, Qcle_refl).
    rewrite <- E. apply qmult_le_r; [apply Qclt_le_weak, Hi | exact H1].
Qed.

(** ** percentage_traded *)
Lemma traded_spec sv d tl : map lbl d = seq 0 (length d) -> qty_nonneg d -> solver_ok sv -> refer d tl -> bought d tl = sold d tl ->
  exists x vmax, alloc_ok d x /\ alloc_compat d x /\ volume d x = vmax /\
    (forall y, alloc_ok d y -> alloc_compat d y -> volume d y <= vmax) /\
    percentage_traded sv d tl = Ok (if qltb 0 vmax then Some (bought d tl / vmax) else None).
Proof.
  intros Hl Hq Hsv R B. pose proof (labels_ok d Hl) as Hu.
  destruct (max_volume d Hl sv Hq Hsv) as (x & t & vars & E & X1 & X2 & X3 & _).
  exists x, (volume d x). split; [exact X1|]. split; [exact X2|]. split; [reflexivity|]. split.
  - intros y Y1 Y2. rewrite X3. apply volume_le_cover; assumption.
  - unfold percentage_traded. rewrite E. cbn [bind ratio].
    change (qsum (map t_qty tl)) with (qsumf t_qty tl). rewrite (total_qty d tl Hu R), (half_sum _ _ B).
    destruct (qltb 0 (volume d x)); reflexivity.
Qed.
Lemma traded_bounds sv d tl x : map lbl d = seq 0 (length d) -> qty_nonneg d -> solver_ok sv -> Fair d tl ->
  percentage_traded sv d tl = Ok (Some x) -> 0 <= x /\ x <= 1.
Proof.
  intros Hl Hq Hsv F. pose proof (labels_ok d Hl) as Hu.
  destruct (max_volume d Hl sv Hq Hsv) as (y & t & vars & E & X1 & X2 & X3 & _).
  unfold percentage_traded. rewrite E. cbn [bind ratio]. destruct (qlt_spec 0 (volume d y)) as [P|]; [|discriminate]. intros [= <-].
  change (qsum (map t_qty tl)) with (qsumf t_qty tl).
  rewrite (total_qty d tl Hu (fair_refer d tl F)), (half_sum _ _ (fair_balanced d tl F)).
  apply div_bounds; [|rewrite X3; apply fair_volume; assumption | exact P].
  apply qsumf_nonneg. intros u Hu'. apply filter_In in Hu'. apply (fair_feasible d tl F). tauto.
Qed.

(** ** percentage_welfare *)
(** what the function computes from the transactions *)
Lemma join_gain (ts : list trans) d :
  qsum (map (fun tr => (price (snd tr) - t_price (fst tr)) * t_qty (fst tr)) (filter (fun tr : trans * row => buying (snd tr)) (join ts d)))
  + qsum (map (fun tr => (t_price (fst tr) - price (snd tr)) * t_qty (fst tr)) (filter (fun tr => negb (buying (snd tr))) (join ts d)))
  = qsumf (fun r => qsumf (fun t => gain_at price (t_price t) r * t_qty t) (filter (fun t => Nat.eqb (t_bid t) (lbl r)) ts)) d.
Proof.
  pose proof (join_sum buying (fun tr => (price (snd tr) - t_price (fst tr)) * t_qty (fst tr)) ts d) as E1.
  pose proof (join_sum (fun r => negb (buying r)) (fun tr => (t_price (fst tr) - price (snd tr)) * t_qty (fst tr)) ts d) as E2.
  unfold qsumf in E1 at 1. unfold qsumf in E2 at 1. rewrite E1, E2. rewrite !qsumf_filter, <- qsumf_plus. apply qsumf_ext. intros r _.
  unfold gain_at. cbn [fst snd]. destruct (buying r); cbn [negb]; ring.
Qed.
Lemma welfare_spec sv d tl rp : map lbl d = seq 0 (length d) -> qty_nonneg d -> solver_ok sv ->
  exists x wmax, alloc_ok d x /\ welfare d price x = wmax /\ (forall y, alloc_ok d y -> welfare d price y <= wmax) /\
    percentage_welfare sv d tl rp = Ok (if qltb 0 wmax then Some ((traded_surplus price d tl - (money true d tl - money false d tl)) / wmax) else None).
Proof.
  intros Hl Hq Hsv. pose proof (labels_ok d Hl) as Hu.
  destruct (max_welfare d Hl sv None Hq Hsv) as (x & p & vars & E & X1 & _ & X2 & _).
  change (rvalue []) with price in *. exists x, (welfare d price x). split; [exact X1|]. split; [reflexivity|]. split.
  - intros y Y. rewrite X2. apply welfare_le_surplus, Y.
  - unfold percentage_welfare. rewrite E. cbn [bind]. rewrite join_gain, total_gain by exact Hu. unfold ratio. destruct (qltb 0 _); reflexivity.
Qed.
Lemma welfare_bounds sv d tl rp x : map lbl d = seq 0 (length d) -> qty_nonneg d -> solver_ok sv -> Fair d tl ->
  percentage_welfare sv d tl rp = Ok (Some x) -> 0 <= x /\ x <= 1.
Proof.
  intros Hl Hq Hsv F. pose proof (labels_ok d Hl) as Hu.
  destruct (max_welfare d Hl sv None Hq Hsv) as (y & p & vars & E & X1 & _ & X2 & _).
  unfold percentage_welfare. rewrite E. cbn [bind]. rewrite join_gain. unfold ratio. destruct (qlt_spec 0 (welfare d (rvalue []) y)) as [P|]; [|discriminate]. intros [= <-].
  apply div_bounds; [| |exact P].
  - apply qsumf_nonneg. intros r Hr. apply qsumf_nonneg. intros t Ht. apply filter_In in Ht. destruct Ht as [Ht Et]. apply Nat.eqb_eq in Et.
    eapply gain_term; eauto.
  - rewrite total_gain by exact Hu. rewrite X2. pose proof (fair_surplus d tl Hu F (rvalue []) p) as H. pose proof (fair_money d tl F).
    change (traded_surplus (rvalue []) d tl) with (traded_surplus price d tl) in H. qlra.
Qed.

(** ** All histories *)
Lemma get_df_accept m b : get_df (mk_bm (fst (accept_bid m b))) = get_df (mk_bm m) ++ [row_of (length (bm_bids (mk_bm m))) b].
Proof.
  unfold accept_bid. destruct m as [[n l] t x]. simpl. unfold get_df. simpl.
  enough (H : forall i, rows_from i (l ++ [b]) = rows_from i l ++ [row_of (i + length l) b]) by exact (H 0%nat).
  induction l as [|a l IH]; intro i; simpl; [rewrite Nat.add_0_r; reflexivity|]. rewrite IH, <- plus_n_Sm. reflexivity.
Qed.
Lemma fair_extend d tl r : labels_unique (d ++ [r]) -> 0 <= qty r -> Fair d tl -> Fair (d ++ [r]) tl.
Proof.
  intros Hu Hq F.
  assert (New : forall t, In t tl -> lbl r <> t_bid t).
  { intros t Ht E. destruct (fair_refer d tl F t Ht) as (x & Hx & Ex). unfold labels_unique in Hu. rewrite map_app in Hu.
    apply (NoDup_app_disj _ _ Hu (lbl x)); [apply in_map, Hx | left; congruence]. }
  assert (O : forall s t, In t tl -> on_side s (d ++ [r]) t = on_side s d t).
  { intros s t Ht. unfold on_side. rewrite existsb_app. simpl. destruct (Nat.eqb_spec (lbl r) (t_bid t)); [exfalso; eapply New; eauto | simpl; rewrite !orb_false_r; reflexivity]. }
  split.
  - intros t Ht. destruct (fair_refer d tl F t Ht) as (x & Hx & Ex). exists x. rewrite in_app_iff. auto.
  - destruct (fair_feasible d tl F) as [Q C]. split; [exact Q|]. intros x Hx. apply in_app_iff in Hx. destruct Hx as [Hx|[<-|[]]]; [apply C, Hx|].
    rewrite traded_by_absent; [exact Hq|]. intro I. apply in_map_iff in I. destruct I as (t & E & Ht). apply (New t Ht). auto.
  - intros t x Ht Q Hx E. apply in_app_iff in Hx. destruct Hx as [Hx|[<-|[]]]; [eapply fair_rational; eauto | exfalso; eapply New; eauto].
  - intros f Hf. unfold weighted. rewrite !(filter_ext_in' _ _ tl (O _)). apply (fair_dom d tl F f Hf).
Qed.

Record MInv (m : market) : Prop := mkMInv {
  inv_bids : forall r, In r (get_df (mk_bm m)) -> 0 < qty r /\ 0 <= price r /\ (0 <= user r)%Z;
  inv_fair : Fair (get_df (mk_bm m)) (tm_trans (mk_trans m));
  inv_fees : 0 <= match extra_fees (mk_extra m) with Some f => qsum f | None => 0 end }.
Lemma inv_init : MInv market_init.
Proof. split; [intros r [] | apply fair_nil; intros r [] | apply Qcle_refl]. Qed.
Lemma inv_qty m : MInv m -> qty_pos (get_df (mk_bm m)) /\ qty_nonneg (get_df (mk_bm m)) /\ price_nonneg (get_df (mk_bm m)).
Proof. intros [H _ _]. split; [|split]; intros r Hr; destruct (H r Hr) as (? & ? & ?); [|apply Qclt_le_weak|]; assumption. Qed.
Lemma inv_input m a : MInv m -> op_ok (ORun a) -> input_ok a (get_df (mk_bm m)).
Proof. intros H O. destruct (inv_qty m H) as (? & ? & ?). destruct a; simpl in *; auto. Qed.
Lemma inv_step S sv m o : MInv m -> op_ok o -> MInv (step S sv m o).
Proof.
  intros I O. destruct o as [b|a|rp ex]; cbn [step].
  - destruct (inv_qty m I) as (_ & Hq & _). destruct I as [I1 I2 I3]. destruct O as (O1 & O2 & O3).
    pose proof (get_df_lbl (mk_bm (fst (accept_bid m b)))) as L. split.
    + rewrite get_df_accept. intros r Hr. apply in_app_iff in Hr. destruct Hr as [Hr|[<-|[]]]; [apply I1, Hr | simpl; auto].
    + apply labels_ok in L. rewrite get_df_accept in *. unfold accept_bid. simpl. apply fair_extend; [exact L | apply Qclt_le_weak, O1 | exact I2].
    + exact I3.
  - unfold market_run. destruct (run_algo S a (get_df (mk_bm m))) as [[t x]|e] eqn:E; [|exact I].
    pose proof (inv_input m a I O) as Hi. pose proof (get_df_lbl (mk_bm m)) as L. destruct I as [I1 I2 I3]. split; cbn [fst mk_bm mk_trans mk_extra].
    + exact I1.
    + eapply run_fair; eauto.
    + eapply run_fees; eauto. intros r Hr. apply I1, Hr.
  - unfold statistics. destruct (stats_loop sv m rp ex STATS) as [rp' o]. exact I.
Qed.
Lemma inv_session S sv ops : Forall op_ok ops -> forall m, MInv m -> MInv (session S sv m ops).
Proof.
  unfold session. induction 1 as [|o ops Ho _ IH]; intros m I; [exact I|]. simpl. apply IH, inv_step; assumption.
Qed.

Section History.
  Variables (S : sorter) (sv : solver) (ops : list op).
  Hypothesis Ops : Forall op_ok ops.
  Let m := session S sv market_init ops.
  Let d := get_df (mk_bm m).
  Let tl := tm_trans (mk_trans m).
  Let I : MInv m. Proof. apply inv_session; [exact Ops | apply inv_init]. Qed.
  Let Hl : map lbl d = seq 0 (length d) := get_df_lbl (mk_bm m).

  Theorem history_profits rp p rp' : calculate_profits d tl rp (extra_fees (mk_extra m)) = (Ok p, rp') ->
    (forall x, In x (pr_bid p) -> 0 <= x) /\ 0 <= pr_market p.
  Proof.
    intro E. destruct (profits_are d tl rp (extra_fees (mk_extra m)) p rp' (labels_ok d Hl) E) as (us & _ & _ & P1 & _ & P3). split.
    - rewrite P1. intros x Hx. apply in_map_iff in Hx. destruct Hx as (u & <- & _). apply fair_gain, I.
    - rewrite P3. pose proof (fair_money d tl (inv_fair m I)). pose proof (inv_fees m I). qlra.
  Qed.
  Theorem history_traded : solver_ok sv -> exists o, percentage_traded sv d tl = Ok o /\ forall x, o = Some x -> 0 <= x /\ x <= 1.
  Proof.
    intro Hsv. destruct (inv_qty m I) as (_ & Hq & _).
    destruct (traded_spec sv d tl Hl Hq Hsv (fair_refer _ _ (inv_fair m I)) (fair_balanced _ _ (inv_fair m I))) as (x & w & _ & _ & _ & _ & E).
    eexists. split; [exact E|]. intros y Ey. rewrite Ey in E. eapply traded_bounds; eauto. apply I.
  Qed.
  Theorem history_welfare rp : solver_ok sv -> exists o, percentage_welfare sv d tl rp = Ok o /\ forall x, o = Some x -> 0 <= x /\ x <= 1.
  Proof.
    intro Hsv. destruct (inv_qty m I) as (_ & Hq & _).
    destruct (welfare_spec sv d tl rp Hl Hq Hsv) as (x & w & _ & _ & _ & E).
    eexists. split; [exact E|]. intros y Ey. rewrite Ey in E. eapply welfare_bounds; eauto. apply I.
  Qed.
End History.

(** p2p: what is paid is received *)
Theorem p2p_market_zero S m c r tm ex rp p rp' : let d := get_df (mk_bm m) in qty_nonneg d -> 0 <= c -> c <= 1 ->
  snd (market_run S m (AP2P c r)) = Ok (tm, ex) ->
  calculate_profits d (tm_trans tm) rp (extra_fees ex) = (Ok p, rp') -> pr_market p = 0.
Proof.
  cbv zeta. intros Hq C0 C1 E Ep. rewrite market_run_snd in E. cbn [run_algo mechanism] in E.
  pose proof (get_df_lbl (mk_bm m)) as Hl. set (d := get_df (mk_bm m)) in *.
  destruct (profits_are d (tm_trans tm) rp (extra_fees ex) p rp' (labels_ok d Hl) Ep) as (us & _ & _ & _ & _ & P3). rewrite P3. apply mech0_inv in E. destruct E as [[-> ->]|E]; [vm_compute; apply Qc_is_canon; reflexivity|].
  destruct (p2p_fair d c r tm ex Hl Hq C0 C1 E) as [_ ->].
  destruct (p2p_matching d c r Hl Hq tm ex E) as (gtl & -> & _). cbn [extra_fees]. ring.
Qed.
