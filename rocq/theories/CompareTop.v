(** What the mechanisms trade, measured by the best quantity at one price. *)
From Verif Require Import QcTac Num ModelBase ModelCurves ModelHuang ModelMuda ModelP2P ModelMerge ModelMarket ModelStats ModelUniform ListFacts Spec SpecTrade SpecMuda SpecAlloc SpecStats SpecHuang SpecCompare
  TradeFacts AllocFacts CoverFacts LPFacts P2PFacts P2PTrades MudaPrice StoreFacts StatsFacts FairFacts FairRuns HuangFacts HuangMarketFacts StatsTop MudaFacts MudaTop MudaWitness UniformFacts UniformTop DualTop CompareVolume CompareMuda CompareHuang.

Lemma tradable_nonneg d p : qty_nonneg d -> 0 <= tradable_at d p.
Proof.
  intro Hq. unfold tradable_at, demand_at, supply_at.
  assert (H : forall f, 0 <= qsumf qty (filter f d)) by (intro f; apply qsumf_nonneg; intros r Hr; apply filter_In in Hr; apply Hq, Hr).
  destruct (qmin_case (qsumf qty (filter (fun r => buying r && qleb p (price r)) d)) (qsumf qty (filter (fun r => negb (buying r) && qleb (price r) p) d))) as [[-> _]|[-> _]]; apply H.
Qed.
Lemma best_unique d c c' : best_at_one_price d c -> best_at_one_price d c' -> c = c'.
Proof. intros [H (p & E)] [H' (p' & E')]. specialize (H p'). specialize (H' p). qlra. Qed.
Lemma best_nonneg d c : qty_nonneg d -> best_at_one_price d c -> 0 <= c.
Proof. intros Hq [_ (p & <-)]. apply tradable_nonneg, Hq. Qed.

(** it is reached at the price of a bid *)
Lemma arg_max {A} (f : A -> Qc) a l : exists x, In x (a :: l) /\ forall y, In y (a :: l) -> f y <= f x.
Proof.
  induction l as [|b l (x & I & H)].
  - exists a. split; [left; reflexivity|]. intros y [->|[]]. apply Qcle_refl.
  - destruct (Qclt_le_dec (f x) (f b)) as [L|L].
    + exists b. split; [right; left; reflexivity|]. intros y [->|[->|Iy]]; [|apply Qcle_refl|].
      * specialize (H y (or_introl eq_refl)). qlra.
      * specialize (H y (or_intror Iy)). qlra.
    + exists x. split; [destruct I as [->|I]; [left; reflexivity | right; right; exact I]|]. intros y [->|[->|Iy]]; [| exact L |].
      * apply H. left. reflexivity.
      * apply H. right. exact Iy.
Qed.
Lemma at_bid d p : qty_nonneg d -> tradable_at d p <= 0 \/ exists q, In q (map price d) /\ tradable_at d p <= tradable_at d q.
Proof.
  intro Hq.
  destruct (pick_low (fun q => qleb p q) (map price d)) as [N|(q & Iq & L & M)].
  - assert (Z : demand_at d p = 0).
    { unfold demand_at. rewrite qsumf_filter. apply qsumf_zero. intros r Hr. specialize (N _ (in_map price d r Hr)). rewrite N, andb_false_r. reflexivity. }
    left. unfold tradable_at. rewrite Z. destruct (qmin_case 0 (supply_at d p)) as [[-> ?]|[-> ?]]; qlra.
  - right. exists q. split; [exact Iq|]. apply (proj1 (qleb_le _ _)) in L.
    assert (D : demand_at d p <= demand_at d q).
    { unfold demand_at. rewrite !qsumf_filter. apply qsumf_le. intros r Hr. pose proof (Hq r Hr). destruct (buying r); cbn [andb]; [|qlra].
      destruct (qle_spec p (price r)) as [P|P]; destruct (qle_spec q (price r)) as [Q|Q]; try qlra.
      specialize (M _ (in_map price d r Hr) (proj2 (qleb_le _ _) P)). exfalso. qlra. }
    assert (U : supply_at d p <= supply_at d q).
    { unfold supply_at. rewrite !qsumf_filter. apply qsumf_le. intros r Hr. destruct (buying r); cbn [negb andb]; [qlra|]. specialize (Hq r Hr).
      destruct (qle_spec (price r) p) as [P|P]; destruct (qle_spec (price r) q) as [Q|Q]; try qlra. }
    unfold tradable_at. destruct (qmin_case (demand_at d p) (supply_at d p)) as [[-> ?]|[-> ?]], (qmin_case (demand_at d q) (supply_at d q)) as [[-> ?]|[-> ?]]; qlra.
Qed.

Theorem best_exists d : qty_nonneg d -> exists c, best_at_one_price d c.
Proof.
  intro Hq. destruct (arg_max (tradable_at d) 0 (map price d)) as (x & Ix & H).
  exists (tradable_at d x). split; [|exists x; reflexivity]. intro p. destruct (at_bid d p Hq) as [Z|(q & Iq & L)].
  - eapply Qcle_trans; [exact Z | apply tradable_nonneg, Hq].
  - eapply Qcle_trans; [exact L | apply H; right; exact Iq].
Qed.
Lemma best_by_prices d c p : qty_nonneg d -> tradable_at d p = c -> forallb (fun q => qleb (tradable_at d q) c) (map price d) = true -> best_at_one_price d c.
Proof.
  intros Hq E H. split; [|exists p; exact E]. intro q. destruct (at_bid d q Hq) as [Z|(x & Ix & L)].
  - eapply Qcle_trans; [exact Z|]. rewrite <- E. apply tradable_nonneg, Hq.
  - eapply Qcle_trans; [exact L|]. apply (proj1 (qleb_le _ _)). exact (proj1 (forallb_forall _ _) H x Ix).
Qed.

(** ** Transactions on one side of a price *)
Lemma traded_one_price d tl p : labels_unique d -> qty_nonneg d -> refer d tl -> feasible d tl -> bought d tl = sold d tl ->
  (forall r, In r d -> 0 < traded_by (lbl r) tl -> if buying r then p <= price r else price r <= p) -> bought d tl <= tradable_at d p.
Proof.
  intros Hu Hq R F B H.
  assert (D : bought d tl <= demand_at d p).
  { rewrite bought_by by assumption. unfold demand_at, all_b. rewrite !qsumf_filter. apply qsumf_le. intros r Hr.
    destruct (feasible_traded d tl r F Hr) as [T0 T1]. specialize (H r Hr). destruct (buying r); cbn [andb]; [|qlra].
    destruct (qle_spec p (price r)); [exact T1|]. destruct (Qclt_le_dec 0 (traded_by (lbl r) tl)) as [P|P]; [specialize (H P)|]; qlra. }
  assert (U : sold d tl <= supply_at d p).
  { rewrite sold_by by assumption. unfold supply_at, all_s. rewrite !qsumf_filter. apply qsumf_le. intros r Hr.
    destruct (feasible_traded d tl r F Hr) as [T0 T1]. specialize (H r Hr). destruct (buying r); cbn [negb andb]; [qlra|].
    destruct (qle_spec (price r) p); [exact T1|]. destruct (Qclt_le_dec 0 (traded_by (lbl r) tl)) as [P|P]; [specialize (H P)|]; qlra. }
  unfold tradable_at. destruct (qmin_case (demand_at d p) (supply_at d p)) as [[-> ?]|[-> ?]]; qlra.
Qed.
Lemma nothing_traded d tl : tl = [] -> bought d tl = 0.
Proof. intros ->. reflexivity. Qed.

(** ** The uniform price mechanism reaches the best quantity *)
Theorem uniform_best S d tm ex : qty_pos d -> price_nonneg d -> labels_unique d -> uniform_price_mechanism S d = Ok (tm, ex) ->
  best_at_one_price d (bought d (tm_trans tm)).
Proof.
  intros Hq Hp Hu E. assert (Hn : qty_nonneg d) by (intros r Hr; apply Qclt_le_weak, Hq, Hr).
  destruct (uniform_summary S d Hn Hp Hu tm ex E) as (c & p & -> & _ & <- & St & _ & Rf & Fe & Ra & Pr & _).
  destruct (uniform_marginal S d Hq Hp tm _ p E) as (ps & pb & (_ & _ & _ & _ & _ & _ & M) & _).
  split; [exact M|]. exists p. apply Qcle_antisym; [apply M|]. apply traded_one_price; auto.
  intros r Hr T. destruct (traded_some (lbl r) (tm_trans tm)) as (t & It & Et); [intro Z; rewrite Z in T; discriminate T|].
  specialize (Ra t r It Hr (eq_sym Et)). rewrite (proj1 (Pr t It)) in Ra. exact Ra.
Qed.

(** ** The Huang auction and MUDA do not exceed it *)
Lemma two_prices d tl ps pb c : labels_unique d -> qty_nonneg d -> refer d tl -> feasible d tl -> bought d tl = sold d tl -> ps <= pb ->
  (forall t r, In t tl -> In r d -> lbl r = t_bid t -> if buying r then pb <= price r else price r <= ps) ->
  best_at_one_price d c -> bought d tl <= c.
Proof.
  intros Hu Hq R F B L H [M _]. eapply Qcle_trans; [|apply (M pb)]. apply traded_one_price; auto.
  intros r Hr T. destruct (traded_some (lbl r) tl) as (t & It & Et); [intro Z; rewrite Z in T; discriminate T|].
  specialize (H t r It Hr (eq_sym Et)). destruct (buying r); qlra.
Qed.
Theorem huang_best S d c tm ex : qty_nonneg d -> price_nonneg d -> labels_unique d -> best_at_one_price d c ->
  huang_auction S d = Ok (tm, ex) -> bought d (tm_trans tm) <= c.
Proof.
  intros Hq Hp Hu B E. destruct (huang_summary S d Hq Hp Hu tm ex E) as (Bl & _ & R & F & Ra & _ & NE & PP).
  destruct (tm_trans tm) as [|t0 tl0] eqn:Et; [exact (best_nonneg d c Hq B)|]. rewrite <- Et in *.
  destruct NE as (ps & pb & q & -> & _); [rewrite Et; discriminate|]. destruct (PP ps pb q eq_refl) as [Lt P].
  apply (two_prices d _ ps pb); auto; [apply Qclt_le_weak, Lt|]. intros t r It Ir El. specialize (Ra t r It Ir El). rewrite (P t r It Ir El) in Ra.
  destruct (buying r); exact Ra.
Qed.
Theorem huang_market_best S smp cnt d c tm ex : map lbl d = seq 0 (length d) -> qty_pos d -> price_nonneg d -> best_at_one_price d c ->
  mechanism (Some (smp, cnt)) (huang_auction S) d = Ok (tm, ex) -> bought d (tm_trans tm) <= c.
Proof.
  intros Hl Hq Hp B E. assert (Hn : qty_nonneg d) by (intros r Hr; apply Qclt_le_weak, Hq, Hr).
  destruct (huang_market S smp cnt d Hl Hq Hp (ok_not_lone _ _ _ _ _ Hl E)) as (tm' & ex' & E' & Bl & _ & R & F & P). rewrite E in E'. injection E' as <- <-.
  destruct P as [->|(ps & pb & q & _ & _ & Lt & P)]; [exact (best_nonneg d c Hn B)|].
  apply (two_prices d _ ps pb); auto; [apply labels_ok, Hl | apply Qclt_le_weak, Lt|]. intros t r It Ir El. specialize (P t r It Ir El).
  destruct (buying r); apply Qclt_le_weak, P.
Qed.
Theorem muda_best S d fl c tm ex : qty_nonneg d -> price_nonneg d -> labels_unique d -> best_at_one_price d c ->
  muda S d fl = Ok (tm, ex) -> bought d (tm_trans tm) <= c.
Proof.
  intros Hq Hp Hu B E. destruct (muda_ok S d fl tm ex Hq Hu E) as (tlL & tlR & pl & pr & f1 & f2 & _ & _ & ->).
  eapply muda_one_price; eauto; [exact (best_nonneg d c Hq B) | apply B].
Qed.

(** ** Anything that can be traded at all is at most twice as much *)
Theorem volume_best d c x : qty_nonneg d -> best_at_one_price d c -> alloc_ok d x -> alloc_compat d x -> volume d x <= qz 2 * c.
Proof. intros Hq B O C. eapply one_price_half; eauto; [exact (best_nonneg d c Hq B) | apply B]. Qed.
Theorem fair_best d c tl : labels_unique d -> qty_nonneg d -> best_at_one_price d c -> Fair d tl -> bought d tl <= qz 2 * c.
Proof.
  intros Hu Hq B F. destruct (volume_optimum d Hu Hq) as (x & t & O & C & V).
  eapply Qcle_trans; [|apply (volume_best d c x); assumption]. rewrite V. apply fair_volume; assumption.
Qed.

(** ** The peer to peer mechanism trades at least the best quantity at one price *)
Lemma exhausted_price d tl p : labels_unique d -> refer d tl -> feasible d tl -> bought d tl = sold d tl ->
  (forall b s, In b d -> In s d -> buying b = true -> buying s = false -> price s <= price b ->
     traded_by (lbl b) tl = qty b \/ traded_by (lbl s) tl = qty s) -> tradable_at d p <= bought d tl.
Proof.
  intros Hu R F Bl H.
  assert (T0 : forall r, In r d -> 0 <= traded_by (lbl r) tl) by (intros r Hr; apply (feasible_traded d tl r F Hr)).
  destruct (existsb (fun r => buying r && qleb p (price r) && negb (qeqb (traded_by (lbl r) tl) (qty r))) d) eqn:X.
  - (* a buyer is left: the sellers are exhausted *)
    apply existsb_exists in X. destruct X as (b & Ib & X). apply andb_true_iff in X. destruct X as [X X3]. apply andb_true_iff in X. destruct X as [X1 X2].
    apply (proj1 (qleb_le _ _)) in X2. apply negb_true_iff in X3. apply (proj1 (qeqb_neq _ _)) in X3.
    assert (U : supply_at d p <= sold d tl).
    { rewrite sold_by by assumption. unfold supply_at, all_s. rewrite !qsumf_filter. apply qsumf_le. intros s Hs. specialize (T0 s Hs).
      destruct (buying s) eqn:Bs; cbn [negb andb]; [qlra|]. destruct (qle_spec (price s) p); [|exact T0].
      destruct (H b s Ib Hs X1 Bs) as [Z|Z]; [qlra | destruct (X3 Z) | rewrite Z; apply Qcle_refl]. }
    rewrite Bl. unfold tradable_at. destruct (qmin_case (demand_at d p) (supply_at d p)) as [[-> ?]|[-> ?]]; qlra.
  - assert (D : demand_at d p <= bought d tl).
    { rewrite bought_by by assumption. unfold demand_at, all_b. rewrite !qsumf_filter. apply qsumf_le. intros b Hb. specialize (T0 b Hb).
      destruct (buying b) eqn:Bb; cbn [andb]; [|qlra]. destruct (qleb p (price b)) eqn:L; [|exact T0].
      destruct (qeq_spec (traded_by (lbl b) tl) (qty b)) as [Z|Z]; [rewrite Z; apply Qcle_refl|]. exfalso.
      assert (Y : existsb (fun r => buying r && qleb p (price r) && negb (qeqb (traded_by (lbl r) tl) (qty r))) d = true).
      { apply existsb_exists. exists b. split; [exact Hb|]. rewrite Bb, L. apply (proj2 (qeqb_neq _ _)) in Z. rewrite Z. reflexivity. }
      congruence. }
    unfold tradable_at. destruct (qmin_case (demand_at d p) (supply_at d p)) as [[-> ?]|[-> ?]]; qlra.
Qed.
Theorem p2p_best d k r c tm ex : map lbl d = seq 0 (length d) -> qty_nonneg d -> 0 <= k -> k <= 1 -> best_at_one_price d c ->
  p2p_random d k r = Ok (tm, ex) -> c <= bought d (tm_trans tm) /\ bought d (tm_trans tm) <= qz 2 * c.
Proof.
  intros Hl Hq K0 K1 B E. split.
  - destruct B as [_ (p & <-)]. apply exhausted_price.
    + apply labels_ok, Hl.
    + eapply p2p_refer; eauto.
    + eapply p2p_feasible; eauto.
    + eapply p2p_balanced; eauto.
    + intros b s Ib Is Bb Bs L. eapply p2p_exhausts; eauto.
  - apply fair_best; auto; [apply labels_ok, Hl|]. eapply p2p_fair; eauto.
Qed.

(** ** As run by the market *)
Lemma one_sided d c : (forall r, In r d -> buying r = true) \/ (forall r, In r d -> buying r = false) -> best_at_one_price d c -> c <= 0.
Proof.
  intros H [_ (p & <-)]. unfold tradable_at.
  assert (Z : demand_at d p = 0 \/ supply_at d p = 0).
  { destruct H as [H|H]; [right|left]; unfold demand_at, supply_at; rewrite qsumf_filter; apply qsumf_zero; intros r Hr; rewrite (H r Hr); reflexivity. }
  destruct (qmin_case (demand_at d p) (supply_at d p)) as [[-> ?]|[-> ?]]; destruct Z; qlra.
Qed.

Lemma unmixed d : Nat.eqb (length (buyers d)) 0 || Nat.eqb (length (buyers d)) (length d) = true ->
  (forall r, In r d -> buying r = true) \/ (forall r, In r d -> buying r = false).
Proof.
  intro H. apply orb_true_iff in H. destruct H as [H|H]; apply Nat.eqb_eq in H.
  - right. intros r Hr. destruct (buying r) eqn:B; [|reflexivity]. exfalso.
    assert (I : In r (buyers d)) by (apply filter_In; auto). destruct (buyers d); [destruct I | discriminate H].
  - left. unfold buyers in H. clear -H. induction d as [|a d IH]; [intros ? []|]. cbn [filter length] in H.
    assert (L : (length (filter buying d) <= length d)%nat) by (clear; induction d as [|x d IH]; [constructor|]; cbn [filter length]; destruct (buying x); cbn [length]; lia).
    destruct (buying a) eqn:B; cbn [length] in H; [|exfalso; lia]. intros r [<-|Hr]; [exact B | apply IH; [lia | exact Hr]].
Qed.
Theorem run_best S a d c tm ex : map lbl d = seq 0 (length d) -> qty_pos d -> price_nonneg d -> best_at_one_price d c ->
  run_algo S a d = Ok (tm, ex) ->
  match a with
  | AP2P k _ => 0 <= k -> k <= 1 -> c <= bought d (tm_trans tm) /\ bought d (tm_trans tm) <= qz 2 * c
  | _ => bought d (tm_trans tm) <= c
  end.
Proof.
  intros Hl Hq Hp B E. assert (Hn : qty_nonneg d) by (intros r Hr; apply Qclt_le_weak, Hq, Hr). pose proof (best_nonneg d c Hn B) as C0.
  destruct a as [smp cnt|fl|k r|]; cbn [run_algo] in E.
  - eapply huang_market_best; eauto.
  - unfold mechanism, mech_run0 in E. destruct (_ || _); [injection E as <- _; exact C0|]. eapply muda_best; eauto. apply labels_ok, Hl.
  - intros K0 K1. unfold mechanism, mech_run0 in E. destruct (_ || _) eqn:X; [|eapply p2p_best; eauto].
    pose proof (one_sided d c (unmixed d X) B). injection E as <- _. cbn. change (bought d []) with 0. rewrite two_times. split; qlra.
  - discriminate.
Qed.
(** neither the Huang auction nor MUDA trades more than any peer to peer run *)
Theorem p2p_most S a k r d tm ex tm' ex' : map lbl d = seq 0 (length d) -> qty_pos d -> price_nonneg d -> 0 <= k -> k <= 1 ->
  run_algo S a d = Ok (tm, ex) -> run_algo S (AP2P k r) d = Ok (tm', ex') ->
  match a with AP2P k' _ => 0 <= k' -> k' <= 1 -> bought d (tm_trans tm) <= qz 2 * bought d (tm_trans tm')
  | _ => bought d (tm_trans tm) <= bought d (tm_trans tm') end.
Proof.
  intros Hl Hq Hp K0 K1 E E'. assert (Hn : qty_nonneg d) by (intros x Hx; apply Qclt_le_weak, Hq, Hx). destruct (best_exists d Hn) as (c & B).
  pose proof (run_best S a d c tm ex Hl Hq Hp B E) as H. destruct (run_best S _ d c tm' ex' Hl Hq Hp B E' K0 K1) as [H1 H2].
  destruct a; try qlra. intros A0 A1. specialize (H A0 A1). rewrite two_times in *. qlra.
Qed.
Theorem p2p_percentage S a k r d tm ex tm' ex' sv v v' : map lbl d = seq 0 (length d) -> qty_pos d -> price_nonneg d -> 0 <= k -> k <= 1 -> solver_ok sv ->
  (forall k' r', a <> AP2P k' r') -> run_algo S a d = Ok (tm, ex) -> run_algo S (AP2P k r) d = Ok (tm', ex') ->
  percentage_traded sv d (tm_trans tm) = Ok v -> percentage_traded sv d (tm_trans tm') = Ok v' ->
  match v, v' with Some x, Some y => x <= y | None, None => True | _, _ => False end.
Proof.
  intros Hl Hq Hp K0 K1 Hsv Ha E E' P P'. assert (Hn : qty_nonneg d) by (intros x Hx; apply Qclt_le_weak, Hq, Hx).
  assert (I : input_ok a d) by (destruct a; cbn; auto; destruct (Ha _ _ eq_refl)).
  pose proof (run_fair S a d tm ex Hl I E) as F. pose proof (run_fair S (AP2P k r) d tm' ex' Hl (conj Hn (conj K0 K1)) E') as F'.
  destruct (traded_spec sv d (tm_trans tm) Hl Hn Hsv (fair_refer _ _ F) (fair_balanced _ _ F)) as (x & vm & X1 & X2 & X3 & X4 & X5).
  destruct (traded_spec sv d (tm_trans tm') Hl Hn Hsv (fair_refer _ _ F') (fair_balanced _ _ F')) as (y & vm' & Y1 & Y2 & Y3 & Y4 & Y5).
  assert (vm' = vm) as -> by (specialize (X4 y Y1 Y2); specialize (Y4 x X1 X2); qlra).
  rewrite X5 in P. injection P as <-. rewrite Y5 in P'. injection P' as <-.
  pose proof (p2p_most S a k r d tm ex tm' ex' Hl Hq Hp K0 K1 E E') as M.
  destruct (qlt_spec 0 vm) as [V|]; [|trivial]. unfold Qcdiv. apply qmult_le_r; [apply Qclt_le_weak, qinv_pos, V|].
  destruct a; try exact M. destruct (Ha _ _ eq_refl).
Qed.
