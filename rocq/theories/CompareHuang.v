(** Bid by bid and user by user the Huang auction gives no more than the uniform price mechanism. *)
From Verif Require Import QcTac Num NumFacts ModelBase ModelCurves ModelHuang ModelMuda ModelUniform ListFacts Spec SpecTrade SpecMuda
  CurveFacts IntersectFacts CurveTop TradeFacts HuangFacts UniformFacts UniformTop DualTop P2PTrades SpecAlloc.

Lemma profit_row d u tl (pr : row -> Qc) : labels_unique d ->
  (forall t r, In t tl -> In r d -> lbl r = t_bid t -> t_price t = pr r) ->
  profit d u tl = qsumf (fun r => gain (pr r) r * traded_by (lbl r) tl) (by_user u d).
Proof.
  intros Hu H. unfold profit. apply qsumf_ext. intros r Hr. apply filter_In in Hr. destruct Hr as [Hr _].
  unfold traded_by. rewrite <- qsumf_scale. apply qsumf_ext. intros t Ht. apply filter_In in Ht. destruct Ht as [Ht Et].
  apply Nat.eqb_eq in Et. rewrite (H t r Ht Hr (eq_sym Et)). reflexivity.
Qed.
Lemma traded_some i tl : traded_by i tl <> 0 -> exists t, In t tl /\ t_bid t = i.
Proof.
  intro H. destruct (in_dec Nat.eq_dec i (map t_bid tl)) as [I|I]; [|destruct H; apply traded_by_absent, I].
  apply in_map_iff in I. destruct I as (t & E & It). eauto.
Qed.
Lemma feasible_traded d tl r : feasible d tl -> In r d -> 0 <= traded_by (lbl r) tl /\ traded_by (lbl r) tl <= qty r.
Proof.
  intros [F1 F2] Hr. split; [|apply F2, Hr]. apply qsumf_nonneg. intros t Ht. apply filter_In in Ht. apply F1, Ht.
Qed.

Theorem huang_uniform S d tm ps pb q : qty_nonneg d -> price_nonneg d -> labels_unique d -> huang_auction S d = Ok (tm, XHuang ps pb q) ->
  exists tm' c p, uniform_run S d = Ok (tm', XUniform (Fin c) (Fin p)) /\ ps <= p /\ p <= pb /\
    bought d (tm_trans tm') = c /\ bought d (tm_trans tm) <= c /\
    (forall r, In r d -> traded_by (lbl r) (tm_trans tm) <= traded_by (lbl r) (tm_trans tm') /\
       (0 < traded_by (lbl r) (tm_trans tm) -> traded_by (lbl r) (tm_trans tm') = qty r)) /\
    forall u, profit d u (tm_trans tm) <= profit d u (tm_trans tm').
Proof.
  intros Hq Hp Hu E. pose proof (huang_cases S d Hq Hp) as C. rewrite E in C.
  inversion C as [Hc E1|x B1 rb B2 L1 rs L2 qs qb tm0 q' EB EL Lp Cr Sf Sg D E1]. subst tm0 q' ps pb. clear C.
  destruct (huang_summary S d Hq Hp Hu tm _ E) as (HB & HO & HR & HF & HRa & _ & _ & HP). destruct (HP _ _ _ eq_refl) as [_ HPr]. clear HP.
  destruct (buyer_row S d B1 rb B2 rb EB ltac:(apply in_elt)) as [Irb Brb]. destruct (seller_row S d L1 rs L2 rs EL ltac:(apply in_elt)) as [Irs Brs].
  rewrite (uniform_run_eq S d rb rs Irb Irs Brb Brs).
  pose proof (uniform_cases S d Hq Hp) as U.
  destruct (uniform_price_mechanism S d) as [[tm' ex']|e] eqn:EU;
  inversion U as [N|c p B1' rb' B2' L1' rs' L2' tm2 EB' EL' Lp' Q1 Q2 C0 Cr' Sf' Sg' Pr B3 B4 L3 L4 T E2]; [|destruct (N x Cr)].
  subst tm2 ex'. clear U.
  pose proof (crossing_unique _ _ _ _ Cr Cr') as X. subst x.
  destruct (StepAt_fun _ _ _ _ _ _ Sf Sf') as [IB _]. destruct (StepAt_fun _ _ _ _ _ _ Sg Sg') as [IL _].
  rewrite EB in EB'. rewrite EL in EL'. apply app_same_length in EB'; [|exact IB]. apply app_same_length in EL'; [|exact IL].
  destruct EB' as [<- EB']. injection EB' as <- <-. destruct EL' as [<- EL']. injection EL' as <- <-.
  destruct (uniform_summary S d Hq Hp Hu tm' _ EU) as (c' & p' & Ex & _ & Bt & _ & Onc & Ref & Fea & Rat & Row & B1' & rb' & B2' & L1' & rs' & L2' & EB' & EL' & _ & _ & _ & Sf2 & Sg2 & _ & _ & _ & _ & Full & _ & _ & _).
  injection Ex as <- <-.
  destruct (StepAt_fun _ _ _ _ _ _ Sf Sf2) as [IB2 _]. destruct (StepAt_fun _ _ _ _ _ _ Sg Sg2) as [IL2 _].
  rewrite EB in EB'. rewrite EL in EL'. apply app_same_length in EB'; [|exact IB2]. apply app_same_length in EL'; [|exact IL2].
  destruct EB' as [<- EB']. injection EB' as <- <-. destruct EL' as [<- EL']. injection EL' as <- <-.
  exists tm', c, p. split; [reflexivity|]. split; [exact Q1|]. split; [exact Q2|]. split; [exact Bt|].
  assert (Who : forall r, In r d -> traded_by (lbl r) (tm_trans tm) <> 0 -> In r B1 \/ In r L1).
  { intros r Hr Ne. destruct (traded_some _ _ Ne) as (t & It & Et).
    destruct D as [(_ & -> & _)|(_ & _ & _ & _ & _ & _ & _ & _ & T0)]; [destruct It|]. rewrite T0 in It. apply in_app_or in It.
    destruct It as [It|It]; apply emit_in in It; destruct It as (y & qy & _ & Hy & ->); cbn [t_bid] in Et.
    - right. destruct (seller_row S d L1 rs L2 y EL) as [Yd _]; [apply in_or_app; left; exact Hy|].
      rewrite (NoDup_map_in lbl d r y Hu Hr Yd (eq_sym Et)). exact Hy.
    - left. destruct (buyer_row S d B1 rb B2 y EB) as [Yd _]; [apply in_or_app; left; exact Hy|].
      rewrite (NoDup_map_in lbl d r y Hu Hr Yd (eq_sym Et)). exact Hy. }
  assert (Le : forall r, In r d -> traded_by (lbl r) (tm_trans tm) <= traded_by (lbl r) (tm_trans tm') /\
       (0 < traded_by (lbl r) (tm_trans tm) -> traded_by (lbl r) (tm_trans tm') = qty r)).
  { intros r Hr. pose proof (feasible_traded _ _ _ HF Hr) as [A1 A2]. pose proof (feasible_traded _ _ _ Fea Hr) as [A3 A4].
    destruct (qeq_spec (traded_by (lbl r) (tm_trans tm)) 0) as [Z|Z].
    - rewrite Z. split; [exact A3 | intro; qlra].
    - rewrite (Full r (Who r Hr Z)). auto. }
  split; [|split; [exact Le|]].
  - rewrite <- Bt, !bought_by by assumption. apply qsumf_le. intros r Hr. apply filter_In in Hr. apply Le, Hr.
  - intro u. rewrite (profit_row d u (tm_trans tm) (fun r => if buying r then price rb else price rs) Hu HPr).
    rewrite (profit_row d u (tm_trans tm') (fun _ => p) Hu) by (intros t r Ht _ _; apply (Row t Ht)).
    apply qsumf_le. intros r Hr. apply filter_In in Hr. destruct Hr as [Hr _].
    pose proof (feasible_traded _ _ _ HF Hr) as [A1 _]. pose proof (feasible_traded _ _ _ Fea Hr) as [A3 _]. destruct (Le r Hr) as [A5 A6].
    assert (G : traded_by (lbl r) (tm_trans tm') <> 0 -> 0 <= gain p r).
    { intro Ne. destruct (traded_some _ _ Ne) as (t & It & Et). pose proof (Rat t r It Hr (eq_sym Et)) as K. destruct (Row t It) as (Pt & _). rewrite Pt in K.
      unfold gain. destruct (buying r); qlra. }
    assert (G2 : gain (if buying r then price rb else price rs) r <= gain p r) by (unfold gain; destruct (buying r); qlra).
    revert A1 A3 A5 G. generalize (traded_by (lbl r) (tm_trans tm)) (traded_by (lbl r) (tm_trans tm')). intros a b A1 A3 A5 G.
    destruct (qeq_spec b 0) as [Zb|Zb].
    + assert (a = 0) as -> by qlra. rewrite Zb, !Qcmult_0_r. apply Qcle_refl.
    + specialize (G Zb). apply Qcle_trans with (gain p r * a).
      * apply qmult_le_r; assumption.
      * apply qmult_le_l; assumption.
Qed.

Theorem huang_uniform_none S d tm b s : qty_nonneg d -> price_nonneg d -> In b d -> In s d -> buying b = true -> buying s = false ->
  huang_auction S d = Ok (tm, XEmpty) -> tm_trans tm = [] /\ uniform_run S d = Err TypeError.
Proof.
  intros Hq Hp Hb Hs Bb Bs E. pose proof (huang_cases S d Hq Hp) as C. rewrite E in C. inversion C as [N E1|]. subst tm.
  split; [reflexivity|]. rewrite (uniform_run_eq S d b s) by assumption. pose proof (uniform_cases S d Hq Hp) as U.
  destruct U as [|c p B1 rb B2 L1 rs L2 tm EB EL Lp Q1 Q2 C0 Cr]; [reflexivity | destruct (N _ Cr)].
Qed.
