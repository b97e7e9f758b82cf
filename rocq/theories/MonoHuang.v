(** In the Huang auction a bid that improves its price does not trade less; a winner changes nothing at all. *)
From Verif Require Import QcTac Num NumFacts ModelBase ModelCurves ModelHuang ListFacts Spec SpecTrade SpecMuda SpecHuang SpecAlloc SpecMono
  StoreFacts TradeFacts CurveFacts IntersectFacts P2PTrades AllocFacts HuangFacts HuangTop HuangTruth HuangLoss CompareHuang MonoFacts.

Section Raise.
  Variables (S S' : sorter) (l1 l2 : df) (r r' : row).
  Let d := l1 ++ r :: l2.
  Let d' := l1 ++ r' :: l2.
  Hypothesis Q : qty_pos d.
  Hypothesis Hp : price_nonneg d.
  Hypothesis Hp' : price_nonneg d'.
  Hypothesis Hu : labels_unique d.
  Hypothesis Hd : prices_distinct d.
  Hypothesis Hd' : prices_distinct d'.
  Hypothesis Ha' : asks_pos d'.
  Hypothesis Bt : better r r'.
  Hypothesis Eq : qty r' = qty r.

  Lemma El : lbl r' = lbl r. Proof. apply Bt. Qed.
  Lemma Eb : buying r' = buying r. Proof. apply Bt. Qed.
  Lemma raise_price : if buying r then price r < price r' else price r' < price r. Proof. apply Bt. Qed.
  Lemma raise_in x : In x d -> x = r \/ In x d'.
  Proof. unfold d, d'. intro H. apply in_app_or in H. rewrite in_app_iff. cbn [In] in *. intuition auto. Qed.
  Lemma raise_in' x : In x d' -> x = r' \/ In x d.
  Proof. unfold d, d'. intro H. apply in_app_or in H. rewrite in_app_iff. cbn [In] in *. intuition auto. Qed.
  Lemma r_in : In r d. Proof. apply in_or_app; right; left; reflexivity. Qed.
  Lemma r'_in : In r' d'. Proof. apply in_or_app; right; left; reflexivity. Qed.
  Lemma raise_qn : qty_nonneg d. Proof. intros x Hx. apply Qclt_le_weak, Q, Hx. Qed.
  Lemma raise_q' : qty_pos d'.
  Proof. intros x Hx. destruct (raise_in' x Hx) as [->|H]; [rewrite Eq; apply Q, r_in | apply Q, H]. Qed.
  Lemma raise_qn' : qty_nonneg d'. Proof. intros x Hx. apply Qclt_le_weak, raise_q', Hx. Qed.
  Lemma raise_u' : labels_unique d'.
  Proof. unfold labels_unique in *. replace (map lbl d') with (map lbl d); [exact Hu|]. unfold d, d'. rewrite !map_app. cbn [map]. rewrite El. reflexivity. Qed.
  Lemma raise_sum (f f' : row -> Qc) : (forall x, In x d -> x <> r -> f' x = f x) -> f' r' = f r -> qsumf f' d' = qsumf f d.
  Proof.
    intros A B. unfold d, d'. rewrite !qsumf_app, !qsumf_cons, B.
    assert (N : NoDup (l1 ++ r :: l2)) by (apply (NoDup_map_inv lbl), Hu). apply NoDup_remove_2 in N.
    f_equal; [|f_equal]; apply qsumf_ext; intros x Hx; (apply A; [unfold d; apply in_or_app; cbn [In]; tauto|]); intros ->; apply N, in_or_app; tauto.
  Qed.

  Variables (tm : transmgr) (ps pb q : Qc).
  Hypothesis E : huang_auction S d = Ok (tm, XHuang ps pb q).
  Hypothesis W : wins ps pb r = true.

  Lemma raise_wins : wins ps pb r' = true.
  Proof. pose proof raise_price as L. unfold wins in *. rewrite Eb. destruct (buying r); apply (proj1 (qltb_lt _ _)) in W; apply qltb_lt; qlra. Qed.

  Lemma above_same : demand_above d' pb = demand_above d pb.
  Proof.
    pose proof raise_wins as W'. unfold demand_above. rewrite !qsumf_filter. apply raise_sum; [reflexivity|]. unfold wins in W, W'. rewrite Eb in W'. rewrite Eb, Eq.
    destruct (buying r); [rewrite W, W'|]; reflexivity.
  Qed.
  Lemma below_same : supply_below d' ps = supply_below d ps.
  Proof.
    pose proof raise_wins as W'. unfold supply_below. rewrite !qsumf_filter. apply raise_sum; [reflexivity|]. unfold wins in W, W'. rewrite Eb in W'. rewrite Eb, Eq.
    destruct (buying r); [|rewrite W, W']; reflexivity.
  Qed.

  Lemma raise_marginal c : Marginal d ps pb c -> Marginal d' ps pb c.
  Proof.
    pose proof raise_price as L. pose proof raise_wins as W'. pose proof above_same as X2. pose proof below_same as X3.
    intros (P & Lt & D1 & D2 & D3 & D4 & M). unfold wins in W, W'. rewrite Eb in W'.
    destruct (buying r) eqn:B; apply (proj1 (qltb_lt _ _)) in W; apply (proj1 (qltb_lt _ _)) in W'.
    - assert (S1 : forall p, supply_at d' p = supply_at d p).
      { intro p. unfold supply_at. rewrite !qsumf_filter. apply raise_sum; [reflexivity|]. rewrite Eb, B. reflexivity. }
      assert (X1 : forall p, p <= pb -> demand_at d' p = demand_at d p).
      { intros p Lp. unfold demand_at. rewrite !qsumf_filter. apply raise_sum; [reflexivity|]. rewrite Eb, B, Eq. cbn [andb].
        destruct (qle_spec p (price r')), (qle_spec p (price r)); try reflexivity; exfalso; qlra. }
      split; [exact P|]. split; [exact Lt|]. rewrite X2, X3, S1, X1 by apply Qcle_refl. repeat (split; [assumption|]).
      intro p. destruct (qle_spec p pb) as [Lp|Lp].
      + rewrite (X1 p Lp), S1. apply M.
      + pose proof (demand_mono d' pb p raise_qn' Lp) as Z. pose proof (qmin_l (demand_at d' p) (supply_at d' p)). rewrite X2 in Z. qlra.
    - assert (S1 : forall p, demand_at d' p = demand_at d p).
      { intro p. unfold demand_at. rewrite !qsumf_filter. apply raise_sum; [reflexivity|]. rewrite Eb, B. reflexivity. }
      assert (X1 : forall p, ps <= p -> supply_at d' p = supply_at d p).
      { intros p Lp. unfold supply_at. rewrite !qsumf_filter. apply raise_sum; [reflexivity|]. rewrite Eb, B, Eq. cbn [andb negb].
        destruct (qle_spec (price r') p), (qle_spec (price r) p); try reflexivity; exfalso; qlra. }
      split; [exact P|]. split; [exact Lt|]. rewrite X2, X3, S1, X1 by apply Qcle_refl. repeat (split; [assumption|]).
      intro p. destruct (qle_spec ps p) as [Lp|Lp].
      + rewrite (X1 p Lp), S1. apply M.
      + pose proof (supply_mono d' p ps raise_qn' Lp) as Z. pose proof (qmin_r (demand_at d' p) (supply_at d' p)). rewrite X3 in Z. qlra.
  Qed.

  Lemma none_traded (e : df) tl : labels_unique e -> refer e tl -> feasible e tl -> bought e tl = sold e tl -> bought e tl = 0 ->
    forall x, In x e -> traded_by (lbl x) tl = 0.
  Proof.
    intros U R F Bl Z x Hx. pose proof (feasible_traded e tl x F Hx) as [T0 _]. rewrite Z in Bl.
    assert (G : traded_by (lbl x) tl <= 0); [|apply Qcle_antisym; assumption].
    pose proof (qsumf_in_le (fun y => traded_by (lbl y) tl) (side_of (buying x) e) x) as K. cbv beta in K. rewrite (side_sum e tl _ U R) in K.
    rewrite Z, <- Bl in K. replace (if buying x then 0 else 0) with 0 in K by (destruct (buying x); reflexivity). apply K; [|apply side_in; auto].
    intros y Hy. apply side_in in Hy. apply (feasible_traded e tl y F (proj1 Hy)).
  Qed.

  Theorem winner_raise : exists tm' q', huang_auction S' d' = Ok (tm', XHuang ps pb q') /\
    forall x, In x d -> traded_by (lbl x) (tm_trans tm') = traded_by (lbl x) (tm_trans tm).
  Proof.
    destruct (huang_marginal S d raise_qn Hp tm ps pb q Q E) as (c & M & _). pose proof (raise_marginal c M) as M'.
    destruct (marginal_huang S' d' raise_qn' Hp' ps pb c Ha' M') as (tm' & q' & E'). exists tm', q'. split; [exact E'|].
    pose proof raise_wins as W'. pose proof raise_u' as Hu'.
    destruct (huang_summary S d raise_qn Hp Hu tm _ E) as (Bal & _ & Rf & Fe & _).
    destruct (huang_summary S' d' raise_qn' Hp' Hu' tm' _ E') as (Bal' & _ & Rf' & Fe' & _).
    pose proof (traded_is S d Q Hp Hu Hd tm ps pb q E) as V. pose proof (traded_is S' d' raise_q' Hp' Hu' Hd' tm' ps pb q' E') as V'.
    rewrite above_same, below_same in V'.
    assert (Tr : forall x, In x d -> exists y, In y d' /\ lbl y = lbl x).
    { intros x Hx. destruct (raise_in x Hx) as [->|H]; [exists r'; split; [apply r'_in | exact El] | exists x; auto]. }
    destruct (huang_alloc S d raise_qn Hp Hu Hd tm ps pb q E) as [Z|(_ & tb & ts & A & F1 & F2)].
    { assert (Z0 : bought d (tm_trans tm) = 0) by (rewrite Z; reflexivity).
      intros x Hx. rewrite (none_traded d _ Hu Rf Fe Bal Z0 x Hx). destruct (Tr x Hx) as (y & Hy & <-). apply (none_traded d'); auto. congruence. }
    destruct (huang_alloc S' d' raise_qn' Hp' Hu' Hd' tm' ps pb q' E') as [Z|(_ & tb' & ts' & A' & F1' & F2')].
    { assert (Z0 : bought d' (tm_trans tm') = 0) by (rewrite Z; reflexivity).
      intros x Hx. destruct (Tr x Hx) as (y & Hy & Ey). rewrite <- Ey, (none_traded d' _ Hu' Rf' Fe' Bal' Z0 y Hy), Ey. symmetry. apply (none_traded d); auto. congruence. }
    rewrite above_same, below_same in F1', F2'.
    assert (Ub : forall x, In x d -> buying x = true -> wins ps pb x = true -> qmax 0 (qty x - tb') = qmax 0 (qty x - tb)).
    { intros x Hx B Wx. symmetry. apply (ration_unique (fun r => buying r && wins ps pb r) d); [|exact Hx | rewrite B, Wx; reflexivity].
      rewrite F1, <- F1'. apply raise_sum; [reflexivity|]. rewrite Eb, Eq, W, W'. reflexivity. }
    assert (Us : forall x, In x d -> buying x = false -> wins ps pb x = true -> qmax 0 (qty x - ts') = qmax 0 (qty x - ts)).
    { intros x Hx B Wx. symmetry. apply (ration_unique (fun r => negb (buying r) && wins ps pb r) d); [|exact Hx | rewrite B, Wx; reflexivity].
      rewrite F2, <- F2'. apply raise_sum; [reflexivity|]. rewrite Eb, Eq, W, W'. reflexivity. }
    assert (G : forall x, In x d -> (if wins ps pb x then qmax 0 (qty x - (if buying x then tb' else ts')) else 0) = if wins ps pb x then qmax 0 (qty x - (if buying x then tb else ts)) else 0).
    { intros x Hx. destruct (wins ps pb x) eqn:Wx; [|reflexivity]. destruct (buying x) eqn:B; auto. }
    intros x Hx. rewrite (A x Hx), <- (G x Hx). destruct (raise_in x Hx) as [->|H].
    - rewrite <- El, (A' r' r'_in), W, W', Eb, Eq. reflexivity.
    - apply A', H.
  Qed.
End Raise.

Theorem huang_mono S S' l1 l2 r r' tm ex tm' ex' :
  let d := l1 ++ r :: l2 in let d' := l1 ++ r' :: l2 in
  qty_pos d -> price_nonneg d -> price_nonneg d' -> labels_unique d -> prices_distinct d -> prices_distinct d' -> asks_pos d' ->
  better r r' -> qty r' = qty r ->
  huang_auction S d = Ok (tm, ex) -> huang_auction S' d' = Ok (tm', ex') ->
  traded_by (lbl r) (tm_trans tm) <= traded_by (lbl r) (tm_trans tm').
Proof.
  intros d d' Q Hp Hp' Hu Hd Hd' Ha' Bt Eq E E'.
  assert (Ir : In r d) by (apply r_in). assert (Ir' : In r' d') by (apply r'_in).
  assert (Hq : qty_nonneg d) by (intros x Hx; apply Qclt_le_weak, Q, Hx).
  assert (T' : 0 <= traded_by (lbl r) (tm_trans tm')).
  { destruct (huang_summary S' d' (raise_qn' l1 l2 r r' Q Eq) Hp' (raise_u' l1 l2 r r' Hu Bt) tm' ex' E') as (_ & _ & _ & [F _] & _).
    apply qsumf_nonneg. intros t Ht. apply filter_In in Ht. apply F, Ht. }
  destruct (qeq_spec (traded_by (lbl r) (tm_trans tm)) 0) as [Z|Z]; [rewrite Z; exact T'|].
  destruct (huang_summary S d Hq Hp Hu tm ex E) as (_ & _ & _ & _ & _ & _ & Ne & _).
  destruct Ne as (ps & pb & q & -> & _); [intro K; apply Z; rewrite K; reflexivity|].
  assert (W : wins ps pb r = true).
  { destruct (wins ps pb r) eqn:W; [reflexivity|]. exfalso. apply Z. exact (only_winners S d Q Hp Hu Hd tm ps pb q E r Ir W). }
  destruct (winner_raise S S' l1 l2 r r' Q Hp Hp' Hu Hd Hd' Ha' Bt Eq tm ps pb q E W) as (tm2 & q2 & E2 & G).
  fold d' in E2. rewrite E' in E2. injection E2 as <- _. rewrite (G r Ir). apply Qcle_refl.
Qed.
