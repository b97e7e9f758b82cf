(** Equilibrium, envy and blocking groups of bids. *)
From Verif Require Import QcTac Num NumFacts ModelBase ModelCurves ModelHuang ModelMuda ModelUniform ListFacts Spec SpecTrade SpecMuda SpecHuang SpecAlloc
  SpecStats SpecExact SpecCore TradeFacts StoreFacts P2PTrades AllocFacts HuangFacts HuangTop HuangTruth HuangLoss UniformFacts UniformTop MudaTop ExactFacts CurveFacts MudaPrice PriceExact SpecMarket.

Lemma gain_sides p r : gain p r = if buying r then price r - p else p - price r. Proof. reflexivity. Qed.

Lemma qmult_inj g a b : g <> 0 -> g * a = g * b -> a = b.
Proof. intros G H. transitivity ((g * a) / g); [field; exact G|]. rewrite H. field. exact G. Qed.

(** all transactions of the bid at one price *)
Lemma own_gain_at tl r p : (forall t, In t tl -> t_bid t = lbl r -> t_price t = p) -> own_gain tl r = gain p r * traded_by (lbl r) tl.
Proof.
  intro H. unfold own_gain, traded_by. rewrite <- qsumf_scale. apply qsumf_ext. intros t Ht. apply filter_In in Ht. destruct Ht as [Ht Eb].
  apply Nat.eqb_eq in Eb. rewrite (H t Ht Eb). reflexivity.
Qed.
Lemma surplus_gain d p : surplus d price p = qsumf (fun r => qty r * qmax 0 (gain p r)) d.
Proof.
  unfold surplus. rewrite (qsumf_filter_split _ buying d). fold (all_b d) (all_s d). f_equal; apply qsumf_ext; intros r Hr; apply filter_In in Hr; destruct Hr as [_ Br].
  - rewrite gain_sides, Br. reflexivity.
  - apply negb_true_iff in Br. rewrite gain_sides, Br. reflexivity.
Qed.
Lemma balanced_gain d tl p : labels_unique d -> refer d tl -> bought d tl = sold d tl ->
  traded_surplus price d tl = qsumf (fun r => gain p r * traded_by (lbl r) tl) d.
Proof.
  intros Hu Rf Bal. rewrite (balanced_surplus d tl p Hu Rf Bal), (qsumf_filter_split _ buying d). fold (all_b d) (all_s d).
  f_equal; apply qsumf_ext; intros r Hr; apply filter_In in Hr; destruct Hr as [_ Br].
  - rewrite gain_sides, Br. reflexivity.
  - apply negb_true_iff in Br. rewrite gain_sides, Br. reflexivity.
Qed.
Lemma best_use g x q : 0 <= x -> x <= q -> g * x <= q * qmax 0 g.
Proof.
  intros H0 H1. destruct (qmax_case 0 g) as [[E L]|[E L]]; rewrite E.
  - pose proof (qmult_nonneg x (- g) H0 ltac:(qlra)). replace (q * 0) with 0 by ring. replace (g * x) with (- (x * - g)) by ring. qlra.
  - rewrite (Qcmult_comm q g). apply qmult_le_l; [exact L | exact H1].
Qed.
Lemma content_best p tl r : qty r * qmax 0 (gain p r) = gain p r * traded_by (lbl r) tl <-> content p tl r.
Proof.
  unfold content. generalize (gain p r) (traded_by (lbl r) tl). intros g x. split.
  - intro H. split; intro L.
    + destruct (qmax_case 0 g) as [[E L']|[E L']]; rewrite E in H; [exfalso; qlra|].
      apply (qmult_inj g); [intro G; rewrite G in L; exact (Qclt_not_eq _ _ L eq_refl) |]. rewrite <- H. ring.
    + destruct (qmax_case 0 g) as [[E L']|[E L']]; rewrite E in H; [|exfalso; qlra].
      apply (qmult_inj g); [intro G; rewrite G in L; exact (Qclt_not_eq _ _ L eq_refl) |]. rewrite <- H. ring.
  - intros [A B]. destruct (qlt_spec 0 g) as [L|L].
    + rewrite (A L). destruct (qmax_case 0 g) as [[E L']|[E L']]; rewrite E; [exfalso; qlra | ring].
    + destruct (qlt_spec g 0) as [L1|L1].
      * rewrite (B L1). destruct (qmax_case 0 g) as [[E L']|[E L']]; rewrite E; [ring | exfalso; qlra].
      * assert (g = 0) as -> by (apply Qcle_antisym; assumption). destruct (qmax_case 0 0) as [[E _]|[E _]]; rewrite E; ring.
Qed.

(** ** An outcome at one price where every bid is content *)
Section One.
  Variables (d : df) (tl : list trans) (p : Qc).
  Hypothesis Hq : qty_nonneg d.
  Hypothesis Hu : labels_unique d.
  Hypothesis Rf : refer d tl.
  Hypothesis Fe : feasible d tl.
  Hypothesis Bal : bought d tl = sold d tl.

  Lemma traded_range r : In r d -> 0 <= traded_by (lbl r) tl /\ traded_by (lbl r) tl <= qty r.
  Proof.
    intro Hr. split; [|apply (proj2 Fe r Hr)]. unfold traded_by. apply qsumf_nonneg. intros t Ht. apply filter_In in Ht. apply Fe, Ht.
  Qed.
  Lemma all_content : (forall r, In r d -> content p tl r) <-> traded_surplus price d tl = surplus d price p.
  Proof.
    rewrite surplus_gain, (balanced_gain d tl p Hu Rf Bal). split.
    - intro H. apply qsumf_ext. intros r Hr. symmetry. apply content_best, H, Hr.
    - intros H r Hr. apply content_best. symmetry. revert r Hr. apply qsumf_le_eq; [|exact H]. intros r Hr.
      destruct (traded_range r Hr). apply best_use; assumption.
  Qed.
  Lemma content_clearing : (forall r, In r d -> content p tl r) -> clearing d price p.
  Proof.
    intro H. pose proof Bal as Bl. rewrite bought_by, sold_by in Bl by assumption.
    assert (IB : forall r, In r (all_b d) -> In r d /\ buying r = true) by (intros r Hr; apply filter_In in Hr; exact Hr).
    assert (IS : forall r, In r (all_s d) -> In r d /\ buying r = false) by (intros r Hr; apply filter_In in Hr; rewrite negb_true_iff in Hr; exact Hr).
    split.
    - unfold wanted_above, offered_at. rewrite !qsumf_filter. apply (Qcle_trans _ (qsumf (fun x => traded_by (lbl x) tl) (all_b d))).
      + apply qsumf_le. intros r Hr. destruct (IB r Hr) as [Ir Br]. destruct (traded_range r Ir). destruct (qlt_spec p (price r)) as [L|L]; [|assumption].
        destruct (H r Ir) as [C _]. rewrite gain_sides, Br in C. rewrite C by qlra. apply Qcle_refl.
      + rewrite Bl. apply qsumf_le. intros r Hr. destruct (IS r Hr) as [Ir Br]. destruct (traded_range r Ir). destruct (qle_spec (price r) p) as [L|L]; [assumption|].
        destruct (H r Ir) as [_ C]. rewrite gain_sides, Br in C. rewrite C by qlra. apply Qcle_refl.
    - unfold wanted_at, offered_below. rewrite !qsumf_filter. apply (Qcle_trans _ (qsumf (fun x => traded_by (lbl x) tl) (all_s d))).
      + apply qsumf_le. intros r Hr. destruct (IS r Hr) as [Ir Br]. destruct (traded_range r Ir). destruct (qlt_spec (price r) p) as [L|L]; [|assumption].
        destruct (H r Ir) as [C _]. rewrite gain_sides, Br in C. rewrite C by qlra. apply Qcle_refl.
      + rewrite <- Bl. apply qsumf_le. intros r Hr. destruct (IB r Hr) as [Ir Br]. destruct (traded_range r Ir). destruct (qle_spec p (price r)) as [L|L]; [assumption|].
        destruct (H r Ir) as [_ C]. rewrite gain_sides, Br in C. rewrite C by qlra. apply Qcle_refl.
  Qed.

  Hypothesis Pr : forall t, In t tl -> t_price t = p.
  Hypothesis Co : forall r, In r d -> content p tl r.
  Lemma content_gain r : In r d -> own_gain tl r = qty r * qmax 0 (gain p r).
  Proof. intro Hr. rewrite (own_gain_at tl r p) by (intros t Ht _; apply Pr, Ht). symmetry. apply content_best, Co, Hr. Qed.
  Lemma content_no_envy r t : In r d -> In t tl -> ~ envies tl r t.
  Proof.
    intros Hr Ht V. unfold envies in V. rewrite (content_gain r Hr), (Pr t Ht) in V. apply (Qclt_not_le _ _ V). apply best_use.
    - apply qmin_glb; [apply Hq, Hr | apply Fe, Ht].
    - apply qmin_l.
  Qed.
  Lemma content_core g y : incl g d -> ~ blocks tl g y.
  Proof.
    intros Hg (Y & Bl & V). apply (Qclt_not_le _ _ V).
    apply (Qcle_trans _ (qsumf (fun r => gain p r * y r) g)).
    - match goal with |- ?a <= ?b => let H := fresh in assert (H : a = b); [|rewrite H; apply Qcle_refl] end.
      rewrite (qsumf_filter_split _ buying g), (qsumf_filter_split (fun r => gain p r * y r) buying g).
      rewrite (qsumf_ext _ (fun r => gain p r * y r + p * y r) (filter buying g)).
      2:{ intros r Hr. apply filter_In in Hr. destruct Hr as [_ Br]. unfold adds. rewrite gain_sides, Br. ring. }
      rewrite (qsumf_ext _ (fun r => gain p r * y r - p * y r) (filter (fun r => negb (buying r)) g)).
      2:{ intros r Hr. apply filter_In in Hr. destruct Hr as [_ Br]. apply negb_true_iff in Br. unfold adds. rewrite gain_sides, Br. ring. }
      rewrite qsumf_plus, qsumf_minus, !qsumf_scale, Bl. ring.
    - apply qsumf_le. intros r Hr. rewrite (content_gain r) by (apply Hg, Hr). destruct (Y r Hr). apply best_use; assumption.
  Qed.
End One.

Lemma demand_above_at d p : qty_nonneg d -> demand_above d p <= demand_at d p.
Proof.
  intro Hq. unfold demand_above, demand_at. rewrite !qsumf_filter. apply qsumf_le. intros r Hr. specialize (Hq r Hr).
  destruct (buying r); cbn [andb]; [|apply Qcle_refl]. destruct (qlt_spec p (price r)), (qle_spec p (price r)); try apply Qcle_refl; try assumption. exfalso. qlra.
Qed.
Lemma supply_below_at d p : qty_nonneg d -> supply_below d p <= supply_at d p.
Proof.
  intro Hq. unfold supply_below, supply_at. rewrite !qsumf_filter. apply qsumf_le. intros r Hr. specialize (Hq r Hr).
  destruct (buying r); cbn [andb negb]; [apply Qcle_refl|]. destruct (qlt_spec (price r) p), (qle_spec (price r) p); try apply Qcle_refl; try assumption. exfalso. qlra.
Qed.

(** ** The uniform price mechanism *)
Section Uniform.
  Variables (S : sorter) (d : df).
  Hypothesis Hq : qty_pos d.
  Hypothesis Hp : price_nonneg d.
  Hypothesis Hu : labels_unique d.
  Let Hn : qty_nonneg d := fun r H => Qclt_le_weak _ _ (Hq r H).

  (** at a clearing price a table with only one side gives nobody a gain *)
  Lemma one_sided_clearing p : one_sided d -> clearing d price p -> forall r, In r d -> gain p r <= 0.
  Proof.
    intros O [K1 K2] r Hr. apply Qcnot_lt_le. intro G. rewrite gain_sides in G.
    assert (Z : forall l, l = [] -> qsumf qty l = 0) by (intros l ->; reflexivity).
    assert (P : forall f l, In r l -> (forall x, In x l -> In x d) -> f r = true -> 0 < qsumf qty (filter f l)).
    { intros f l Il Sl Ef. assert (I : In r (filter f l)) by (apply filter_In; auto). apply in_split in I. destruct I as (l1 & l2 & E).
      assert (A : forall x, In x (l1 ++ r :: l2) -> In x d) by (intros x Hx; rewrite <- E in Hx; apply filter_In in Hx; apply Sl, Hx).
      rewrite E, qsumf_app, qsumf_cons. pose proof (Hq r Hr).
      assert (0 <= qsumf qty l1) by (apply qsumf_nonneg; intros x Hx; apply Hn, A, in_or_app; left; exact Hx).
      assert (0 <= qsumf qty l2) by (apply qsumf_nonneg; intros x Hx; apply Hn, A, in_or_app; right; right; exact Hx). qlra. }
    assert (Sb : forall x, In x (all_b d) -> In x d) by (intros x Hx; apply filter_In in Hx; tauto).
    assert (Ss : forall x, In x (all_s d) -> In x d) by (intros x Hx; apply filter_In in Hx; tauto).
    destruct (buying r) eqn:Br.
    - assert (N : all_s d = []).
      { destruct (all_s d) as [|s l] eqn:Es; [reflexivity|]. exfalso. assert (Is : In s (all_s d)) by (rewrite Es; left; reflexivity).
        apply filter_In in Is. destruct Is as [Is Bs]. apply negb_true_iff in Bs. destruct O as [O|O]; [rewrite (O s Is) in Bs | rewrite (O r Hr) in Br]; discriminate. }
      unfold wanted_above, offered_at in K1. rewrite N in K1. cbn [filter] in K1. rewrite qsumf_nil in K1.
      assert (0 < qsumf qty (filter (fun r => qltb p (price r)) (all_b d))).
      { apply P; [apply filter_In; auto | exact Sb | apply qltb_lt; qlra]. } qlra.
    - assert (N : all_b d = []).
      { destruct (all_b d) as [|b l] eqn:Es; [reflexivity|]. exfalso. assert (Is : In b (all_b d)) by (rewrite Es; left; reflexivity).
        apply filter_In in Is. destruct Is as [Is Bs]. destruct O as [O|O]; [rewrite (O r Hr) in Br | rewrite (O b Is) in Bs]; discriminate. }
      unfold wanted_at, offered_below in K2. rewrite N in K2. cbn [filter] in K2. rewrite qsumf_nil in K2.
      assert (0 < qsumf qty (filter (fun r => qltb (price r) p) (all_s d))).
      { apply P; [apply (proj2 (filter_In _ _ _)); rewrite Br; auto | exact Ss | apply qltb_lt; qlra]. } qlra.
  Qed.
  Lemma uniform_content tm ex p0 : uniform_run S d = Ok (tm, ex) -> clearing d price p0 -> forall r, In r d -> content p0 (tm_trans tm) r.
  Proof.
    intros E K. destruct (uniform_run_inv S d tm ex E) as [(-> & -> & O)|E'].
    - intros r Hr. pose proof (one_sided_clearing p0 O K r Hr). split; intro; [exfalso; qlra | reflexivity].
    - destruct (uniform_summary S d Hn Hp Hu tm ex E') as (c & p & _ & _ & Bt & St & _ & Rf & Fe & _).
      apply (all_content d (tm_trans tm) p0 Hu Rf Fe); [congruence|]. exact (uniform_surplus S d Hq Hp Hu tm ex p0 E' K).
  Qed.

  Variables (tm : transmgr) (c p : Qc).
  Hypothesis E : uniform_run S d = Ok (tm, XUniform (Fin c) (Fin p)).
  Lemma uniform_E : uniform_price_mechanism S d = Ok (tm, XUniform (Fin c) (Fin p)).
  Proof. destruct (uniform_run_inv S d tm _ E) as [(_ & X & _)|E']; [discriminate X | exact E']. Qed.
  Lemma uniform_facts : bought d (tm_trans tm) = sold d (tm_trans tm) /\ refer d (tm_trans tm) /\ feasible d (tm_trans tm) /\ (forall t, In t (tm_trans tm) -> t_price t = p) /\ find_competitive_price S d = Ok (Fin p).
  Proof.
    destruct (uniform_summary S d Hn Hp Hu tm _ uniform_E) as (c' & p' & X & Ef & Bt & St & _ & Rf & Fe & _ & Pr & _). injection X as <- <-.
    split; [congruence|]. split; [exact Rf|]. split; [exact Fe|]. split; [intros t Ht; apply Pr, Ht | exact Ef].
  Qed.
  Lemma uniform_equilibrium : (forall r, In r d -> content p (tm_trans tm) r) <-> clearing d price p.
  Proof.
    destruct uniform_facts as (Bal & Rf & Fe & _). split.
    - apply content_clearing; assumption.
    - intro K. exact (uniform_content tm _ p E K).
  Qed.
  Lemma uniform_clears : clearing d price p <-> wanted_above d price p <= c /\ offered_below d price p <= c.
  Proof.
    destruct (uniform_marginal S d Hq Hp tm c p uniform_E) as (ps & pb & M & L1 & L2).
    rewrite wanted_above_demand, offered_below_supply. split.
    - intro K. destruct (clearing_quantity d p ps pb c Hn M K) as (D1 & _ & D3 & _). auto.
    - intros [K1 K2]. destruct M as (_ & _ & _ & D2 & _ & D4 & _). split.
      + rewrite wanted_above_demand, offered_at_supply. pose proof (supply_at_le d ps p Hn L1). qlra.
      + rewrite wanted_at_demand, offered_below_supply. pose proof (demand_at_le d p pb Hn L2). qlra.
  Qed.
  Lemma uniform_split : asks_pos d -> prices_distinct d -> forall ps pb, Marginal d ps pb c -> c < demand_at d pb \/ c < supply_at d ps -> clearing d price p.
  Proof.
    intros Ha Hd ps pb M X. destruct uniform_facts as (_ & _ & _ & _ & Ef). destruct (exact_price S d Hq Hp Ha ps pb c M) as (_ & X1 & X2).
    pose proof M as (_ & L & D1 & D2 & D3 & D4 & Mx). apply uniform_clears. rewrite wanted_above_demand, offered_below_supply. destruct X as [X|X].
    - destruct (X2 Hd X) as [Y Z]. rewrite Ef in Z. injection Z as ->. split; [qlra|].
      specialize (Mx pb). destruct (qmin_case (demand_at d pb) (supply_at d pb)) as [[Y' _]|[Y' _]]; rewrite Y' in Mx; [exfalso; qlra|].
      pose proof (supply_below_at d pb Hn). qlra.
    - destruct (X1 Hd X) as [Y Z]. rewrite Ef in Z. injection Z as ->. split; [|qlra].
      specialize (Mx ps). destruct (qmin_case (demand_at d ps) (supply_at d ps)) as [[Y' _]|[Y' _]]; rewrite Y' in Mx; [|exfalso; qlra].
      pose proof (demand_above_at d ps Hn). qlra.
  Qed.
  Lemma uniform_no_envy : clearing d price p -> forall r t, In r d -> In t (tm_trans tm) -> ~ envies (tm_trans tm) r t.
  Proof.
    intros K r t Hr Ht. destruct uniform_facts as (Bal & Rf & Fe & Pr & _).
    apply (content_no_envy d (tm_trans tm) p Hn Fe Pr); [apply uniform_equilibrium, K | exact Hr | exact Ht].
  Qed.
  Lemma uniform_core : clearing d price p -> forall g y, incl g d -> ~ blocks (tm_trans tm) g y.
  Proof.
    intros K g y Hg. destruct uniform_facts as (Bal & Rf & Fe & Pr & _).
    apply (content_core d (tm_trans tm) p Pr); [apply uniform_equilibrium, K | exact Hg].
  Qed.
End Uniform.
