(** Exactly when the competitive price is finite. *)
From Verif Require Import QcTac Num ModelBase ModelCurves ModelHuang ModelMuda NumFacts ListFacts Spec SpecHuang
  SpecExact CurveFacts IntersectFacts MudaPrice HuangTop.

Section Iff.
  Variables (S : sorter) (d : df).
  Hypothesis Hq : qty_nonneg d.
  Hypothesis Hp : price_nonneg d.
  Notation f := (fst (demand_curve_from_bids S d)).
  Notation g := (fst (supply_curve_from_bids S d)).

  Lemma above_le p : demand_above d p <= demand_at d p.
  Proof.
    unfold demand_above, demand_at. rewrite !qsumf_filter. apply qsumf_le. intros r Hr. specialize (Hq r Hr).
    destruct (buying r); cbn [andb]; [|qlra]. destruct (qlt_spec p (price r)), (qle_spec p (price r)); qlra.
  Qed.
  Lemma above_nonneg p : 0 <= demand_above d p.
  Proof. apply qsumf_nonneg. intros r Hr. apply filter_In in Hr. apply Hq, Hr. Qed.
  Lemma below_nonneg p : 0 <= supply_below d p.
  Proof. apply qsumf_nonneg. intros r Hr. apply filter_In in Hr. apply Hq, Hr. Qed.
  Lemma below_zero : supply_below d 0 = 0.
  Proof.
    unfold supply_below. assert (E : filter (fun r => negb (buying r) && qltb (price r) 0) d = []); [|rewrite E; reflexivity].
    assert (N : forall x, ~ In x (filter (fun r => negb (buying r) && qltb (price r) 0) d)).
    { intros x Ix. apply filter_In in Ix. destruct Ix as [Ix K]. apply andb_true_iff in K. destruct K as [_ K]. apply qltb_lt in K. specialize (Hp x Ix). qlra. }
    destruct (filter (fun r => negb (buying r) && qltb (price r) 0) d) as [|x l]; [reflexivity|]. destruct (N x). left; reflexivity.
  Qed.
  (** height of the demand at a positive quantity *)
  Lemma f_height x i u : 0 < x -> StepAt f (Fin x) i u -> exists p, u = Fin p /\ 0 <= p /\ demand_above d p < x /\ (0 < p -> x <= demand_at d p).
  Proof.
    intros H0 F. destruct (qle_spec x (total_demand d)) as [T|T].
    - destruct (demand_inverse S d Hq x H0 T) as (u' & V & D1 & D2 & r & R1 & R2 & R3). apply f_at in V; [|qlra]. destruct V as (i' & V).
      destruct (StepAt_fun _ _ _ _ _ _ V F) as [_ <-]. exists u'. split; [reflexivity|]. split; [subst u'; apply Hp, R1|]. auto.
    - pose proof (demand_beyond S d Hq x (Qclt_le_weak _ _ H0) T) as V. apply f_at in V; [|qlra]. destruct V as (i' & V).
      destruct (StepAt_fun _ _ _ _ _ _ V F) as [_ <-]. exists 0. split; [reflexivity|]. split; [qlra|]. split; [|intros Z; qlra].
      pose proof (above_le 0). pose proof (demand_at_total d 0 Hq). qlra.
  Qed.
  Lemma g_height x i u : 0 < x -> StepAt g (Fin x) i u -> u = PInf \/ exists p, u = Fin p /\ 0 <= p /\ supply_below d p < x /\ x <= supply_at d p.
  Proof.
    intros H0 G. destruct (qle_spec x (total_supply d)) as [T|T].
    - destruct (supply_inverse S d Hq x H0 T) as (u' & V & D1 & D2 & r & R1 & R2 & R3). apply g_at in V; [|qlra]. destruct V as (i' & V).
      destruct (StepAt_fun _ _ _ _ _ _ V G) as [_ <-]. right. exists u'. split; [reflexivity|]. split; [subst u'; apply Hp, R1|]. auto.
    - pose proof (supply_beyond S d Hq x (Qclt_le_weak _ _ H0) T) as V. apply g_at in V; [|qlra]. destruct V as (i' & V).
      destruct (StepAt_fun _ _ _ _ _ _ V G) as [_ <-]. left; reflexivity.
  Qed.
  Lemma above_anti p q : p < q -> demand_at d q <= demand_above d p.
  Proof.
    intros L. unfold demand_above, demand_at. rewrite !qsumf_filter. apply qsumf_le. intros r Hr. specialize (Hq r Hr).
    destruct (buying r); cbn [andb]; [|qlra]. destruct (qlt_spec p (price r)), (qle_spec q (price r)); qlra.
  Qed.
  Lemma below_mono p q : p < q -> supply_at d p <= supply_below d q.
  Proof.
    intros L. unfold supply_below, supply_at. rewrite !qsumf_filter. apply qsumf_le. intros r Hr. specialize (Hq r Hr).
    destruct (buying r); cbn [negb andb]; [qlra|]. destruct (qlt_spec (price r) q), (qle_spec (price r) p); qlra.
  Qed.
  Lemma f_total x : 0 < x -> exists i u, StepAt f (Fin x) i u.
  Proof.
    intros H0. destruct (qle_spec x (total_demand d)) as [T|T].
    - destruct (demand_inverse S d Hq x H0 T) as (u' & V & _). apply f_at in V; [|qlra]. destruct V; eauto.
    - pose proof (demand_beyond S d Hq x (Qclt_le_weak _ _ H0) T) as V. apply f_at in V; [|qlra]. destruct V; eauto.
  Qed.
  Lemma g_total x : 0 < x -> exists i u, StepAt g (Fin x) i u.
  Proof.
    intros H0. destruct (qle_spec x (total_supply d)) as [T|T].
    - destruct (supply_inverse S d Hq x H0 T) as (u' & V & _). apply g_at in V; [|qlra]. destruct V; eauto.
    - pose proof (supply_beyond S d Hq x (Qclt_le_weak _ _ H0) T) as V. apply g_at in V; [|qlra]. destruct V; eauto.
  Qed.
  (** the curves have the same height at a positive quantity *)
  Definition level (x p : Qc) : Prop := demand_above d p < x /\ (0 < p -> x <= demand_at d p) /\ supply_below d p < x /\ x <= supply_at d p.
  Lemma level_heights x p : 0 < x -> 0 <= p -> level x p -> (exists i, StepAt f (Fin x) i (Fin p)) /\ exists j, StepAt g (Fin x) j (Fin p).
  Proof.
    intros H0 P (L1 & L2 & L3 & L4). split.
    - destruct (f_total x H0) as (i & u & F). destruct (f_height x i u H0 F) as (p' & -> & P' & A1 & A2). exists i.
      destruct (qlt_spec p p') as [X|X].
      + exfalso. assert (X0 : 0 < p') by qlra. specialize (A2 X0). pose proof (above_anti p p' X). qlra.
      + destruct (qlt_spec p' p) as [Y|Y]; [|assert (p' = p) as -> by (apply Qcle_antisym; assumption); exact F].
        exfalso. assert (X0 : 0 < p) by qlra. specialize (L2 X0). pose proof (above_anti p' p Y). qlra.
    - destruct (g_total x H0) as (i & u & G). exists i. destruct (g_height x i u H0 G) as [->|(p' & -> & P' & A1 & A2)].
      + exfalso. destruct (supply_inverse S d Hq x H0) as (u' & V & _); [pose proof (supply_at_total d p Hq); qlra|]. apply g_at in V; [|qlra]. destruct V as (i' & V).
        destruct (StepAt_fun _ _ _ _ _ _ V G) as [_ Z]. discriminate.
      + destruct (qlt_spec p p') as [X|X]; [exfalso; pose proof (below_mono p p' X); qlra|].
        destruct (qlt_spec p' p) as [Y|Y]; [exfalso; pose proof (below_mono p' p Y); qlra|]. assert (p' = p) as -> by (apply Qcle_antisym; assumption). exact G.
  Qed.
  Lemma no_level : gap_free d -> forall x p, 0 < x -> 0 <= p -> ~ level x p.
  Proof.
    intros [G0 G] x p H0 P (L1 & L2 & L3 & L4). destruct (qlt_spec 0 p) as [Q|Q].
    - specialize (G p Q). specialize (L2 Q). destruct (qmin_case (demand_at d p) (supply_at d p)) as [[E ?]|[E ?]]; rewrite E in G;
        destruct (qmax_case (demand_above d p) (supply_below d p)) as [[E' ?]|[E' ?]]; rewrite E' in G; qlra.
    - assert (p = 0) as -> by (apply Qcle_antisym; assumption). qlra.
  Qed.
  Lemma level_gap : (forall x p, 0 < x -> 0 <= p -> ~ level x p) -> gap_free d.
  Proof.
    intros N. split.
    - destruct (qle_spec (supply_at d 0) (demand_above d 0)) as [X|X]; [exact X|]. exfalso. pose proof (above_nonneg 0).
      apply (N (supply_at d 0) 0); [qlra|qlra|]. unfold level. rewrite below_zero. repeat split; try intros; qlra.
    - intros p P. destruct (qle_spec (qmin (demand_at d p) (supply_at d p)) (qmax (demand_above d p) (supply_below d p))) as [X|X]; [exact X|]. exfalso.
      pose proof (qmin_l (demand_at d p) (supply_at d p)). pose proof (qmin_r (demand_at d p) (supply_at d p)). pose proof (above_nonneg p). pose proof (below_nonneg p).
      destruct (qmax_case (demand_above d p) (supply_below d p)) as [[Z ?]|[Z ?]]; rewrite Z in X;
        (apply (N (qmin (demand_at d p) (supply_at d p)) p); [qlra|qlra|]; unfold level; repeat split; try intros; qlra).
  Qed.
  Lemma crossing_level x : Crossing f g x -> forall y p, 0 < y -> 0 <= p -> ~ level y p.
  Proof.
    intros (P & B & _ & C) y p H0 P0 L. destruct (level_heights y p H0 P0 L) as ((i & F) & j & G).
    destruct (C (Fin y) i (Fin p) j (Fin p) (proj2 (nle_Fin 0 y) (Qclt_le_weak _ _ H0)) F G) as [C1 C2].
    assert (Ox : ok x) by (apply nle_ok in P; tauto). assert (Oy : ok (Fin y)) by discriminate. destruct (nle_total (Fin y) x Oy Ox) as [K|K].
    - apply (nlt_irrefl (Fin p)), C1, K.
    - apply (nlt_irrefl (Fin p)), C2, K.
  Qed.
  Lemma top_height rb i u : In rb d -> buying rb = true -> StepAt f (Fin 0) i u -> exists p, u = Fin p /\ price rb <= p.
  Proof.
    intros I B F. assert (In rb (s_desc S (buyers d))) as I1 by (apply desc_in; auto).
    pose proof (step_search_zero (s_desc S (buyers d)) (Fin 0)) as Z1. pose proof (s_desc_sorted S (buyers d)) as S1.
    assert (Q1 : forall r, In r (s_desc S (buyers d)) -> 0 <= qty r) by (intros r H; apply Hq; apply desc_in in H; apply H). specialize (Z1 Q1).
    unfold demand_curve_from_bids in F. simpl fst in F. rewrite curve_rows_crows in F.
    destruct (s_desc S (buyers d)) as [|b lb] eqn:El; [contradiction|]. apply StronglySorted_inv in S1. destruct S1 as [_ S1]. rewrite Forall_forall in S1.
    apply step_search_iff in Z1. destruct Z1 as (i' & Z1). destruct (StepAt_fun _ _ _ _ _ _ Z1 F) as [_ <-]. exists (price b). split; [reflexivity|].
    destruct I1 as [->|I1]; [apply Qcle_refl|apply S1, I1].
  Qed.
  Lemma bottom_height rs i u : In rs d -> buying rs = false -> StepAt g (Fin 0) i u -> exists p, u = Fin p /\ p <= price rs.
  Proof.
    intros I B F. assert (In rs (s_asc S (sellers d))) as I1 by (apply asc_in; auto).
    pose proof (step_search_zero (s_asc S (sellers d)) PInf) as Z1. pose proof (s_asc_sorted S (sellers d)) as S1.
    assert (Q1 : forall r, In r (s_asc S (sellers d)) -> 0 <= qty r) by (intros r H; apply Hq; apply asc_in in H; apply H). specialize (Z1 Q1).
    unfold supply_curve_from_bids in F. simpl fst in F. rewrite curve_rows_crows in F.
    destruct (s_asc S (sellers d)) as [|b lb] eqn:El; [contradiction|]. apply StronglySorted_inv in S1. destruct S1 as [_ S1]. rewrite Forall_forall in S1.
    apply step_search_iff in Z1. destruct Z1 as (i' & Z1). destruct (StepAt_fun _ _ _ _ _ _ Z1 F) as [_ <-]. exists (price b). split; [reflexivity|].
    destruct I1 as [->|I1]; [apply Qcle_refl|apply S1, I1].
  Qed.
  Theorem finite_iff : (exists p, find_competitive_price S d = Ok (Fin p)) <->
    can_trade d /\ gap_free d.
  Proof.
    split.
    - intros (p & E). split.
      + destruct (price_finite S d Hq Hp p E) as [(rb & rs & H1 & H2 & H3 & H4 & _ & _ & H5) _]. exists rb, rs. auto.
      + apply level_gap. destruct (price_cases S d Hq Hp) as [[E' _]|(p' & c & i & u & j & w & E' & C & _)]; [rewrite E in E'; discriminate|]. exact (crossing_level _ C).
    - intros [(rb & rs & I1 & I2 & B1 & B2 & L) G]. destruct (price_cases S d Hq Hp) as [[_ N]|(p & c & i & u & j & w & E & _)]; [|eauto]. exfalso.
      destruct (crossing_exists f g (demand_ends S d Hq) (supply_ends S d Hq) (demand_decreasing S d Hp) (supply_increasing S d)) as (x & C); [| | |exact (N x C)].
      + intros y i u j w P F K. destruct y as [y| | |]; try discriminate P.
        2:{ destruct (f_last S d) as (i' & F'). destruct (g_last S d) as (j' & K'). destruct (StepAt_fun _ _ _ _ _ _ F F') as [_ ->]. destruct (StepAt_fun _ _ _ _ _ _ K K') as [_ ->]. right; reflexivity. }
        apply nle_Fin in P. destruct (qlt_spec 0 y) as [Y|Y].
        * destruct (f_height y i u Y F) as (p & -> & P1 & P2 & P3). destruct (g_height y j w Y K) as [->|(p' & -> & Q1 & Q2 & Q3)]; [right; reflexivity|].
          destruct (qlt_spec p p') as [X|X]; [right; apply nlt_Fin, X|]. destruct (qlt_spec p' p) as [Z|Z]; [left; apply nlt_Fin, Z|].
          exfalso. assert (p' = p) as -> by (apply Qcle_antisym; assumption). apply (no_level G y p Y P1). repeat split; assumption.
        * assert (y = 0) as -> by (apply Qcle_antisym; assumption). destruct (top_height rb i u I1 B1 F) as (p & -> & P1). destruct (bottom_height rs j w I2 B2 K) as (p' & -> & P2).
          left. apply nlt_Fin. qlra.
      + assert (T : exists i u j w, StepAt f (Fin 0) i u /\ StepAt g (Fin 0) j w).
        { pose proof (step_search_zero (s_desc S (buyers d)) (Fin 0)) as Z1. pose proof (step_search_zero (s_asc S (sellers d)) PInf) as Z2.
          assert (Q1 : forall r, In r (s_desc S (buyers d)) -> 0 <= qty r) by (intros r H; apply Hq; apply desc_in in H; apply H).
          assert (Q2 : forall r, In r (s_asc S (sellers d)) -> 0 <= qty r) by (intros r H; apply Hq; apply asc_in in H; apply H).
          specialize (Z1 Q1). specialize (Z2 Q2). apply step_search_iff in Z1. apply step_search_iff in Z2. destruct Z1 as (i & Z1), Z2 as (j & Z2).
          unfold demand_curve_from_bids, supply_curve_from_bids. simpl fst. rewrite !curve_rows_crows. eauto 8. }
        destruct T as (i & u & j & w & F & K). destruct (top_height rb i u I1 B1 F) as (p & -> & P1). destruct (bottom_height rs j w I2 B2 K) as (p' & -> & P2).
        exists (Fin 0), i, (Fin p), j, (Fin p'). split; [reflexivity|]. split; [exact F|]. split; [exact K|]. apply nlt_Fin. qlra.
      + destruct (f_last S d) as (i & F). destruct (g_last S d) as (j & K). exists PInf, i, (Fin 0), j, PInf. auto.
  Qed.
End Iff.
