(** The price setters, the competitive quantity and the rationing of [huang_auction]. *)
From Verif Require Import QcTac Num NumFacts ModelBase ModelCurves ModelHuang ModelMuda ListFacts Spec SpecTrade SpecHuang
  CurveFacts IntersectFacts StoreFacts UpdateFacts TradeFacts Sorter HuangFacts MudaPrice.

Lemma crows_pos_end l : forall a c v, 0 <= a -> (forall y, In y l -> 0 < qty y) -> In (Fin c, v) (crows a l) -> 0 < c.
Proof.
  induction l as [|r l IH]; intros a c v Ha Hl; [intros []|]. rewrite crows_cons.
  pose proof (Hl r (or_introl eq_refl)) as Hr. intros [E|I].
  - injection E as E _. subst c. qlra.
  - apply (IH (a + qty r) c v); [qlra | intros y Hy; apply Hl; right; exact Hy | exact I].
Qed.

Section Top.
  Variables (S : sorter) (d : df).
  Hypothesis Hq : qty_nonneg d.
  Hypothesis Hp : price_nonneg d.
  Notation f := (fst (demand_curve_from_bids S d)).
  Notation g := (fst (supply_curve_from_bids S d)).

  Lemma demand_step c i u : 0 < c -> 0 < u -> StepAt f (Fin c) i (Fin u) -> demand_above d u < c /\ c <= demand_at d u.
  Proof.
    intros H0 Hu F. destruct (qle_spec c (total_demand d)) as [T|T].
    - destruct (demand_inverse S d Hq c H0 T) as (u' & V & D1 & D2 & _). apply f_at in V; [|qlra].
      destruct V as (i' & V). destruct (StepAt_fun _ _ _ _ _ _ V F) as [_ X]. apply Fin_inj in X. subst u'. auto.
    - exfalso. pose proof (demand_beyond S d Hq c (Qclt_le_weak _ _ H0) T) as V. apply f_at in V; [|qlra].
      destruct V as (i' & V). destruct (StepAt_fun _ _ _ _ _ _ V F) as [_ X]. apply Fin_inj in X. subst u. qlra.
  Qed.
  Lemma supply_step c i u : 0 < c -> StepAt g (Fin c) i (Fin u) -> supply_below d u < c /\ c <= supply_at d u.
  Proof.
    intros H0 F. destruct (qle_spec c (total_supply d)) as [T|T].
    - destruct (supply_inverse S d Hq c H0 T) as (u' & V & D1 & D2 & _). apply g_at in V; [|qlra].
      destruct V as (i' & V). destruct (StepAt_fun _ _ _ _ _ _ V F) as [_ X]. apply Fin_inj in X. subst u'. auto.
    - exfalso. pose proof (supply_beyond S d Hq c (Qclt_le_weak _ _ H0) T) as V. apply g_at in V; [|qlra].
      destruct V as (i' & V). destruct (StepAt_fun _ _ _ _ _ _ V F) as [_ X]. discriminate X.
  Qed.

  Lemma crossing_fin x : Crossing f g x -> exists c, x = Fin c /\ 0 <= c.
  Proof.
    intros (P & _ & (y & L & _) & _). destruct x as [c| | |]; [|destruct y; discriminate L|discriminate P|discriminate P].
    exists c. split; [reflexivity | apply nle_Fin, P].
  Qed.

  (** no price allows more than the crossing quantity to be traded *)
  Lemma crossing_max c p : Crossing f g (Fin c) -> 0 <= c -> qmin (demand_at d p) (supply_at d p) <= c.
  Proof.
    intros C H0. apply Qcnot_lt_le. intro Ly. set (y := qmin (demand_at d p) (supply_at d p)) in *.
    assert (Y1 : y <= demand_at d p) by apply qmin_l. assert (Y2 : y <= supply_at d p) by apply qmin_r.
    assert (Y0 : 0 < y) by qlra.
    destruct (demand_inverse S d Hq y Y0) as (p1 & V1 & _ & B1 & _); [pose proof (demand_at_total d p Hq); qlra|].
    destruct (supply_inverse S d Hq y Y0) as (p2 & V2 & _ & B2 & _); [pose proof (supply_at_total d p Hq); qlra|].
    apply f_at in V1; [|qlra]. apply g_at in V2; [|qlra]. destruct V1 as (i1 & V1), V2 as (i2 & V2).
    destruct C as (_ & _ & _ & C). destruct (C (Fin y) _ _ _ _ (proj2 (nle_Fin 0 y) (Qclt_le_weak _ _ Y0)) V1 V2) as [_ C'].
    specialize (C' (proj2 (nlt_Fin c y) Ly)). apply nlt_Fin in C'.
    destruct (qle_spec p p1) as [Q1|Q1]; [|pose proof (demand_mono d p1 p Hq Q1); qlra].
    destruct (qle_spec p2 p) as [Q2|Q2]; [|pose proof (supply_mono d p p2 Hq Q2); qlra]. qlra.
  Qed.
  (** and every price between the curves at the crossing allows all of it *)
  Lemma crossing_attained c i u j w p : Crossing f g (Fin c) -> 0 < c -> 0 < u ->
    StepAt f (Fin c) i (Fin u) -> StepAt g (Fin c) j (Fin w) -> w <= p -> p <= u ->
    qmin (demand_at d p) (supply_at d p) = c.
  Proof.
    intros C H0 U F G L1 L2. destruct (demand_step _ _ _ H0 U F) as [_ D]. destruct (supply_step _ _ _ H0 G) as [_ D'].
    apply Qcle_antisym; [apply crossing_max; [exact C | qlra]|].
    apply qmin_glb; [pose proof (demand_at_le d p u Hq L2) | pose proof (supply_at_le d w p Hq L1)]; qlra.
  Qed.

  Lemma crossing_pos c : qty_pos d -> Crossing f g (Fin c) -> (is_end f (Fin c) \/ is_end g (Fin c)) -> 0 < c.
  Proof.
    intros Q _ [(v & I)|(v & I)]; unfold demand_curve_from_bids, supply_curve_from_bids in I; simpl fst in I; rewrite curve_rows_crows in I.
    - apply in_app_or in I. destruct I as [I|[I|[]]]; [|discriminate I].
      apply (crows_pos_end (s_desc S (buyers d)) 0 c v); [qlra | | exact I].
      intros y Hy. apply Q. apply desc_in in Hy. tauto.
    - apply in_app_or in I. destruct I as [I|[I|[]]]; [|discriminate I].
      apply (crows_pos_end (s_asc S (sellers d)) 0 c v); [qlra | | exact I].
      intros y Hy. apply Q. apply asc_in in Hy. tauto.
  Qed.

  Lemma crossing_end x : Crossing f g x -> is_end f x \/ is_end g x.
  Proof.
    intro C. destruct (intersect_cases f g (qf 1 2) (demand_nonempty S d) (supply_nonempty S d)
              (demand_ends S d Hq) (supply_ends S d Hq) (demand_decreasing S d Hp) (supply_increasing S d))
      as [(y & b & s & u & w & v & E & Cr & I & _)|(v & E & Nc)]; [|destruct (Nc x C)].
    rewrite (crossing_unique _ _ _ _ C Cr). exact I.
  Qed.

  (** the price setters are the marginal bids *)
  Lemma huang_marginal tm ps pb q : qty_pos d -> huang_auction S d = Ok (tm, XHuang ps pb q) ->
    exists c, Marginal d ps pb c /\ forall p, ps <= p -> p <= pb -> qmin (demand_at d p) (supply_at d p) = c.
  Proof.
    intros Q E. pose proof (huang_cases S d Hq Hp) as C. rewrite E in C.
    inversion C as [|x B1 rb B2 L1 rs L2 qs qb tm' q' EB EL Lp Cr Sf Sg D E1]. subst.
    destruct (crossing_fin x Cr) as (c & -> & H0). exists c.
    assert (P : 0 < c) by (apply crossing_pos; [exact Q | exact Cr | apply crossing_end, Cr]).
    assert (Irs : In rs d) by (apply (seller_row S d _ _ _ rs EL), in_or_app; right; left; reflexivity).
    assert (U : 0 < price rb) by (specialize (Hp rs Irs); qlra).
    destruct (demand_step _ _ _ P U Sf) as [D1 D2]. destruct (supply_step _ _ _ P Sg) as [D3 D4]. split.
    - split; [exact P|]. split; [exact Lp|]. split; [exact D1|]. split; [exact D2|]. split; [exact D3|]. split; [exact D4|].
      intro p. apply crossing_max; [exact Cr | exact H0].
    - intros p A B. eapply crossing_attained; eassumption.
  Qed.

  (** conversely marginal bids make a crossing *)
  Lemma marginal_crossing ps pb c : asks_pos d -> Marginal d ps pb c ->
    Crossing f g (Fin c) /\ (exists i, StepAt f (Fin c) i (Fin pb)) /\ exists j, StepAt g (Fin c) j (Fin ps).
  Proof.
    intros Ha (P & L & D1 & D2 & D3 & D4 & M).
    assert (T1 : c <= total_demand d) by (pose proof (demand_at_total d pb Hq); qlra).
    assert (T2 : c <= total_supply d) by (pose proof (supply_at_total d ps Hq); qlra).
    destruct (demand_inverse S d Hq c P T1) as (u & V1 & X1 & X2 & _).
    destruct (supply_inverse S d Hq c P T2) as (w & V2 & Y1 & Y2 & _).
    assert (U : u = pb) by (apply (demand_price_unique d c u pb Hq); assumption). subst u.
    assert (W : w = ps) by (apply (supply_price_unique d c w ps Hq); assumption). subst w.
    apply f_at in V1; [|qlra]. apply g_at in V2; [|qlra]. destruct V1 as (i & F), V2 as (j & G).
    split; [|split; eauto].
    split; [apply nle_Fin; qlra|]. split; [split; eauto|].
    split; [destruct (f_last S d) as (i' & F'), (g_last S d) as (j' & G'); exists PInf; split; [reflexivity | split; eauto]|].
    intros y i' u j' w Py Fy Gy. split; intro Ly.
    - apply (nle_lt_trans _ (Fin ps)); [apply (StepAt_inc _ _ _ _ _ _ _ (supply_increasing S d) Ly Gy G)|].
      apply (nlt_le_trans _ (Fin pb)); [apply nlt_Fin, L | apply (StepAt_dec _ _ _ _ _ _ _ (demand_decreasing S d Hp) Ly Fy F)].
    - destruct (g_vals S d _ _ _ Gy) as [->|(rs & R1 & R2 & ->)].
      { destruct (f_vals S d _ _ _ Fy) as [->|(rb & _ & _ & ->)]; reflexivity. }
      destruct (f_vals S d _ _ _ Fy) as [->|(rb & R3 & R4 & ->)].
      { apply nlt_Fin, Ha; assumption. }
      apply nlt_Fin. destruct (qlt_spec (price rb) (price rs)) as [X|X]; [exact X|]. exfalso.
      destruct y as [y| | |]; [|destruct (g_last S d) as (? & G'); destruct (StepAt_fun _ _ _ _ _ _ Gy G') as [_ Z]; discriminate Z|discriminate Py|discriminate Py].
      apply nlt_Fin in Ly. apply nle_Fin in Py.
      assert (Y0 : 0 < y) by qlra. pose proof (Ha rs R1 R2) as A.
      assert (B : 0 < price rb) by qlra.
      destruct (demand_step _ _ _ Y0 B Fy) as [_ Z1]. destruct (supply_step _ _ _ Y0 Gy) as [_ Z2].
      specialize (M (price rb)). pose proof (supply_at_le d _ _ Hq X) as Z3.
      assert (y <= qmin (demand_at d (price rb)) (supply_at d (price rb))) by (apply qmin_glb; qlra). qlra.
  Qed.

  Lemma marginal_huang ps pb c : asks_pos d -> Marginal d ps pb c ->
    exists tm q, huang_auction S d = Ok (tm, XHuang ps pb q).
  Proof.
    intros Ha M. destruct (marginal_crossing _ _ _ Ha M) as (Cr & (i & F) & (j & G)).
    pose proof (huang_cases S d Hq Hp) as C. inversion C as [N E1|x B1 rb B2 L1 rs L2 qs qb tm' q' EB EL Lp Cr' Sf Sg D E1].
    - destruct (N _ Cr).
    - rewrite (crossing_unique _ _ _ _ Cr' Cr) in Sf, Sg.
      destruct (StepAt_fun _ _ _ _ _ _ Sf F) as [_ X]. apply Fin_inj in X.
      destruct (StepAt_fun _ _ _ _ _ _ Sg G) as [_ Y]. apply Fin_inj in Y. subst. eauto.
  Qed.

  Lemma huang_price : (exists tm ps pb q, huang_auction S d = Ok (tm, XHuang ps pb q)) <->
    exists p, find_competitive_price S d = Ok (Fin p).
  Proof.
    pose proof (huang_cases S d Hq Hp) as C.
    destruct (price_cases S d Hq Hp) as [[E N]|(p & c & i & u & j & w & E & Cr & _)]; rewrite E;
      inversion C as [N' E1|x B1 rb B2 L1 rs L2 qs qb tm' q' EB EL Lp Cr' Sf Sg D E1].
    - split; [intros (? & ? & ? & ? & X) | intros (? & X)]; discriminate X.
    - destruct (N _ Cr').
    - destruct (N' _ Cr).
    - split; [eauto|]. intros _. exists tm', (price rs), (price rb), q'. reflexivity.
  Qed.

  Lemma huang_exists rb rs : In rb d -> In rs d -> buying rb = true -> buying rs = false -> price rs < price rb ->
    (forall b s, In b d -> In s d -> buying b = true -> buying s = false -> price b <> price s) -> asks_pos d ->
    exists tm ps pb q, huang_auction S d = Ok (tm, XHuang ps pb q).
  Proof. intros H1 H2 H3 H4 H5 H6 H7. apply huang_price. exact (price_exists S d Hq Hp rb rs H1 H2 H3 H4 H5 H6 H7). Qed.

  (** rationing: the short side trades in full, everybody on the long side gives up the same quantity *)
  Lemma huang_rationing tm ex : labels_unique d -> huang_auction S d = Ok (tm, ex) ->
    exists tb ts, 0 <= tb /\ 0 <= ts /\ (tb = 0 \/ ts = 0) /\
      forall t r, In t (tm_trans tm) -> In r d -> lbl r = t_bid t ->
        t_qty t = qmax 0 (qty r - if buying r then tb else ts).
  Proof.
    intros Hu E. pose proof (huang_cases S d Hq Hp) as C. rewrite E in C.
    inversion C as [Hc E1|x B1 rb B2 L1 rs L2 qs qb tm' q EB EL Lp Cr Sf Sg D E1].
    - subst. exists 0, 0. split; [qlra|]. split; [qlra|]. split; [auto|]. intros ? ? [].
    - subst tm' ex. destruct D as [(_ & -> & _)|(NB & NL & Rs & Rb & One & _ & _ & _ & T)].
      { exists 0, 0. split; [qlra|]. split; [qlra|]. split; [auto|]. intros ? ? []. }
      assert (QB : forall y, In y B1 -> 0 <= qty y).
      { intros y Hy. apply Hq. apply (buyer_row S d _ _ _ y EB). apply in_or_app; left; exact Hy. }
      assert (QL : forall y, In y L1 -> 0 <= qty y).
      { intros y Hy. apply Hq. apply (seller_row S d _ _ _ y EL). apply in_or_app; left; exact Hy. }
      assert (Z : forall X, (forall y, In y X -> 0 <= qty y) -> map qty X = map (fun x => qmax 0 (x - 0)) (map qty X)).
      { intros X HX. rewrite map_map. apply map_ext_in. intros y Hy. specialize (HX y Hy).
        destruct (qmax_case 0 (qty y - 0)) as [[E' ?]|[E' ?]]; rewrite E'; qlra. }
      assert (K : exists tb ts, 0 <= tb /\ 0 <= ts /\ (tb = 0 \/ ts = 0) /\
         qb = map (fun x => qmax 0 (x - tb)) (map qty B1) /\ qs = map (fun x => qmax 0 (x - ts)) (map qty L1)).
      { destruct Rs as (t1 & T1 & Es). destruct Rb as (t2 & T2 & Eb). destruct One as [One|One].
        - exists t2, 0. split; [exact T2|]. split; [qlra|]. split; [auto|]. split; [exact Eb|]. rewrite One. apply Z, QL.
        - exists 0, t1. split; [qlra|]. split; [exact T1|]. split; [auto|]. split; [|exact Es]. rewrite One. apply Z, QB. }
      destruct K as (tb & ts & K1 & K2 & K3 & -> & ->). exists tb, ts.
      split; [exact K1|]. split; [exact K2|]. split; [exact K3|].
      assert (Cb : forall (X : df) t r q, In (r, q) (combine X (map (fun x => qmax 0 (x - t)) (map qty X))) -> q = qmax 0 (qty r - t)).
      { intros X t r0 q0. induction X as [|y X IH]; simpl; [intros []|]. intros [H|H]; [|auto]. congruence. }
      intros t r Ht Hr El. rewrite T in Ht. apply in_app_or in Ht. destruct Ht as [Ht|Ht];
        apply emit_in in Ht; destruct Ht as (r' & q' & H1 & H2 & ->); simpl in El |- *; apply Cb in H1.
      + destruct (seller_row S d _ _ _ r' EL) as [G1 G2]; [apply in_or_app; left; exact H2|].
        assert (r = r') by (apply (NoDup_map_in lbl d); auto). subst r'. rewrite G2. exact H1.
      + destruct (buyer_row S d _ _ _ r' EB) as [G1 G2]; [apply in_or_app; left; exact H2|].
        assert (r = r') by (apply (NoDup_map_in lbl d); auto). subst r'. rewrite G2. exact H1.
  Qed.
End Top.
