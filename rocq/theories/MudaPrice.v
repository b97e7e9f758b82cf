(** When the price of a half is finite and what it achieves. *)
From Verif Require Import QcTac Num ModelBase ModelCurves ModelHuang ModelMuda NumFacts ListFacts Spec
  CurveFacts IntersectFacts.

Lemma max_sat (P : num -> bool) l : (forall x, In x l -> ok x) -> (exists x, In x l /\ P x = true) ->
  exists m, In m l /\ P m = true /\ forall x, In x l -> P x = true -> nle x m.
Proof.
  induction l as [|a l IH]; intros Ho (x & Hx & Px); [contradiction|].
  assert (Oa : ok a) by (apply Ho; left; reflexivity).
  destruct (existsb P l) eqn:E.
  - apply existsb_exists in E. destruct IH as (m & M1 & M2 & M3); [intros y Hy; apply Ho; right; exact Hy | exact E |].
    destruct (P a) eqn:Pa.
    + assert (Om : ok m) by (apply Ho; right; exact M1). destruct (nle_total a m Oa Om) as [L|L].
      * exists m. split; [right; exact M1|]. split; [exact M2|]. intros y [<-|Hy] Py; [exact L | apply M3; assumption].
      * exists a. split; [left; reflexivity|]. split; [exact Pa|]. intros y [<-|Hy] Py; [apply nle_refl, Oa|].
        apply (nle_trans _ m); [apply M3; assumption | apply nlt_le, L].
    + exists m. split; [right; exact M1|]. split; [exact M2|]. intros y [<-|Hy] Py; [congruence | apply M3; assumption].
  - assert (N : forall y, In y l -> P y = false) by (intros y Hy; destruct (P y) eqn:Py; [|reflexivity]; rewrite <- E; symmetry; apply existsb_exists; eauto).
    destruct Hx as [<-|Hx]; [|rewrite (N x Hx) in Px; discriminate].
    exists a. split; [left; reflexivity|]. split; [exact Px|]. intros y [<-|Hy] Py; [apply nle_refl, Oa | rewrite (N y Hy) in Py; discriminate].
Qed.

Section Exists.
  Variables f g : steps.
  Hypothesis Hf : ends_sorted f.
  Hypothesis Hg : ends_sorted g.
  Hypothesis Df : decreasing f.
  Hypothesis Ig : increasing g.

  (** the values at [y] extend to a common end not before [y] *)
  Lemma push_end y i u j w : StepAt f y i u -> StepAt g y j w ->
    exists e, In e (map fst f ++ map fst g) /\ nle y e /\ StepAt f e i u /\ StepAt g e j w.
  Proof.
    intros F G. destruct (StepAt_in _ _ _ _ F) as (a & Ia & La & Na). destruct (StepAt_in _ _ _ _ G) as (b & Ib & Lb & Nb).
    assert (Oa : ok a) by exact (ends_ok f (a, u) Hf Ia). assert (Ob : ok b) by exact (ends_ok g (b, w) Hg Ib).
    assert (X : exists e, In e (map fst f ++ map fst g) /\ nle y e /\ nle e a /\ nle e b).
    { destruct (nle_total a b Oa Ob) as [L|L].
      - exists a. split; [apply in_or_app; left; exact (in_map fst _ _ Ia)|]. split; [exact La|]. split; [apply nle_refl, Oa | exact L].
      - exists b. split; [apply in_or_app; right; exact (in_map fst _ _ Ib)|]. split; [exact Lb|]. split; [apply nlt_le, L | apply nle_refl, Ob]. }
    destruct X as (e & X1 & X2 & X3 & X4). exists e. split; [exact X1|]. split; [exact X2|].
    split; [exact (StepAt_right y f e i u a u Na F X2 X3) | exact (StepAt_right y g e j w b w Nb G X2 X4)].
  Qed.

  Lemma crossing_exists : 
    (forall y i u j w, nleb (Fin 0) y = true -> StepAt f y i u -> StepAt g y j w -> nltb w u = true \/ nltb u w = true) ->
    (exists y i u j w, nleb (Fin 0) y = true /\ StepAt f y i u /\ StepAt g y j w /\ nltb w u = true) ->
    (exists y i u j w, nleb (Fin 0) y = true /\ StepAt f y i u /\ StepAt g y j w /\ nltb u w = true) ->
    exists x, Crossing f g x.
  Proof.
    intros NT (y0 & i0 & u0 & j0 & w0 & P0 & F0 & G0 & L0) (z & i1 & u1 & j1 & w1 & P1 & F1 & G1 & L1).
    set (P := fun x => match step_search x f, step_search x g with Some u, Some w => nltb w u | _, _ => false end).
    assert (HP : forall x i u j w, StepAt f x i u -> StepAt g x j w -> P x = nltb w u).
    { intros x i u j w F G. unfold P. rewrite (proj2 (step_search_iff f x u)), (proj2 (step_search_iff g x w)); eauto. }
    destruct (max_sat P (map fst f ++ map fst g)) as (m & M1 & M2 & M3).
    { intros x Hx. apply in_app_or in Hx. destruct Hx as [Hx|Hx]; apply in_map_iff in Hx; destruct Hx as (p & <- & Hp); [exact (ends_ok f p Hf Hp) | exact (ends_ok g p Hg Hp)]. }
    { destruct (push_end y0 i0 u0 j0 w0 F0 G0) as (e & E1 & _ & E3 & E4). exists e. split; [exact E1|]. rewrite (HP e _ _ _ _ E3 E4). exact L0. }
    assert (Dm : exists i u j w, StepAt f m i u /\ StepAt g m j w /\ nltb w u = true).
    { unfold P in M2. destruct (step_search m f) as [u|] eqn:Eu; [|discriminate]. destruct (step_search m g) as [w|] eqn:Ew; [|discriminate].
      apply step_search_iff in Eu. apply step_search_iff in Ew. destruct Eu as (i & Eu), Ew as (j & Ew). exists i, u, j, w. auto. }
    destruct Dm as (i & u & j & w & F & G & L).
    assert (P0m : nle (Fin 0) m).
    { apply in_app_or in M1. destruct M1 as [M1|M1]; apply in_map_iff in M1; destruct M1 as (p & <- & Hp); [apply (proj1 Hf p Hp) | apply (proj1 Hg p Hp)]. }
    assert (Om : ok m) by (apply nle_ok in P0m; tauto). assert (Oz : ok z) by (apply nle_ok in P1; tauto).
    assert (Lmz : nlt m z).
    { destruct (nle_total z m Oz Om) as [L'|L']; [|exact L']. exfalso.
      pose proof (StepAt_dec _ _ _ _ _ _ _ Df L' F1 F) as A. pose proof (StepAt_inc _ _ _ _ _ _ _ Ig L' G1 G) as B.
      apply (nlt_irrefl u). apply (nle_lt_trans _ u1); [exact A|]. apply (nlt_le_trans _ w1); [exact L1|]. apply (nle_trans _ w); [exact B | apply nlt_le, L]. }
    exists m. split; [exact P0m|]. split; [split; eauto|]. split; [exists z; split; [exact Lmz | split; eauto]|].
    intros y iy uy jy wy Py Fy Gy. assert (Oy : ok y) by (apply nle_ok in Py; tauto). split; intro Ly.
    - pose proof (StepAt_dec _ _ _ _ _ _ _ Df Ly Fy F) as A. pose proof (StepAt_inc _ _ _ _ _ _ _ Ig Ly Gy G) as B.
      apply (nle_lt_trans _ w); [exact B|]. apply (nlt_le_trans _ u); [exact L | exact A].
    - destruct (NT y iy uy jy wy Py Fy Gy) as [C|C]; [|exact C]. exfalso.
      destruct (push_end y iy uy jy wy Fy Gy) as (e & E1 & E2 & E3 & E4).
      assert (X : nle e m) by (apply M3; [exact E1 | rewrite (HP e _ _ _ _ E3 E4); exact C]).
      apply (nlt_not_le _ _ Ly). apply (nle_trans _ e); assumption.
  Qed.
End Exists.

(** ** The price computed from bids *)
Lemma demand_at_le d p q : qty_nonneg d -> p <= q -> demand_at d q <= demand_at d p.
Proof.
  intros Hq L. unfold demand_at. rewrite !qsumf_filter. apply qsumf_le. intros r Hr. specialize (Hq r Hr).
  destruct (buying r); simpl; [|qlra]. destruct (qle_spec q (price r)), (qle_spec p (price r)); qlra.
Qed.
Lemma supply_at_le d p q : qty_nonneg d -> p <= q -> supply_at d p <= supply_at d q.
Proof.
  intros Hq L. unfold supply_at. rewrite !qsumf_filter. apply qsumf_le. intros r Hr. specialize (Hq r Hr).
  destruct (buying r); simpl; [qlra|]. destruct (qle_spec (price r) q), (qle_spec (price r) p); qlra.
Qed.
Lemma demand_at_total d p : qty_nonneg d -> demand_at d p <= total_demand d.
Proof.
  intros Hq. unfold demand_at, total_demand. rewrite !qsumf_filter. apply qsumf_le. intros r Hr. specialize (Hq r Hr).
  destruct (buying r); simpl; [|qlra]. destruct (qle_spec p (price r)); qlra.
Qed.
Lemma supply_at_total d p : qty_nonneg d -> supply_at d p <= total_supply d.
Proof.
  intros Hq. unfold supply_at, total_supply. rewrite !qsumf_filter. apply qsumf_le. intros r Hr. specialize (Hq r Hr).
  destruct (buying r); simpl; [qlra|]. destruct (qle_spec (price r) p); qlra.
Qed.
Lemma demand_at_nonneg d p : qty_nonneg d -> 0 <= demand_at d p.
Proof. intro Hq. apply qsumf_nonneg. intros r Hr. apply filter_In in Hr. apply Hq, Hr. Qed.
Lemma supply_at_nonneg d p : qty_nonneg d -> 0 <= supply_at d p.
Proof. intro Hq. apply qsumf_nonneg. intros r Hr. apply filter_In in Hr. apply Hq, Hr. Qed.

Section Price.
  Variables (S : sorter) (d : df).
  Hypothesis Hq : qty_nonneg d.
  Hypothesis Hp : price_nonneg d.
  Notation f := (fst (demand_curve_from_bids S d)).
  Notation g := (fst (supply_curve_from_bids S d)).

  (** values of the curves *)
  Lemma f_vals x i u : StepAt f x i u -> u = Fin 0 \/ exists r, In r d /\ buying r = true /\ u = Fin (price r).
  Proof.
    intro F. destruct (StepAt_in _ _ _ _ F) as (a & I & _). unfold demand_curve_from_bids in I. simpl fst in I. rewrite curve_rows_crows in I.
    apply in_app_or in I. destruct I as [I|[I|[]]]; [|left; congruence].
    apply crows_in in I. destruct I as (r & R1 & R2). apply desc_in in R1. right. exists r. simpl in R2. tauto.
  Qed.
  Lemma g_vals x i u : StepAt g x i u -> u = PInf \/ exists r, In r d /\ buying r = false /\ u = Fin (price r).
  Proof.
    intro F. destruct (StepAt_in _ _ _ _ F) as (a & I & _). unfold supply_curve_from_bids in I. simpl fst in I. rewrite curve_rows_crows in I.
    apply in_app_or in I. destruct I as [I|[I|[]]]; [|left; congruence].
    apply crows_in in I. destruct I as (r & R1 & R2). apply asc_in in R1. right. exists r. simpl in R2. tauto.
  Qed.
  Lemma f_last : exists i, StepAt f PInf i (Fin 0).
  Proof. apply step_search_iff. unfold demand_curve_from_bids. simpl fst. rewrite curve_rows_crows. apply step_search_PInf. Qed.
  Lemma g_last : exists i, StepAt g PInf i PInf.
  Proof. apply step_search_iff. unfold supply_curve_from_bids. simpl fst. rewrite curve_rows_crows. apply step_search_PInf. Qed.
  Lemma f_at x v : 0 <= x -> get_value_stepwise (Fin x) f = Some v -> exists i, StepAt f (Fin x) i v.
  Proof. intros H E. apply get_value_iff; [apply nle_Fin, H | exact E]. Qed.
  Lemma g_at x v : 0 <= x -> get_value_stepwise (Fin x) g = Some v -> exists i, StepAt g (Fin x) i v.
  Proof. intros H E. apply get_value_iff; [apply nle_Fin, H | exact E]. Qed.

  (** the price is infinite when the curves do not cross, otherwise it is between them *)
  Lemma price_cases :
    (find_competitive_price S d = Ok PInf /\ forall x, ~ Crossing f g x) \/
    (exists p c i u j w, find_competitive_price S d = Ok (Fin p) /\ Crossing f g (Fin c) /\ 0 <= c /\
       StepAt f (Fin c) i (Fin u) /\ StepAt g (Fin c) j (Fin w) /\ w <= p /\ p <= u /\ w < u).
  Proof.
    pose proof (demand_nonempty S d) as Nf. pose proof (supply_nonempty S d) as Ng.
    pose proof (demand_ends S d Hq) as Ef. pose proof (supply_ends S d Hq) as Eg.
    pose proof (demand_decreasing S d Hp) as Df. pose proof (supply_increasing S d) as Ig.
    unfold find_competitive_price.
    destruct (intersect_spec f g Ef Eg Df Ig Nf Ng (qf 1 2)) as [(x & i & u & j & w & E & C & _ & Su & Sw)|(xm & i & u & j & w & E & N & _ & Hd & H0 & Su & Sw)].
    - right. rewrite E. cbn [bind].
      assert (L : nlt w u).
      { destruct C as (P & _ & _ & H). apply (H x i u j w P Su Sw). apply nle_refl. apply nle_ok in P; tauto. }
      assert (Fu : exists u', u = Fin u') by (destruct (f_vals _ _ _ Su) as [->|(r & _ & _ & ->)]; eauto). destruct Fu as (u' & ->).
      assert (Fw : exists w', w = Fin w') by (destruct (g_vals _ _ _ Sw) as [->|(r & _ & _ & ->)]; [discriminate | eauto]). destruct Fw as (w' & ->).
      assert (K0 : 0 <= qf 1 2) by (vm_compute; discriminate). assert (K1 : qf 1 2 <= 1) by (vm_compute; discriminate).
      destruct (ordinate_between f g x i j u' w' (qf 1 2) C Su Sw K0 K1) as (p & -> & P1 & P2).
      pose proof C as (P & _ & (y & Ly & _) & _).
      assert (Fx : exists c, x = Fin c) by (destruct x as [c| | |]; [eauto | destruct y; discriminate | discriminate | discriminate]). destruct Fx as (c & ->).
      exists p, c, i, u', j, w'. split; [reflexivity|]. split; [exact C|]. split; [apply nle_Fin, P|]. apply nlt_Fin in L. auto.
    - left. split; [|exact N]. rewrite E. cbn [bind]. destruct f_last as (i' & F). destruct g_last as (j' & G).
      assert (X : xm = PInf).
      { assert (Y : nle PInf xm) by (apply Hd; [reflexivity | split; eauto]). destruct xm; try discriminate; reflexivity. }
      subst xm. destruct (StepAt_fun _ _ _ _ _ _ F Su) as [_ <-]. destruct (StepAt_fun _ _ _ _ _ _ G Sw) as [_ <-]. reflexivity.
  Qed.

  Lemma price_total : exists p, find_competitive_price S d = Ok p.
  Proof. destruct price_cases as [[E _]|(p & c & i & u & j & w & E & _)]; eauto. Qed.

  (** a finite price separates a buyer from a seller and maximises the volume *)
  Lemma price_finite p : find_competitive_price S d = Ok (Fin p) ->
    (exists rb rs, In rb d /\ In rs d /\ buying rb = true /\ buying rs = false /\ price rs <= p /\ p <= price rb /\ price rs < price rb) /\
    forall q, qmin (demand_at d q) (supply_at d q) <= qmin (demand_at d p) (supply_at d p).
  Proof.
    intro E. destruct price_cases as [[E' _]|(p' & c & i & u & j & w & E' & C & H0 & Su & Sw & P1 & P2 & L)]; rewrite E in E'; [discriminate|].
    injection E' as <-. split.
    - destruct (f_vals _ _ _ Su) as [X|(rb & B1 & B2 & X)]; apply Fin_inj in X; destruct (g_vals _ _ _ Sw) as [Y|(rs & S1 & S2 & Y)]; try discriminate; apply Fin_inj in Y; subst.
      + specialize (Hp rs S1). exfalso; qlra.
      + exists rb, rs. auto 10.
    - assert (A1 : c <= demand_at d p).
      { destruct (qlt_spec 0 c) as [Lc|Lc]; [|pose proof (demand_at_nonneg d p Hq); qlra].
        destruct (qle_spec c (total_demand d)) as [T|T].
        - destruct (demand_inverse S d Hq c Lc T) as (u' & V & D1 & _). apply f_at in V; [|exact H0]. destruct V as (i' & V).
          destruct (StepAt_fun _ _ _ _ _ _ V Su) as [_ X]. apply Fin_inj in X. subst u'. pose proof (demand_at_le d p u Hq P2). qlra.
        - pose proof (demand_beyond S d Hq c H0 T) as V. apply f_at in V; [|exact H0]. destruct V as (i' & V).
          destruct (StepAt_fun _ _ _ _ _ _ V Su) as [_ X]. apply Fin_inj in X. subst u.
          destruct (g_vals _ _ _ Sw) as [Y|(rs & S1 & S2 & Y)]; [discriminate|]. apply Fin_inj in Y. subst w. specialize (Hp rs S1). exfalso; qlra. }
      assert (A2 : c <= supply_at d p).
      { destruct (qlt_spec 0 c) as [Lc|Lc]; [|pose proof (supply_at_nonneg d p Hq); qlra].
        destruct (qle_spec c (total_supply d)) as [T|T].
        - destruct (supply_inverse S d Hq c Lc T) as (u' & V & D1 & _). apply g_at in V; [|exact H0]. destruct V as (i' & V).
          destruct (StepAt_fun _ _ _ _ _ _ V Sw) as [_ X]. apply Fin_inj in X. subst u'. pose proof (supply_at_le d w p Hq P1). qlra.
        - pose proof (supply_beyond S d Hq c H0 T) as V. apply g_at in V; [|exact H0]. destruct V as (i' & V).
          destruct (StepAt_fun _ _ _ _ _ _ V Sw) as [_ X]. discriminate. }
      intro q. apply Qcle_trans with c; [|apply qmin_glb; assumption].
      apply Qcnot_lt_le. intro Ly. set (y := qmin (demand_at d q) (supply_at d q)) in *.
      assert (Y1 : y <= demand_at d q) by apply qmin_l. assert (Y2 : y <= supply_at d q) by apply qmin_r.
      assert (Y0 : 0 < y) by qlra.
      destruct (demand_inverse S d Hq y Y0) as (p1 & V1 & _ & B1 & _); [pose proof (demand_at_total d q Hq); qlra|].
      destruct (supply_inverse S d Hq y Y0) as (p2 & V2 & _ & B2 & _); [pose proof (supply_at_total d q Hq); qlra|].
      apply f_at in V1; [|qlra]. apply g_at in V2; [|qlra]. destruct V1 as (i1 & V1), V2 as (i2 & V2).
      destruct C as (_ & _ & _ & C). destruct (C (Fin y) _ _ _ _ (proj2 (nle_Fin 0 y) (Qclt_le_weak _ _ Y0)) V1 V2) as [_ C'].
      specialize (C' (proj2 (nlt_Fin c y) Ly)). apply nlt_Fin in C'.
      destruct (qle_spec q p1) as [Q1|Q1]; [|pose proof (demand_mono d p1 q Hq Q1); qlra].
      destruct (qle_spec p2 q) as [Q2|Q2]; [|pose proof (supply_mono d q p2 Hq Q2); qlra]. qlra.
  Qed.

  (** strict gains from trade and no touching curves: the price is finite *)
  Lemma price_exists rb rs : In rb d -> In rs d -> buying rb = true -> buying rs = false -> price rs < price rb ->
    (forall b s, In b d -> In s d -> buying b = true -> buying s = false -> price b <> price s) ->
    (forall s, In s d -> buying s = false -> 0 < price s) ->
    exists p, find_competitive_price S d = Ok (Fin p).
  Proof.
    intros Rb Rs Bb Bs L NT Pos. destruct price_cases as [[_ N]|(p & c & i & u & j & w & E & _)]; [|eauto]. exfalso.
    destruct (crossing_exists f g (demand_ends S d Hq) (supply_ends S d Hq) (demand_decreasing S d Hp) (supply_increasing S d)) as (x & C); [| | |exact (N x C)].
    - intros y i u j w _ F G. destruct (f_vals _ _ _ F) as [->|(b & B1 & B2 & ->)]; destruct (g_vals _ _ _ G) as [->|(s & S1 & S2 & ->)]; try (right; reflexivity).
      + right. apply nlt_Fin, Pos; assumption.
      + specialize (NT b s B1 S1 B2 S2). destruct (qlt_spec (price s) (price b)) as [X|X]; [left; apply nlt_Fin, X|].
        right. apply nlt_Fin. destruct (qlt_spec (price b) (price s)) as [Y|Y]; [exact Y|]. exfalso. apply NT. apply Qcle_antisym; assumption.
    - assert (In rb (s_desc S (buyers d))) as I1 by (apply desc_in; auto). assert (In rs (s_asc S (sellers d))) as I2 by (apply asc_in; auto).
      pose proof (step_search_zero (s_desc S (buyers d)) (Fin 0)) as Z1. pose proof (step_search_zero (s_asc S (sellers d)) PInf) as Z2.
      pose proof (s_desc_sorted S (buyers d)) as S1. pose proof (s_asc_sorted S (sellers d)) as S2.
      assert (Q1 : forall r, In r (s_desc S (buyers d)) -> 0 <= qty r) by (intros r H; apply Hq; apply desc_in in H; apply H).
      assert (Q2 : forall r, In r (s_asc S (sellers d)) -> 0 <= qty r) by (intros r H; apply Hq; apply asc_in in H; apply H).
      specialize (Z1 Q1). specialize (Z2 Q2).
      destruct (s_desc S (buyers d)) as [|b lb] eqn:El; [contradiction|]. destruct (s_asc S (sellers d)) as [|s ls] eqn:Es; [contradiction|].
      apply StronglySorted_inv in S1. apply StronglySorted_inv in S2. destruct S1 as [_ S1], S2 as [_ S2]. rewrite Forall_forall in S1, S2.
      assert (X1 : price rb <= price b) by (destruct I1 as [->|I1]; [apply Qcle_refl | apply S1, I1]).
      assert (X2 : price s <= price rs) by (destruct I2 as [->|I2]; [apply Qcle_refl | apply S2, I2]).
      apply step_search_iff in Z1. apply step_search_iff in Z2. destruct Z1 as (i & Z1), Z2 as (j & Z2).
      exists (Fin 0), i, (Fin (price b)), j, (Fin (price s)).
      unfold demand_curve_from_bids, supply_curve_from_bids. simpl fst. rewrite El, Es, !curve_rows_crows.
      split; [reflexivity|]. split; [exact Z1|]. split; [exact Z2|]. apply nlt_Fin. qlra.
    - destruct f_last as (i & F). destruct g_last as (j & G). exists PInf, i, (Fin 0), j, PInf. auto.
  Qed.
End Price.
