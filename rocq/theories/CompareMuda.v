(** MUDA never trades more than can be traded at one price. *)
From Verif Require Import QcTac Num ModelBase ModelCurves ModelHuang ModelMuda ListFacts Spec SpecTrade SpecMuda SpecAlloc
  P2PTrades MudaPrice MudaFacts MudaTop MudaWitness.

Lemma halves_sum (h : row -> Qc) (P : row -> bool) d fl :
  qsumf h (filter P d) = qsumf h (filter P (rows_in (left_of d fl) d)) + qsumf h (filter P (rows_in (right_of d fl) d)).
Proof.
  unfold rows_in. rewrite !filter_filter.
  rewrite (qsumf_filter_split h (fun r => existsb (Nat.eqb (lbl r)) (left_of d fl)) (filter P d)), !filter_filter. f_equal; f_equal.
  - apply filter_ext. intro r. apply andb_comm.
  - apply filter_ext_in. intros r Hr. rewrite (right_mem d fl r Hr). apply andb_comm.
Qed.

Section Muda.
  Variables (S : sorter) (d : df) (fl : list bool) (tm : transmgr) (l r : list nat) (pl pr : num) (fees : list Qc).
  Hypotheses (Hq : qty_nonneg d) (Hp : price_nonneg d) (Hu : labels_unique d).
  Hypothesis E : muda S d fl = Ok (tm, XMuda l r pl pr fees).

  Lemma muda_total : bought d (tm_trans tm) = SpecMuda.volume (rows_in l d) pr + SpecMuda.volume (rows_in r d) pl.
  Proof.
    destruct (muda_ok S d fl tm _ Hq Hu E) as (tlL & tlR & pl' & pr' & f1 & f2 & M & Et & Ex). injection Ex as -> -> -> -> ->.
    destruct (top_safe S d fl tm _ Hq Hu E) as (Rf & _).
    assert (H : forall h p, half_of (XMuda (left_of d fl) (right_of d fl) pl' pr' f2) d h p ->
      qsumf (fun x => traded_by (lbl x) (tm_trans tm)) (all_b h) = SpecMuda.volume h p).
    { intros h p Hh. destruct (half_facts S d fl tm _ Hq Hu E h p Hh) as (fs & tl & fs' & R & A & _ & T).
      destruct (top_volume S d fl tm _ Hq Hu E h p Hh) as [V _]. rewrite <- V, A.
      rewrite (bought_by h tl); [| |exact (res_refer _ _ _ _ _ R)].
      - apply qsumf_ext. intros x Hx. apply filter_In in Hx. apply T, Hx.
      - destruct Hh as [[-> _]|[-> _]]; apply rows_in_unique, Hu. }
    rewrite (bought_by d _ Hu Rf). unfold all_b. rewrite (halves_sum _ _ d fl). f_equal; apply H; cbn; auto.
  Qed.

  Theorem muda_one_price c : 0 <= c -> (forall p, qmin (demand_at d p) (supply_at d p) <= c) -> bought d (tm_trans tm) <= c.
  Proof.
    intros C0 M. rewrite muda_total.
    destruct (muda_ok S d fl tm _ Hq Hu E) as (tlL & tlR & pl' & pr' & f1 & f2 & MO & _ & Ex). injection Ex as -> -> -> -> ->.
    set (hl := rows_in (left_of d fl) d). set (hr := rows_in (right_of d fl) d).
    assert (D : forall p, demand_at d p = demand_at hl p + demand_at hr p) by (intro p; apply halves_sum).
    assert (Su : forall p, supply_at d p = supply_at hl p + supply_at hr p) by (intro p; apply halves_sum).
    assert (Hql : qty_nonneg hl) by (apply half_qty, Hq). assert (Hqr : qty_nonneg hr) by (apply half_qty, Hq).
    assert (Hpl : price_nonneg hl) by (intros x Hx; apply rows_in_In in Hx; apply Hp, Hx).
    assert (Hpr : price_nonneg hr) by (intros x Hx; apply rows_in_In in Hx; apply Hp, Hx).
    assert (NN : forall h p, qty_nonneg h -> 0 <= qmin (demand_at h p) (supply_at h p)).
    { intros h p Hh. pose proof (demand_at_nonneg h p Hh). pose proof (supply_at_nonneg h p Hh).
      destruct (qmin_case (demand_at h p) (supply_at h p)) as [[-> _]|[-> _]]; assumption. }
    assert (Mn : forall a b, qmin a b <= a /\ qmin a b <= b).
    { intros a b. destruct (qmin_case a b) as [[-> ?]|[-> ?]]; split; qlra. }
    assert (Use : forall p x y, x <= demand_at hl p -> x <= supply_at hl p -> y <= demand_at hr p -> y <= supply_at hr p -> x + y <= c).
    { intros p x y A1 A2 A3 A4. specialize (M p). rewrite D, Su in M.
      destruct (qmin_case (demand_at hl p + demand_at hr p) (supply_at hl p + supply_at hr p)) as [[E0 ?]|[E0 ?]]; rewrite E0 in M; qlra. }
    destruct (price_or_infinite S hl Hql Hpl) as [Pl|(ql & Pl)]; pose proof (mo_pl _ _ _ _ _ _ _ _ _ MO) as Fl; fold hl in Fl; rewrite Pl in Fl; injection Fl as <-;
    destruct (price_or_infinite S hr Hqr Hpr) as [Pr|(qr & Pr)]; pose proof (mo_pr _ _ _ _ _ _ _ _ _ MO) as Fr; fold hr in Fr; rewrite Pr in Fr; injection Fr as <-;
    cbn [SpecMuda.volume].
    - qlra.
    - destruct (Mn (demand_at hl qr) (supply_at hl qr)). apply (Use qr); try assumption; [apply demand_at_nonneg | apply supply_at_nonneg]; assumption.
    - destruct (Mn (demand_at hr ql) (supply_at hr ql)). apply (Use ql); try assumption; [apply demand_at_nonneg | apply supply_at_nonneg]; assumption.
    - destruct (price_finite S hl Hql Hpl ql Pl) as (_ & Cl). specialize (Cl qr).
      destruct (Mn (demand_at hl ql) (supply_at hl ql)), (Mn (demand_at hr ql) (supply_at hr ql)).
      apply (Use ql); try assumption; qlra.
  Qed.
End Muda.
