(** The largest quantity that can be traded at one price is at least half of what can be traded at all. *)
From Verif Require Import QcTac Num ModelBase ListFacts Spec SpecAlloc AllocFacts MudaPrice.

Lemma pick_high (f : Qc -> bool) l : (forall x, In x l -> f x = false) \/
  exists x, In x l /\ f x = true /\ forall y, In y l -> f y = true -> y <= x.
Proof.
  induction l as [|a l IH]; [left; intros ? []|]. destruct (f a) eqn:E.
  - right. destruct IH as [N|(x & I & F & M)].
    + exists a. split; [left; reflexivity|]. split; [exact E|]. intros y [->|Hy] Fy; [qlra|]. rewrite (N y Hy) in Fy. discriminate.
    + destruct (qle_spec a x) as [L|L].
      * exists x. split; [right; exact I|]. split; [exact F|]. intros y [->|Hy] Fy; [exact L | apply M; assumption].
      * exists a. split; [left; reflexivity|]. split; [exact E|]. intros y [->|Hy] Fy; [qlra|]. specialize (M y Hy Fy). qlra.
  - destruct IH as [N|(x & I & F & M)].
    + left. intros y [->|Hy]; auto.
    + right. exists x. split; [right; exact I|]. split; [exact F|]. intros y [->|Hy] Fy; [congruence | apply M; assumption].
Qed.
Lemma pick_low (f : Qc -> bool) l : (forall x, In x l -> f x = false) \/
  exists x, In x l /\ f x = true /\ forall y, In y l -> f y = true -> x <= y.
Proof.
  destruct (pick_high (fun x => f (- x)) (map Qcopp l)) as [N|(x & I & F & M)].
  - left. intros x Hx. rewrite <- (Qcopp_involutive x). apply N, in_map, Hx.
  - right. apply in_map_iff in I. destruct I as (y & <- & Hy). exists y. split; [exact Hy|]. rewrite Qcopp_involutive in F. split; [exact F|].
    intros z Hz Fz. specialize (M (- z) (in_map _ _ _ Hz)). rewrite Qcopp_involutive in M. specialize (M Fz). qlra.
Qed.

Section Cover.
  Variables (d : df) (x : alloc).
  Hypothesis Ok : alloc_ok d x.
  Hypothesis Co : alloc_compat d x.

  (** buyers in [f], sellers in [g], and every compatible pair has its buyer in [f] or its seller in [g] *)
  Lemma volume_cover (f g : row -> bool) :
    (forall b s, In b (all_b d) -> In s (all_s d) -> price s <= price b -> f b = true \/ g s = true) ->
    volume d x <= qsumf qty (filter f (all_b d)) + qsumf qty (filter g (all_s d)).
  Proof.
    intro H. destruct Ok as (O0 & Ob & Os). unfold volume.
    rewrite (qsumf_filter_split _ f (all_b d)).
    assert (A : qsumf (fun b => qsumf (fun s => x (lbl b) (lbl s)) (all_s d)) (filter f (all_b d)) <= qsumf qty (filter f (all_b d))).
    { apply qsumf_le. intros b Hb. apply filter_In in Hb. apply Ob, Hb. }
    assert (B : qsumf (fun b => qsumf (fun s => x (lbl b) (lbl s)) (all_s d)) (filter (fun b => negb (f b)) (all_b d)) <= qsumf qty (filter g (all_s d))).
    { rewrite (qsumf_swap (fun b s => x (lbl b) (lbl s))). rewrite (qsumf_filter qty g). apply qsumf_le. intros s Hs.
      destruct (g s) eqn:G.
      - apply Qcle_trans with (qsumf (fun b => x (lbl b) (lbl s)) (all_b d)); [|apply Os, Hs]. rewrite qsumf_filter. apply qsumf_le.
        intros b Hb. specialize (O0 b s Hb Hs). destruct (negb (f b)); qlra.
      - rewrite qsumf_zero; [qlra|]. intros b Hb. apply filter_In in Hb. destruct Hb as [Hb Fb].
        destruct (qle_spec (price s) (price b)) as [L|L]; [|apply Co; assumption].
        destruct (H b s Hb Hs L) as [E|E]; [rewrite E in Fb; discriminate | congruence]. }
    qlra.
  Qed.
  Lemma volume_above p : volume d x <= demand_above d p + supply_at d p.
  Proof.
    eapply Qcle_trans; [apply (volume_cover (fun b => qltb p (price b)) (fun s => qleb (price s) p))|].
    - intros b s _ _ L. destruct (qlt_spec p (price b)); [left; reflexivity|]. right. apply qleb_le. qlra.
    - unfold demand_above, supply_at, all_b, all_s. rewrite !filter_filter. apply Qcle_refl.
  Qed.
  Lemma volume_at p : volume d x <= demand_at d p + supply_below d p.
  Proof.
    eapply Qcle_trans; [apply (volume_cover (fun b => qleb p (price b)) (fun s => qltb (price s) p))|].
    - intros b s _ _ L. destruct (qle_spec p (price b)); [left; reflexivity|]. right. apply qltb_lt. qlra.
    - unfold demand_at, supply_below, all_b, all_s. rewrite !filter_filter. apply Qcle_refl.
  Qed.
End Cover.

Section Split.
  Variable d : df.
  Hypothesis Hq : qty_nonneg d.

  Lemma supply_none p : (forall r, In r d -> p <= price r) -> supply_below d p = 0.
  Proof.
    intro H. unfold supply_below. rewrite qsumf_filter. apply qsumf_zero. intros r Hr. specialize (H r Hr).
    destruct (buying r); [reflexivity|]. cbn [negb andb]. destruct (qlt_spec (price r) p); [qlra | reflexivity].
  Qed.
  Lemma demand_none p : (forall r, In r d -> price r <= p) -> demand_above d p = 0.
  Proof.
    intro H. unfold demand_above. rewrite qsumf_filter. apply qsumf_zero. intros r Hr. specialize (H r Hr).
    destruct (buying r); [|reflexivity]. cbn [andb]. destruct (qlt_spec p (price r)); [qlra | reflexivity].
  Qed.
  Lemma demand_next p q : (forall r, In r d -> p < price r -> q <= price r) -> demand_above d p <= demand_at d q.
  Proof.
    intro H. unfold demand_above, demand_at. rewrite !qsumf_filter. apply qsumf_le. intros r Hr. specialize (H r Hr). specialize (Hq r Hr).
    destruct (buying r); [|cbn; qlra]. cbn [andb]. destruct (qlt_spec p (price r)) as [L|L]; destruct (qle_spec q (price r)); try qlra.
    specialize (H L). qlra.
  Qed.

  (** a price that separates: no more than [c] can be bought above it and no more than [c] sold up to it, or ... *)
  Lemma separating c : 0 <= c -> (forall p, qmin (demand_at d p) (supply_at d p) <= c) ->
    exists p, (demand_above d p <= c /\ supply_at d p <= c) \/ (demand_at d p <= c /\ supply_below d p <= c).
  Proof.
    intros C0 M.
    assert (D : forall p, c < supply_at d p -> demand_at d p <= c).
    { intros p L. specialize (M p). destruct (qmin_case (demand_at d p) (supply_at d p)) as [[E ?]|[E ?]]; rewrite E in M; qlra. }
    destruct (pick_high (fun p => qleb (supply_at d p) c) (map price d)) as [N|(P & IP & FP & MP)].
    - destruct (pick_low (fun _ => true) (map price d)) as [Nn|(m & Im & _ & Mm)].
      + exists 0. right. split.
        * unfold demand_at. rewrite qsumf_filter, qsumf_zero; [exact C0|]. intros r Hr. specialize (Nn (price r) (in_map _ _ _ Hr)). discriminate.
        * rewrite supply_none; [exact C0|]. intros r Hr. specialize (Nn (price r) (in_map _ _ _ Hr)). discriminate.
      + exists m. right. split.
        * apply D. specialize (N m Im). apply qleb_gt in N. exact N.
        * rewrite supply_none; [exact C0|]. intros r Hr. apply Mm; [apply in_map, Hr | reflexivity].
    - exists P. left. apply qleb_le in FP. split; [|exact FP].
      destruct (pick_low (fun p => qltb P p) (map price d)) as [Nn|(m & Im & Fm & Mm)].
      + rewrite demand_none; [exact C0|]. intros r Hr. specialize (Nn (price r) (in_map _ _ _ Hr)). apply qltb_ge in Nn. exact Nn.
      + apply Qcle_trans with (demand_at d m).
        * apply demand_next. intros r Hr L. apply Mm; [apply in_map, Hr | apply qltb_lt, L].
        * apply D. destruct (qlt_spec c (supply_at d m)) as [L|L]; [exact L|]. exfalso.
          apply qltb_lt in Fm. specialize (MP m Im (proj2 (qleb_le _ _) L)). qlra.
  Qed.

  Theorem one_price_half c (x : alloc) : 0 <= c -> (forall p, qmin (demand_at d p) (supply_at d p) <= c) ->
    alloc_ok d x -> alloc_compat d x -> volume d x <= qz 2 * c.
  Proof.
    intros C0 M O C. assert (T : qz 2 * c = c + c) by (replace (qz 2) with (1 + 1) by (apply Qc_is_canon; reflexivity); ring). rewrite T.
    destruct (separating c C0 M) as (p & [[A B]|[A B]]).
    - pose proof (volume_above d x O C p). qlra.
    - pose proof (volume_at d x O C p). qlra.
  Qed.
End Split.
