(** No other way of trading at the price of a half, among the bids that accept this price, gives more welfare. *)
From Verif Require Import QcTac Num ModelBase ModelHuang ModelMuda Spec SpecTrade SpecMuda SpecStats SpecAlloc
  ListFacts TradeFacts P2PTrades AllocFacts MudaOutcome MudaFacts MudaTop HuangLoss.

Lemma side_of_b d : side_of true d = all_b d.
Proof. apply filter_ext. intro r. destruct (buying r); reflexivity. Qed.

Lemma gains_welfare h q x :
  welfare h price x = fill_gain (side_of true h) q (fun i => qsumf (fun s => x i (lbl s)) (all_s h)) +
                      fill_gain (side_of false h) q (fun j => qsumf (fun b => x (lbl b) j) (all_b h)).
Proof.
  rewrite welfare_sums. unfold fill_gain. rewrite (side_of_b h). change (side_of false h) with (all_s h).
  rewrite (qsumf_ext (fun r => gain q r * qsumf (fun s => x (lbl r) (lbl s)) (all_s h))
    (fun r => price r * qsumf (fun s => x (lbl r) (lbl s)) (all_s h) - q * qsumf (fun s => x (lbl r) (lbl s)) (all_s h)) (all_b h)).
  2:{ intros r Hr. apply filter_In in Hr. unfold gain. rewrite (proj2 Hr). ring. }
  rewrite (qsumf_ext (fun r => gain q r * qsumf (fun b => x (lbl b) (lbl r)) (all_b h))
    (fun r => q * qsumf (fun b => x (lbl b) (lbl r)) (all_b h) - price r * qsumf (fun b => x (lbl b) (lbl r)) (all_b h)) (all_s h)).
  2:{ intros r Hr. apply filter_In in Hr. destruct Hr as [_ Hr]. apply negb_true_iff in Hr. unfold gain. rewrite Hr. ring. }
  rewrite !qsumf_minus, !qsumf_scale. rewrite (qsumf_swap (fun s b => x (lbl b) (lbl s))). ring.
Qed.

Lemma gains_surplus h tl q : qsumf (fun b => traded_by (lbl b) tl) (all_b h) = qsumf (fun s => traded_by (lbl s) tl) (all_s h) ->
  traded_surplus price h tl = fill_gain (side_of true h) q (fun i => traded_by i tl) + fill_gain (side_of false h) q (fun i => traded_by i tl).
Proof.
  intro Bal. unfold traded_surplus, fill_gain. rewrite (side_of_b h). change (side_of false h) with (all_s h). rewrite (qsumf_filter_split _ buying h). fold (all_b h) (all_s h).
  rewrite (qsumf_ext (fun r => (if buying r then price r else - price r) * traded_by (lbl r) tl) (fun r => gain q r * traded_by (lbl r) tl + q * traded_by (lbl r) tl) (all_b h)).
  2:{ intros r Hr. apply filter_In in Hr. unfold gain. rewrite (proj2 Hr). ring. }
  rewrite (qsumf_ext (fun r => (if buying r then price r else - price r) * traded_by (lbl r) tl) (fun r => gain q r * traded_by (lbl r) tl - q * traded_by (lbl r) tl) (all_s h)).
  2:{ intros r Hr. apply filter_In in Hr. destruct Hr as [_ Br]. apply negb_true_iff in Br. unfold gain. rewrite Br. ring. }
  rewrite qsumf_plus, qsumf_minus, !qsumf_scale, Bal. ring.
Qed.

(** only pairs that both accept the price [q] *)
Section Half.
  Variables (S : sorter) (d : df) (fl : list bool) (tm : transmgr) (ex : extra).
  Hypothesis Hq : qty_nonneg d.
  Hypothesis Hu : labels_unique d.
  Hypothesis E : muda S d fl = Ok (tm, ex).
  Variables (h : df) (q : Qc).
  Hypothesis H : half_of ex d h (Fin q).

  Lemma half_balance : qsumf (fun b => traded_by (lbl b) (tm_trans tm)) (all_b h) = qsumf (fun s => traded_by (lbl s) (tm_trans tm)) (all_s h).
  Proof.
    destruct (half_facts S d fl tm ex Hq Hu E h (Fin q) H) as (fees & tl & fees' & R & _ & _ & T). simpl in R.
    assert (Hh : labels_unique h).
    { destruct ex as [| | l r pl pr f | |]; try destruct H as []; destruct H as [[-> _]|[-> _]]; apply NoDup_filter_map; exact Hu. }
    rewrite (qsumf_ext _ (fun b => traded_by (lbl b) tl) (all_b h)) by (intros r Hr; apply T; apply filter_In in Hr; tauto).
    rewrite (qsumf_ext _ (fun b => traded_by (lbl b) tl) (all_s h)) by (intros r Hr; apply T; apply filter_In in Hr; tauto).
    rewrite <- bought_by, <- sold_by by (exact Hh || apply (ho_refer _ _ _ _ _ R)). rewrite (ho_bought _ _ _ _ _ R), (ho_sold _ _ _ _ _ R). reflexivity.
  Qed.

  Lemma half_welfare x : alloc_ok h x ->
    (forall b s, In b (all_b h) -> In s (all_s h) -> price b < q \/ q < price s -> x (lbl b) (lbl s) = 0) ->
    welfare h price x <= traded_surplus price h (tm_trans tm).
  Proof.
    intros (X0 & X1 & X2) W. rewrite (gains_welfare h q), (gains_surplus h (tm_trans tm) q half_balance).
    destruct (top_priority S d fl tm ex Hq Hu E h q H) as (_ & _ & Bst).
    pose proof (proj2 (Bst true) (fun i => qsumf (fun s => x i (lbl s)) (all_s h))) as G1.
    pose proof (proj2 (Bst false) (fun j => qsumf (fun b => x (lbl b) j) (all_b h))) as G2. cbn [side_qty negb] in G1, G2.
    assert (F1 : fill (side_of true h) (supply_at h q) (fun i => qsumf (fun s => x i (lbl s)) (all_s h))).
    { rewrite (side_of_b h). split.
      - intros b Hb. split; [|apply X1, Hb]. apply qsumf_nonneg. intros s Hs. apply X0; assumption.
      - rewrite (qsumf_swap (fun b s => x (lbl b) (lbl s))). unfold supply_at, all_s.
        rewrite !qsumf_filter. apply qsumf_le. intros s Hs. destruct (buying s) eqn:Bs; cbn [negb andb]; [apply Qcle_refl|].
        assert (Is : In s (all_s h)) by (apply (proj2 (filter_In _ _ _)); rewrite Bs; auto).
        destruct (qle_spec (price s) q) as [G|G]; [apply X2, Is|].
        rewrite qsumf_zero; [apply Qcle_refl|]. intros b Hb. apply W; auto. }
    assert (F2 : fill (side_of false h) (demand_at h q) (fun j => qsumf (fun b => x (lbl b) j) (all_b h))).
    { change (side_of false h) with (all_s h). split.
      - intros s Hs. split; [|apply X2, Hs]. apply qsumf_nonneg. intros b Hb. apply X0; assumption.
      - rewrite (qsumf_swap (fun s b => x (lbl b) (lbl s))). unfold demand_at, all_b.
        rewrite !qsumf_filter. apply qsumf_le. intros b Hb. destruct (buying b) eqn:Bb; cbn [negb andb]; [|apply Qcle_refl].
        assert (Ib : In b (all_b h)) by (apply (proj2 (filter_In _ _ _)); auto).
        destruct (qle_spec q (price b)) as [G|G]; [apply X1, Ib|].
        rewrite qsumf_zero; [apply Qcle_refl|]. intros s Hs. apply W; auto. }
    specialize (G1 F1). specialize (G2 F2). qlra.
  Qed.
End Half.
