(** The traded volume with infinite and NaN prices. *)
From Verif Require Import QcTac Num NumFacts ListFacts ModelBase ModelHuang ModelP2P ModelMuda ModelMarket ModelStats ModelAny ModelWild ModelWildMuda ModelWildMarket ModelWildP2P ModelWildVolume
  Spec SpecAlloc SpecWild SpecWildMuda SpecWildMarket SpecWildP2P SpecWildVolume LPFacts StatsFacts P2PTrades MoreFacts WildMuda WildMudaHalf WildP2P.

Lemma cap_nan_side P d (f : bool -> bool) : filter (fun r => f (buying r)) (map (cap_nan P) d) = map (cap_nan P) (filter (fun x => f (w_buying x)) d).
Proof. induction d as [|x d IH]; [reflexivity|]. cbn [map filter]. rewrite IH. change (buying (cap_nan P x)) with (w_buying x). destruct (f (w_buying x)); reflexivity. Qed.
Lemma cap_nan_buyers P d : buyers (map (cap_nan P) d) = map (cap_nan P) (w_buyers d).
Proof. exact (cap_nan_side P d (fun b => b)). Qed.
Lemma cap_nan_sellers P d : sellers (map (cap_nan P) d) = map (cap_nan P) (w_sellers d).
Proof. exact (cap_nan_side P d negb). Qed.
Lemma cap_nan_lbl P d : map lbl (map (cap_nan P) d) = map w_lbl d.
Proof. rewrite map_map. reflexivity. Qed.
Lemma cap_nan_nth P d i : nth_error (map (cap_nan P) d) i = option_map (cap_nan P) (nth_error d i).
Proof. revert i. induction d as [|x d IH]; intros [|i]; cbn; auto. Qed.

(** a buyer and a seller compare as before *)
Lemma cap_nan_le P x y : 0 < P -> (forall q, w_price x = Fin q -> - P < q /\ q < P) -> (forall q, w_price y = Fin q -> - P < q /\ q < P) -> w_buying x = true -> w_buying y = false ->
  qleb (price (cap_nan P y)) (price (cap_nan P x)) = nleb (w_price y) (w_price x).
Proof.
  intros HP Hx Hy Bx By. cbn [cap_nan price]. rewrite Bx, By. destruct (w_price x) as [a| | |], (w_price y) as [b| | |]; cbn [cap nleb];
    repeat match goal with H : forall q, Fin ?a = Fin q -> _ |- _ => specialize (H a eq_refl) end;
    try reflexivity; match goal with |- qleb ?x ?y = _ => destruct (qle_spec x y); try reflexivity; exfalso; qlra end.
Qed.

Section Cap.
  Variable P : Qc.
  Variable d : wdf.
  Hypothesis HP : w_positions d.
  Hypothesis Hb : beyond P d.

  Lemma at_position x : In x d -> nth_error d (w_lbl x) = Some x.
  Proof.
    intro H. apply In_nth_error in H. destruct H as (i & E). assert (L := map_nth_error w_lbl _ _ E). rewrite HP in L.
    assert (K : (i < length d)%nat) by (apply nth_error_Some; congruence). rewrite (nth_error_nth' _ 0%nat) in L by (rewrite seq_length; exact K). rewrite seq_nth in L by exact K. injection L as <-. exact E.
  Qed.
  Lemma pair_sides v : In v (w_pair_index d) -> exists x y, In x d /\ In y d /\ w_buying x = true /\ w_buying y = false /\ v = (w_lbl x, w_lbl y).
  Proof.
    intro H. unfold w_pair_index in H. apply in_flat_map in H. destruct H as (i & Hi & H). apply in_map_iff in Hi. destruct Hi as (x & <- & Hx). rewrite map_map in H. apply in_map_iff in H. destruct H as (y & <- & Hy).
    apply filter_In in Hx. apply filter_In in Hy. destruct Hx as [Hx Bx], Hy as [Hy By]. apply negb_true_iff in By. exists x, y. auto 10.
  Qed.
  Lemma index_cap l : (forall v, In v l -> In v (w_pair_index d)) -> w_compatible d l = compatible (map (cap_nan P) d) l.
  Proof.
    induction l as [|v l IH]; intro H; [reflexivity|]. cbn [w_compatible compatible]. rewrite <- IH by (intros w Hw; apply H; right; exact Hw).
    destruct (pair_sides v (H v (or_introl eq_refl))) as (x & y & Hx & Hy & Bx & By & ->). cbn [fst snd]. unfold w_iloc_price, iloc_price. rewrite !cap_nan_nth, (at_position x Hx), (at_position y Hy). cbn [option_map bind].
    destruct (w_compatible d l); cbn [bind]; [|reflexivity]. rewrite cap_nan_le; auto; [apply Hb | intros q E; exact (proj2 Hb x q Hx E) | intros q E; exact (proj2 Hb y q Hy E)].
  Qed.
  Lemma mapM_ext' {A B} (f g : A -> res B) l : (forall x, f x = g x) -> mapM f l = mapM g l.
  Proof. intro H. induction l as [|x l IH]; [reflexivity|]. cbn [mapM]. rewrite H, IH. reflexivity. Qed.
  Lemma iloc_cap i : iloc_qty (map (cap_nan P) d) i = w_iloc_qty d i.
  Proof. unfold iloc_qty, w_iloc_qty. rewrite cap_nan_nth. destruct (nth_error d i); reflexivity. Qed.
  Theorem volume_cap : w_volume_lp d = volume_lp (map (cap_nan P) d).
  Proof.
    unfold w_volume_lp, volume_lp. rewrite (index_cap (w_pair_index d)) by auto.
    replace (pair_index (map (cap_nan P) d)) with (w_pair_index d) by (unfold pair_index, w_pair_index; rewrite cap_nan_buyers, cap_nan_sellers, !cap_nan_lbl; reflexivity).
    destruct (compatible _ _) as [index|e]; [|reflexivity]. cbn [bind].
    unfold buyer_cons, seller_cons, w_buyer_cons, w_seller_cons. rewrite cap_nan_buyers, cap_nan_sellers, !cap_nan_lbl.
    rewrite (mapM_ext' (fun b => bind (iloc_qty (map (cap_nan P) d) b) _) (fun b => bind (w_iloc_qty d b) (fun q => Ok (filter (fun v => var_mem v index) (map (fun j => (b, j)) (map w_lbl (w_sellers d))), q)))) by (intro b; rewrite iloc_cap; reflexivity).
    rewrite (mapM_ext' (fun s => bind (iloc_qty (map (cap_nan P) d) s) _) (fun s => bind (w_iloc_qty d s) (fun q => Ok (filter (fun v => var_mem v index) (map (fun i => (i, s)) (map w_lbl (w_buyers d))), q)))) by (intro b; rewrite iloc_cap; reflexivity).
    reflexivity.
  Qed.
  Theorem percentage_cap sv ts tl : map t_qty tl = map x_qty ts -> w_percentage sv d ts = percentage_traded sv (map (cap_nan P) d) tl.
  Proof. intro E. unfold w_percentage, percentage_traded, w_max_volume, maximum_traded_volume. rewrite volume_cap, E. reflexivity. Qed.

  Lemma alloc_cap a : w_alloc d a <-> alloc_ok (map (cap_nan P) d) a /\ alloc_compat (map (cap_nan P) d) a.
  Proof.
    unfold w_alloc, alloc_ok, alloc_compat, all_b, all_s. change (filter buying (map (cap_nan P) d)) with (buyers (map (cap_nan P) d)). change (filter (fun r => negb (buying r)) (map (cap_nan P) d)) with (sellers (map (cap_nan P) d)).
    rewrite cap_nan_buyers, cap_nan_sellers.
    assert (C : forall b s, In b (w_buyers d) -> In s (w_sellers d) -> (price (cap_nan P b) < price (cap_nan P s) <-> nleb (w_price s) (w_price b) = false)).
    { intros b s Hb' Hs. apply filter_In in Hb'. apply filter_In in Hs. destruct Hb' as [Ib Bb], Hs as [Is Bs]. apply negb_true_iff in Bs.
      rewrite <- (cap_nan_le P b s); auto; [|apply Hb | intros q E; exact (proj2 Hb b q Ib E) | intros q E; exact (proj2 Hb s q Is E)].
      destruct (qle_spec (price (cap_nan P s)) (price (cap_nan P b))); split; intro; try discriminate; try reflexivity; exfalso + idtac; qlra. }
    split.
    - intros (A1 & A2 & A3 & A4). split; [split; [|split]|].
      + intros b s Ib Is. apply in_map_iff in Ib, Is. destruct Ib as (x & <- & Hx), Is as (y & <- & Hy). apply A1; assumption.
      + intros b Ib. apply in_map_iff in Ib. destruct Ib as (x & <- & Hx). rewrite qsumf_map. apply A2, Hx.
      + intros s Is. apply in_map_iff in Is. destruct Is as (y & <- & Hy). rewrite qsumf_map. apply A3, Hy.
      + intros b s Ib Is. apply in_map_iff in Ib, Is. destruct Ib as (x & <- & Hx), Is as (y & <- & Hy). intro L. apply A4; auto. apply C; auto.
    - intros [(A1 & A2 & A3) A4]. split; [|split; [|split]].
      + intros b s Ib Is. exact (A1 _ _ (in_map _ _ _ Ib) (in_map _ _ _ Is)).
      + intros b Ib. pose proof (A2 _ (in_map (cap_nan P) _ _ Ib)) as H. rewrite qsumf_map in H. exact H.
      + intros s Is. pose proof (A3 _ (in_map (cap_nan P) _ _ Is)) as H. rewrite qsumf_map in H. exact H.
      + intros b s Ib Is L. apply (A4 _ _ (in_map (cap_nan P) _ _ Ib) (in_map (cap_nan P) _ _ Is)). apply C; auto.
  Qed.
  Lemma volume_map a : w_volume d a = volume (map (cap_nan P) d) a.
  Proof.
    unfold w_volume, volume, all_b, all_s. change (filter buying (map (cap_nan P) d)) with (buyers (map (cap_nan P) d)). change (filter (fun r => negb (buying r)) (map (cap_nan P) d)) with (sellers (map (cap_nan P) d)).
    rewrite cap_nan_buyers, cap_nan_sellers, qsumf_map. apply qsumf_ext. intros b _. rewrite qsumf_map. reflexivity.
  Qed.
End Cap.

Lemma some_beyond d : exists P, beyond P d.
Proof. destruct (inside_exists d NaN) as (P & HP & _ & H). exists P. split; [exact HP|]. intros x q Hx E. exact (H x Hx q E). Qed.
Theorem volume_meaning sv d ts : w_positions d -> w_qty_nonneg d -> solver_ok sv ->
  exists a vmax, w_alloc d a /\ w_volume d a = vmax /\ (forall a', w_alloc d a' -> w_volume d a' <= vmax) /\
    w_percentage sv d ts = Ok (if qltb 0 vmax then Some (qsumf x_qty ts / qz 2 / vmax) else None).
Proof.
  intros HP Hq Hs. destruct (some_beyond d) as (P & Hb). set (tl := map (fun t => mkTrans (x_bid t) (x_qty t) 0 (x_source t) (x_active t)) ts).
  assert (Et : map t_qty tl = map x_qty ts) by (unfold tl; rewrite map_map; reflexivity).
  destruct (traded_any sv (map (cap_nan P) d) tl) as (a & vmax & A1 & A2 & A3 & A4 & A5).
  - rewrite cap_nan_lbl, map_length. exact HP.
  - intros r Hr. apply in_map_iff in Hr. destruct Hr as (x & <- & Hx). apply Hq, Hx.
  - exact Hs.
  - exists a, vmax. split; [apply (alloc_cap P d Hb); auto|]. split; [rewrite (volume_map P); exact A3|]. split.
    + intros a' H. rewrite (volume_map P). apply (alloc_cap P d Hb) in H. destruct H. auto.
    + rewrite (percentage_cap P d HP Hb sv ts tl Et), A5. unfold tl. rewrite qsumf_map. reflexivity.
Qed.
Lemma cap_nan_row P d : no_nan d -> map (cap_nan P) d = map (cap_row P) d.
Proof. intro H. apply map_ext_in. intros x Hx. unfold cap_nan, cap_row. f_equal. pose proof (H x Hx) as N. destruct (w_price x); congruence. Qed.
Theorem half_traded sv c d r T g x : w_positions d -> w_qty_nonneg d -> no_nan d -> solver_ok sv -> w_p2p c d r = Ok (T, g) -> w_percentage sv d T = Ok (Some x) -> 1 / qz 2 <= x.
Proof.
  intros HP Hq Hn Hs E Ex. destruct (some_beyond d) as (P & Hb). pose proof (p2p_large c c d P r Hn Hb) as K. rewrite E in K.
  destruct (p2p_random (map (cap_row P) d) c r) as [[tm ex]|] eqn:E'; [|contradiction]. destruct ex as [ | | |g'|]; try contradiction. destruct K as [F _].
  assert (Et : map t_qty (tm_trans tm) = map x_qty T) by (clear - F; induction F as [|t u T U (_ & H & _) _ IH]; [reflexivity | cbn [map]; congruence]).
  rewrite (percentage_cap P d HP Hb sv T (tm_trans tm) Et), cap_nan_row in Ex by exact Hn.
  eapply (p2p_half_percentage sv (map (cap_row P) d) c r tm); eauto.
  - rewrite map_map, map_length. exact HP.
  - intros z Hz. apply in_map_iff in Hz. destruct Hz as (w & <- & Hw). apply Hq, Hw.
Qed.
