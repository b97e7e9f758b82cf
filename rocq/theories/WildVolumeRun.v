(** [Market.run('huang')] with infinite and NaN prices: who trades could have traded without rounding, and no more is traded than can be. *)
From Verif Require Import QcTac Num NumFacts ListFacts ModelBase ModelHuang ModelStats ModelAny ModelWild ModelWildMuda ModelWildMarket ModelWildVolume
  Spec SpecAlloc SpecWild SpecWildMuda SpecWildMarket SpecWildUniform SpecWildVolume SpecWildVolumeBound ModelMerge GenIdle WildMarketTop WildMarketOnce WildStats WildStatsMaker WildUniformStats WildP2P WildVolume WildVolumeBound.

Lemma unround a b : nlt (n_round 5 a) (n_round 5 b) -> nle a b.
Proof.
  unfold nlt, nle. destruct a as [x| | |], b as [y| | |]; cbn [n_round nltb nleb]; intro H; try discriminate H; try reflexivity.
  apply qltb_lt in H. apply qleb_le. destruct (qle_spec x y) as [K|K]; [exact K|]. pose proof (round_mono y x (Qclt_le_weak _ _ K)). exfalso. qlra.
Qed.

Section Run.
  Variable S : wsorter.
  Variable smp : nat -> nat.
  Variable cnt : Z.
  Variable d : wdf.
  Hypothesis HP : w_positions d.
  Hypothesis Hq : w_qty_pos d.
  Hypothesis Hb : priced true d.
  Hypothesis Hs : priced false d.
  Hypothesis Hn : asks_not_negative d.
  Variables (ts : list (atrans Qc num)) (e : option (num * num * Qc)).
  Hypothesis E : w_run_huang S smp cnt d = Ok (ts, e).

  Theorem traders_accept x y : In x d -> In y d -> w_buying x = true -> w_buying y = false -> In (w_lbl x) (map x_bid ts) -> In (w_lbl y) (map x_bid ts) ->
    nleb (w_price y) (w_price x) = true.
  Proof.
    intros Hx Hy Bx By Ix Iy. pose proof (positions_nodup d HP) as N. destruct (run_prices S smp cnt d HP Hq Hb Hs Hn) as (ss & bs & e' & ps & pb & E' & _ & Lt & Fs & Fb).
    rewrite E in E'. injection E' as -> <-. apply in_map_iff in Ix, Iy. destruct Ix as (t & Lx & Ht), Iy as (u & Ly & Hu).
    assert (R : forall z v, In z d -> In v (ss ++ bs) -> x_bid v = w_lbl z -> nleb (if w_buying z then Fin pb else n_round 5 (w_price z)) (if w_buying z then n_round 5 (w_price z) else Fin ps) = true).
    { intros z v Hz Hv L. assert (K : forall b, part_ok d b v -> w_buying z = b /\ respects (round_row z) v).
      { intros b (w & Hw & Bw & Lw & _ & _ & Rw). assert (w = z) by (apply (unique_row d); auto; congruence). subst w. auto. }
      apply in_app_or in Hv. destruct Hv as [Hv|Hv]; [destruct (Fs v Hv) as [P1 P2] | destruct (Fb v Hv) as [P1 P2]]; destruct (K _ P1) as [K1 K2]; unfold respects in K2; cbn [round_row w_buying w_price] in K2; rewrite P2, K1 in K2; rewrite K1; exact K2. }
    pose proof (R x t Hx Ht Lx) as Rx. pose proof (R y u Hy Hu Ly) as Ry. rewrite Bx in Rx. rewrite By in Ry.
    apply unround. apply (nle_lt_trans _ (Fin ps)); [exact Ry|]. apply (nlt_le_trans _ (Fin pb)); [|exact Rx]. unfold nlt. cbn [nltb]. apply qltb_lt, Lt.
  Qed.
  Theorem run_within sv : solver_ok sv -> within d sv ts.
  Proof.
    intros Hv x Ex. pose proof (positions_nodup d HP) as N. destruct (run_total S smp cnt d HP Hq Hb Hs ts e Hn E) as [ND G].
    assert (Hq' : w_qty_nonneg d) by (intros z Hz; apply Qclt_le_weak, Hq, Hz).
    destruct (run_prices S smp cnt d HP Hq Hb Hs Hn) as (ss & bs & e' & ps & pb & E' & Sq & Lt & Fs & Fb). assert (Et : ts = ss ++ bs) by (rewrite E in E'; injection E'; auto).
    assert (F : forall t, In t ts -> 0 <= x_qty t /\ exists y, In y d /\ w_lbl y = x_bid t).
    { intros t Ht. rewrite Et in Ht. apply in_app_or in Ht. destruct Ht as [Ht|Ht]; [destruct (Fs t Ht) as [(y & Y1 & _ & Y3 & Y4 & _) _] | destruct (Fb t Ht) as [(y & Y1 & _ & Y3 & Y4 & _) _]]; (split; [exact Y4 | eauto]). }
    destruct (share_one d ts) as (a & Ha).
    - intros t Ht. apply F, Ht.
    - rewrite (got_buyers d N), (got_sellers d N), Et, !moved_app. destruct (moved_side d HP false ss (fun t Ht => proj1 (Fs t Ht))) as [A1 A2]. destruct (moved_side d HP true bs (fun t Ht => proj1 (Fb t Ht))) as [B1 B2].
      cbn [negb] in *. rewrite A1, A2, B1, B2, Sq. ring.
    - intros b s Ib Is Gb Gs. apply filter_In in Ib. apply filter_In in Is. destruct Ib as [Ib Bb], Is as [Is Bs]. apply negb_true_iff in Bs.
      destruct (gets_some ts _ Gb) as (t & Ht & Lt'). destruct (gets_some ts _ Gs) as (u & Hu & Lu). apply traders_accept; auto; [rewrite <- Lt' | rewrite <- Lu]; apply in_map; assumption.
    - exact (share_ratio sv d ts a x HP Hq' Hv Ha F (fun z Hz => proj1 (proj2 (G z Hz))) Ex).
  Qed.
End Run.
