(** Facts about markets whose bids come from the data set generator. *)
From Verif Require Import QcTac Num ModelBase ModelCurves ModelHuang ModelMuda ModelP2P ModelMerge ModelDatasets ModelMarket ModelStats ListFacts Spec SpecTrade SpecMerge SpecMuda
  SpecAlloc SpecStats SpecHuang SpecSign SpecShort SpecErrors SpecTables SpecCompare SpecGen
  StoreFacts TradeFacts AllocFacts CoverFacts LPFacts P2PFacts P2PTrades MergeFacts HuangFacts HuangMarketFacts HuangMarketTop SignFacts StatsFacts StatsTop FairFacts FairRuns
  MudaFacts MudaErrors TableFacts TableMuda MarketFacts MarketTables MarketZero MarketTop MoreFacts BookTop LoneTop MarketOrder DatasetFacts RoundFacts RoundMerge HuangLoss.

(** ** The market *)
Lemma market_of_from bs : forall m, let m' := fold_left (fun m b => fst (accept_bid m b)) bs m in
  bm_bids (mk_bm m') = bm_bids (mk_bm m) ++ bs /\ mk_trans m' = mk_trans m /\ mk_extra m' = mk_extra m.
Proof.
  induction bs as [|b bs IH]; intro m; cbv zeta; [cbn [fold_left]; rewrite app_nil_r; auto|]. cbn [fold_left].
  destruct (IH (fst (accept_bid m b))) as (-> & -> & ->). split; [|auto]. cbn. rewrite <- app_assoc. reflexivity.
Qed.
Lemma table_rows bs : table_of bs = rows_from 0 bs.
Proof. unfold table_of, get_df, market_of. rewrite (proj1 (market_of_from bs market_init)). reflexivity. Qed.
Lemma market_of_trans bs : mk_trans (market_of bs) = tm_init.
Proof. apply (market_of_from bs market_init). Qed.

(** ** The table *)
Lemma rows_price i l : map price (rows_from i l) = map b_price l.
Proof. revert i. induction l as [|b l IH]; intro i; [reflexivity|]. cbn [rows_from map]. rewrite IH. reflexivity. Qed.
Lemma rows_In i l r : In r (rows_from i l) -> exists k b, nth_error l k = Some b /\ r = row_of (i + k) b.
Proof.
  intro H. apply In_nth_error in H. destruct H as (k & H).
  assert (L : (k < length l)%nat) by (rewrite <- (rows_from_length i l); apply nth_error_Some; congruence).
  destruct (nth_error l k) as [b|] eqn:E; [|apply nth_error_None in E; lia].
  rewrite (rows_from_nth i l k b E) in H. injection H as <-. eauto.
Qed.
Theorem made_table nb ns os ob bs : made nb ns os ob bs -> let d := table_of bs in
  length d = (nb + ns)%nat /\ map lbl d = seq 0 (nb + ns) /\ map user d = map Z.of_nat (seq 0 (nb + ns)) /\ prices_distinct d /\
  forall r, In r d -> user r = Z.of_nat (lbl r) /\ 0 <= qty r /\ qty r < 1 /\
    (buying r = true <-> (lbl r < nb)%nat) /\ (if buying r then ob <= price r /\ price r < ob + 1 else os <= price r /\ price r < os + 1).
Proof.
  intros (ch & eps & He & E). cbv zeta. rewrite table_rows.
  destruct (generate_ok nb ns os ob ch eps He) as (B & L & E' & LB & LL & U & PB & PL & PA & NB & NL & _). rewrite E in E'. injection E' as ->.
  assert (Len : length (B ++ L) = (nb + ns)%nat) by (rewrite app_length; lia).
  rewrite rows_from_length. split; [exact Len|]. split; [rewrite rows_from_lbl, Len; reflexivity|]. split.
  { rewrite <- U. clear. generalize 0%nat. induction (B ++ L) as [|b l IH]; intro i; [reflexivity|]. cbn [rows_from map]. rewrite IH. reflexivity. }
  rewrite rows_from_app, LB. cbn [Nat.add].
  assert (FB : forall r, In r (rows_from 0 B) -> exists k b, In b B /\ (k < nb)%nat /\ r = row_of k b).
  { intros r H. apply rows_In in H. destruct H as (k & b & Hk & ->). exists k, b. split; [exact (nth_error_In _ _ Hk)|]. split; [|reflexivity].
    rewrite <- LB. apply nth_error_Some. congruence. }
  assert (FL : forall r, In r (rows_from nb L) -> exists k b, In b L /\ (nb <= k)%nat /\ r = row_of k b).
  { intros r H. apply rows_In in H. destruct H as (k & b & Hk & ->). exists (nb + k)%nat, b. split; [exact (nth_error_In _ _ Hk)|]. split; [lia | reflexivity]. }
  split.
  - split; rewrite filter_app, map_app.
    + rewrite (filter_all buying (rows_from 0 B)), (filter_none buying (rows_from nb L)).
      * rewrite app_nil_r, rows_price. exact NB.
      * intros r H. destruct (FL r H) as (k & b & Ib & _ & ->). apply (PL b Ib).
      * intros r H. destruct (FB r H) as (k & b & Ib & _ & ->). apply (PB b Ib).
    + rewrite (filter_none _ (rows_from 0 B)), (filter_all _ (rows_from nb L)).
      * cbn [map app]. rewrite rows_price. exact NL.
      * intros r H. destruct (FL r H) as (k & b & Ib & _ & ->). cbn. rewrite (proj1 (PL b Ib)). reflexivity.
      * intros r H. destruct (FB r H) as (k & b & Ib & _ & ->). cbn. rewrite (proj1 (PB b Ib)). reflexivity.
  - intros r Hr. rewrite <- LB in Hr at 1. pose proof (rows_from_app 0 B L) as Ra. cbn [Nat.add] in Ra.
    assert (Ir : In r (rows_from 0 (B ++ L))) by (rewrite Ra; exact Hr). rewrite LB in Hr.
    apply terms_nth in Ir.
    assert (Ub : user r = Z.of_nat (lbl r)).
    { pose proof (map_nth_error b_user _ _ Ir) as K. rewrite U in K. cbn [terms b_user] in K.
      assert (Lr : (lbl r < nb + ns)%nat) by (rewrite <- Len; apply nth_error_Some; congruence).
      rewrite (map_nth_error Z.of_nat (lbl r) (seq 0 (nb + ns)) (d := lbl r)) in K; [injection K as K; symmetry; exact K|].
      rewrite nth_error_nth' with (d := 0%nat) by (rewrite seq_length; exact Lr). rewrite seq_nth by exact Lr. reflexivity. }
    split; [exact Ub|]. clear Ir Ub Ra. apply in_app_or in Hr. destruct Hr as [Hr|Hr].
    + destruct (FB r Hr) as (k & b & Ib & Lk & ->). destruct (PB b Ib) as (Bb & P1 & P2). destruct (PA b (in_or_app _ _ _ (or_introl Ib))) as (Q1 & Q2 & _).
      cbn [row_of lbl qty price buying]. rewrite Bb. repeat split; auto.
    + destruct (FL r Hr) as (k & b & Ib & Lk & ->). destruct (PL b Ib) as (Bb & P1 & P2). destruct (PA b (in_or_app _ _ _ (or_intror Ib))) as (Q1 & Q2 & _).
      cbn [row_of lbl qty price buying]. rewrite Bb. repeat split; auto; intro; [discriminate | lia].
Qed.
