(** When [Market.run("huang")] raises [KeyError]. *)
From Verif Require Import QcTac Num ModelBase ModelCurves ModelHuang ModelMuda ModelP2P ModelMerge ModelMarket ModelRound ModelFloat ModelRoundMarket ListFacts StoreFacts
  Spec SpecTrade SpecMerge SpecShort SpecMarket SpecRound SpecRoundMarket MergeFacts HuangMarketFacts MarketTables MarketTop MarketFacts RoundFacts RoundMerge RoundMarketTop BookTop Sorter Conform.

Lemma df_unique m : labels_unique (get_df (mk_bm m)).
Proof. unfold labels_unique. rewrite get_df_lbl. apply seq_NoDup. Qed.
Lemma lone_not_two rnd d : lone_price rnd d -> ~ two_sided d.
Proof. intros (_ & B & _) (_ & s & Hs & Bs). rewrite (B s Hs) in Bs. discriminate. Qed.
Lemma two_sided_dec d : two_sided d \/ ~ two_sided d.
Proof.
  destruct (existsb buying d) eqn:B; [destruct (existsb (fun r => negb (buying r)) d) eqn:A|].
  - left. apply existsb_exists in A. apply existsb_exists in B. destruct A as (s & Hs & As), B as (b & Hb & Bb). apply negb_true_iff in As. split; eauto.
  - right. intros (_ & s & Hs & Bs). assert (existsb (fun r => negb (buying r)) d = true) by (apply existsb_exists; exists s; rewrite Bs; auto). congruence.
  - right. intros ((b & Hb & Bb) & _). assert (existsb buying d = true) by (apply existsb_exists; eauto). congruence.
Qed.
Lemma short_dec d : short d \/ ~ short d.
Proof.
  destruct (existsb (fun r => qltb (if buying r then demand_at d (price r) else supply_at d (price r)) 0) d) eqn:E.
  - left. apply existsb_exists in E. destruct E as (r & Hr & L). apply qltb_lt in L. exists r. auto.
  - right. intros (r & Hr & L). assert (X : existsb (fun r => qltb (if buying r then demand_at d (price r) else supply_at d (price r)) 0) d = true); [|congruence].
    apply existsb_exists. exists r. split; [exact Hr | apply qltb_lt, L].
Qed.

(** ** exactly when *)
Theorem lone_exact S m smp cnt : let d := get_df (mk_bm m) in
  snd (market_run S m (AHuang smp cnt)) = Err KeyError <-> lone_price (np_round 5) d.
Proof.
  intro d. split; [|intro L; rewrite market_run_snd; exact (lone_run _ smp cnt d (df_unique m) L)].
  intro E. destruct (lone_dec (np_round 5) d) as [L|L]; [exact L|]. exfalso.
  destruct (market_huang_any S m smp cnt) as (H1 & H2 & H3). fold d in H1, H2, H3.
  destruct (two_sided_dec d) as [T|T]; [|rewrite (H1 T L) in E; discriminate].
  destruct (short_dec (map (rounded 5) d)) as [Sh|Sh]; [rewrite (H2 T Sh) in E; discriminate|].
  destruct (H3 T Sh) as (md & mp & c & tm0 & ex & _ & _ & N1 & N2).
  destruct (existsb (fun t => existsb (fun r => Nat.eqb (lbl r) (t_bid t) && qeqb (qty r) 0) md) (tm_trans tm0)) eqn:X.
  - rewrite N1 in E; [discriminate|]. apply existsb_exists in X. destruct X as (t & Ht & X). apply existsb_exists in X. destruct X as (r & Hr & X).
    apply andb_true_iff in X. destruct X as [X1 X2]. apply Nat.eqb_eq in X1. apply qeqb_eq in X2. exists t, r. auto.
  - destruct N2 as (tm & N2); [|rewrite N2 in E; discriminate]. intros t r Ht Hr El Z.
    assert (Y : existsb (fun t => existsb (fun r => Nat.eqb (lbl r) (t_bid t) && qeqb (qty r) 0) md) (tm_trans tm0) = true); [|congruence].
    apply existsb_exists. exists t. split; [exact Ht|]. apply existsb_exists. exists r. split; [exact Hr|]. rewrite El, Nat.eqb_refl. apply qeqb_eq, Z.
Qed.
Theorem lone_market S m smp cnt : lone_price (np_round 5) (get_df (mk_bm m)) -> market_run S m (AHuang smp cnt) = (m, Err KeyError).
Proof.
  intro L. apply (lone_exact S m smp cnt) in L. rewrite <- L. rewrite (surjective_pairing (market_run S m (AHuang smp cnt))) at 1. f_equal.
  exact (market_same S m _ _ L).
Qed.

(** ** a market with one side *)
Theorem lone_one_sided S m a : a <> AUnknown -> one_sided (get_df (mk_bm m)) ->
  snd (market_run S m a) = Ok (tm_init, XEmpty) \/
  snd (market_run S m a) = Err KeyError /\ lone_price (np_round 5) (get_df (mk_bm m)) /\ exists smp cnt, a = AHuang smp cnt.
Proof.
  intros Ha O. destruct a as [smp cnt|fl|c r|]; try (left; apply one_sided_run; [discriminate | exact O | exact I]); [|congruence].
  destruct (lone_dec (np_round 5) (get_df (mk_bm m))) as [L|L].
  - right. split; [apply lone_exact, L|]. split; [exact L | eauto].
  - left. apply one_sided_run; [discriminate | exact O | exact L].
Qed.
(** sellers only: never *)
Theorem lone_sellers S m a : a <> AUnknown -> (forall r, In r (get_df (mk_bm m)) -> buying r = false) -> snd (market_run S m a) = Ok (tm_init, XEmpty).
Proof.
  intros Ha B. apply one_sided_run; [exact Ha | right; exact B|]. destruct a; try exact I. intros (N & B' & _).
  destruct (get_df (mk_bm m)) as [|x l]; [congruence|]. specialize (B x (or_introl eq_refl)). rewrite (B' x (or_introl eq_refl)) in B. discriminate.
Qed.

(** ** one more bid *)
Lemma accept_df m b : get_df (mk_bm (fst (accept_bid m b))) = get_df (mk_bm m) ++ [row_of (length (bm_bids (mk_bm m))) b].
Proof. unfold accept_bid, add_bid, get_df. cbn [fst mk_bm bm_bids]. rewrite rows_from_app. reflexivity. Qed.
Theorem lone_repaired S m b smp cnt : let d := get_df (mk_bm m) in lone_price (np_round 5) d ->
  (b_buying b = true -> forall r, In r d -> np_round 5 (b_price b) <> np_round 5 (price r)) ->
  forall e, snd (market_run S (fst (accept_bid m b)) (AHuang smp cnt)) = Err e -> e <> KeyError.
Proof.
  intros d (Ne & B & P) H e E ->. apply lone_exact in E. rewrite accept_df in E. destruct E as (_ & B' & P'). fold d in B', P'.
  destruct d as [|x l]; [congruence|].
  assert (I : In (row_of (length (bm_bids (mk_bm m))) b) ((x :: l) ++ [row_of (length (bm_bids (mk_bm m))) b])) by (apply in_or_app; right; left; reflexivity).
  specialize (B' _ I). cbn [row_of buying] in B'. specialize (P' _ x I (or_introl eq_refl)). cbn [row_of price] in P'. exact (H B' x (or_introl eq_refl) P').
Qed.
Theorem lone_spread S m b smp cnt : let d := get_df (mk_bm m) in lone_price (np_round 5) d -> b_buying b = true ->
  (forall r, In r d -> np_round 5 (b_price b) = np_round 5 (price r)) ->
  snd (market_run S (fst (accept_bid m b)) (AHuang smp cnt)) = Err KeyError.
Proof.
  intros d (Ne & B & P) Bb H. apply lone_exact. rewrite accept_df. fold d. split; [destruct d; discriminate|]. split.
  - intros r Hr. apply in_app_or in Hr. destruct Hr as [Hr|[<-|[]]]; [apply B, Hr | exact Bb].
  - intros r x Hr Hx. apply in_app_or in Hr. apply in_app_or in Hx. destruct Hr as [Hr|[<-|[]]], Hx as [Hx|[<-|[]]]; cbn [row_of price]; auto. symmetry. apply H, Hr.
Qed.

(** ** rounded arithmetic *)
Theorem lone_rounded R (A G : adder R) S smp cnt d : map lbl d = seq 0 (length d) -> lone_price (np_round_r R 5) d -> run_huang_r R A G S smp cnt d = Err KeyError.
Proof.
  intros Hl L. unfold run_huang_r. destruct (merge_r_ok R G 5 smp d cnt) as (mb & ms & c2 & E & M). rewrite E. cbn [bind].
  unfold merged_run. rewrite (proj2 (mdr_lone R G d Hl _ _ _ _ M) L). reflexivity.
Qed.

(** ** a single bid to buy *)
Lemma lone_single S smp cnt q p u : snd (market_run S (fst (accept_bid market_init (B q p u))) (AHuang smp cnt)) = Err KeyError.
Proof.
  apply lone_exact. rewrite accept_df. split; [discriminate|]. split.
  - intros r [<-|[]]. reflexivity.
  - intros r x [<-|[]] [<-|[]]. reflexivity.
Qed.
