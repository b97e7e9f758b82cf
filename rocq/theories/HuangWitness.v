(** Concrete runs used to refute truthfulness of the Huang auction in general (C47). *)
From Verif Require Import QcTac Num ModelBase ModelCurves ModelHuang ModelMerge ModelMarket NumFacts StoreFacts Spec SpecTrade SpecMerge
  SpecMuda SpecHuang MudaWitness HuangMarketFacts HuangMarketTruth Sorter Conform.

Lemma better_is (r r' : res (transmgr * extra)) (d : df) u :
  match r, r' with Ok (t, _), Ok (t', _) => qltb (profit d u (tm_trans t)) (profit d u (tm_trans t')) | _, _ => false end = true ->
  exists tm ex tm' ex', r = Ok (tm, ex) /\ r' = Ok (tm', ex') /\ profit d u (tm_trans tm) < profit d u (tm_trans tm').
Proof.
  destruct r as [[t x]|]; [|intro H; discriminate H]. destruct r' as [[t' x']|]; [|intro H; discriminate H].
  intro H. apply (proj1 (qltb_lt _ _)) in H. exists t, x, t', x'. auto.
Qed.

(** a user with two bids lowers the one that sets the price *)
Definition two_bids : df := frame [B (qz 1) (qz 10) 0; B (qz 1) (qz 8) 0; A (qz 1) (qz 1) 1; A (qz 1) (qz 2) 2].
Definition two_bids' : df := frame [B (qz 1) (qz 10) 0; B (qz 1) (qz 3) 0; A (qz 1) (qz 1) 1; A (qz 1) (qz 2) 2].
Lemma two_bids_witness :
  exists (S : sorter) (d d' : df) (u : Z) tm ex tm' ex', qty_pos d /\ price_nonneg d /\ price_nonneg d' /\ labels_unique d /\
    prices_distinct d /\ prices_distinct d' /\ asks_pos d /\ Forall2 (misprice u) d d' /\
    huang_auction S d = Ok (tm, ex) /\ huang_auction S d' = Ok (tm', ex') /\
    profit d u (tm_trans tm) < profit d u (tm_trans tm').
Proof.
  destruct (better_is (huang_auction SS two_bids) (huang_auction SS two_bids') two_bids 0) as (tm & ex & tm' & ex' & E & E' & P); [vm_compute; reflexivity|].
  exists SS, two_bids, two_bids', 0%Z, tm, ex, tm', ex'.
  split; [each_row|]. split; [each_row|]. split; [each_row|]. split; [no_dup|].
  split; [split; no_dup|]. split; [split; no_dup|]. split; [each_row|].
  split; [|auto]. repeat (constructor; [vm_compute; intuition congruence|]). constructor.
Qed.

(** a user with one bid asks for less *)
Definition big_bid : df := frame [B (qz 3) (qz 10) 0; B (qz 1) (qz 5) 1; A (qz 1) (qz 1) 2; A (qz 1) (qz 2) 3].
Definition small_bid : df := frame [B (qz 1) (qz 10) 0; B (qz 1) (qz 5) 1; A (qz 1) (qz 1) 2; A (qz 1) (qz 2) 3].
Lemma quantity_witness :
  exists (S : sorter) (d d' : df) (u : Z) tm ex tm' ex', qty_pos d /\ qty_pos d' /\ price_nonneg d /\ price_nonneg d' /\ labels_unique d /\
    prices_distinct d /\ prices_distinct d' /\ asks_pos d /\
    (forall r r', In r d -> In r' d -> user r = u -> user r' = u -> r = r') /\ Forall2 (misreport u) d d' /\
    huang_auction S d = Ok (tm, ex) /\ huang_auction S d' = Ok (tm', ex') /\
    profit d u (tm_trans tm) < profit d u (tm_trans tm').
Proof.
  destruct (better_is (huang_auction SS big_bid) (huang_auction SS small_bid) big_bid 0) as (tm & ex & tm' & ex' & E & E' & P); [vm_compute; reflexivity|].
  exists SS, big_bid, small_bid, 0%Z, tm, ex, tm', ex'.
  split; [each_row|]. split; [each_row|]. split; [each_row|]. split; [each_row|]. split; [no_dup|].
  split; [split; no_dup|]. split; [split; no_dup|]. split; [each_row|].
  split.
  { intros r r' H H' U U'. repeat (destruct H as [<-|H]; [try discriminate U|]); [|contradiction].
    repeat (destruct H' as [<-|H']; [try discriminate U'|]); [reflexivity | contradiction]. }
  split; [|auto]. repeat (constructor; [vm_compute; intuition congruence|]). constructor.
Qed.

(** in the market, bidding the same price as another winner halves the reduction *)
Definition sell_bids : list bid := [A (qz 3) (qz 1) 4; A (qz 10) (qz 6) 5].
Definition tie_market (p : Qc) : market :=
  fold_left (fun m b => fst (accept_bid m b)) ([B (qz 2) p 0; B (qz 2) (qz 9) 1; B (qz 2) (qz 8) 2; B (qz 10) (qz 7) 3] ++ sell_bids) market_init.
Lemma tie_witness :
  exists (S : sorter) (smp : nat -> nat) (cnt : Z) (m m' : market) (u : Z) tm ex tm' ex',
    let d := get_df (mk_bm m) in let d' := get_df (mk_bm m') in
    qty_pos d /\ price_nonneg d /\ price_nonneg d' /\ asks_pos d /\ asks_pos d' /\ prices_distinct d /\
    (forall r, In r d -> np_round 5 (price r) = price r) /\ (forall r, In r d' -> np_round 5 (price r) = price r) /\
    (forall r r', In r d -> In r' d -> user r = u -> user r' = u -> r = r') /\ Forall2 (misprice u) d d' /\
    snd (market_run S m (AHuang smp cnt)) = Ok (tm, ex) /\ snd (market_run S m' (AHuang smp cnt)) = Ok (tm', ex') /\
    profit d u (tm_trans tm) < profit d u (tm_trans tm').
Proof.
  destruct (better_is (snd (market_run SS (tie_market (qz 10)) (AHuang (fun _ => 0%nat) 0))) (snd (market_run SS (tie_market (qz 9)) (AHuang (fun _ => 0%nat) 0)))
              (get_df (mk_bm (tie_market (qz 10)))) 0) as (tm & ex & tm' & ex' & E & E' & P); [vm_compute; reflexivity|].
  exists SS, (fun _ => 0%nat), 0%Z, (tie_market (qz 10)), (tie_market (qz 9)), 0%Z, tm, ex, tm', ex'. cbv zeta.
  split; [each_row|]. split; [each_row|]. split; [each_row|]. split; [each_row|]. split; [each_row|].
  split; [split; no_dup|].
  split; [intros r H; repeat (destruct H as [<-|H]; [apply Qc_is_canon; vm_compute; reflexivity|]); contradiction|].
  split; [intros r H; repeat (destruct H as [<-|H]; [apply Qc_is_canon; vm_compute; reflexivity|]); contradiction|].
  split.
  { intros r r' H H' U U'. repeat (destruct H as [<-|H]; [try discriminate U|]); [|contradiction].
    repeat (destruct H' as [<-|H']; [try discriminate U'|]); [reflexivity | contradiction]. }
  split; [|auto]. repeat (constructor; [vm_compute; intuition congruence|]). constructor.
Qed.
