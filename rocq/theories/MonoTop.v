(** C92 as run by the market, and the cases where it fails. *)
From Verif Require Import QcTac Num NumFacts ModelBase ModelCurves ModelHuang ModelMuda ModelP2P ModelMerge ModelMarket ModelUniform ListFacts Spec SpecTrade SpecMuda SpecHuang SpecMono
  Sorter Conform StoreFacts MudaWitness TradeFacts P2PTrades LPFacts AllocFacts BookTop FairRuns HuangMarketFacts UniformFacts UniformTop MudaTop PlotWitness MonoFacts MonoHuang.

Lemma mono_rows (m : market) l1 b l2 : bm_bids (mk_bm m) = (l1 ++ b :: l2)%list ->
  get_df (mk_bm m) = (rows_from 0 l1 ++ row_of (length l1) b :: rows_from (Datatypes.S (length l1)) l2)%list.
Proof. intro E. unfold get_df. rewrite E, rows_from_app. reflexivity. Qed.
Lemma mono_better n b b' : better_bid b b' -> better (row_of n b) (row_of n b').
Proof. intros (A & B & C). repeat split; assumption. Qed.

Lemma guard_same (d d' : df) : map buying d' = map buying d ->
  (Nat.eqb (length (buyers d')) 0 || Nat.eqb (length (buyers d')) (length d') = (Nat.eqb (length (buyers d)) 0 || Nat.eqb (length (buyers d)) (length d)))%bool.
Proof.
  intro E. assert (L : length d' = length d) by (rewrite <- (map_length buying d'), E; apply map_length).
  assert (B : forall e : df, length (buyers e) = length (filter (fun b => b) (map buying e))).
  { induction e as [|x e IH]; [reflexivity|]. unfold buyers in *. cbn [filter map]. destruct (buying x); cbn [length]; rewrite IH; reflexivity. }
  rewrite !B, E, L. reflexivity.
Qed.

Section Market.
  Variables (S : sorter) (m m' : market) (l1 l2 : list bid) (b b' : bid).
  Hypothesis E : bm_bids (mk_bm m) = (l1 ++ b :: l2)%list.
  Hypothesis E' : bm_bids (mk_bm m') = (l1 ++ b' :: l2)%list.
  Hypothesis Bt : better_bid b b'.
  Let R1 := rows_from 0 l1.
  Let R2 := rows_from (Datatypes.S (length l1)) l2.
  Let r := row_of (length l1) b.
  Let r' := row_of (length l1) b'.

  Lemma market_guard : (Nat.eqb (length (buyers (R1 ++ r' :: R2))) 0 || Nat.eqb (length (buyers (R1 ++ r' :: R2))) (length (R1 ++ r' :: R2)) =
    (Nat.eqb (length (buyers (R1 ++ r :: R2))) 0 || Nat.eqb (length (buyers (R1 ++ r :: R2))) (length (R1 ++ r :: R2))))%bool.
  Proof. apply guard_same. rewrite !map_app. cbn [map]. do 2 f_equal. apply Bt. Qed.

  Theorem market_muda_mono fl tm ex tm' ex' : qty_nonneg (get_df (mk_bm m)) ->
    snd (market_run S m (AMuda fl)) = Ok (tm, ex) -> snd (market_run S m' (AMuda fl)) = Ok (tm', ex') ->
    traded_by (length l1) (tm_trans tm) <= traded_by (length l1) (tm_trans tm').
  Proof.
    intros Hq. rewrite !market_run_snd, (mono_rows m l1 b l2 E), (mono_rows m' l1 b' l2 E'). rewrite (mono_rows m l1 b l2 E) in Hq. fold R1 R2 r r' in Hq |- *.
    cbn [run_algo mechanism]. unfold mech_run0. rewrite market_guard. destruct (_ || _); [intros [= <- <-] [= <- <-]; apply Qcle_refl|].
    intros X X'. apply (muda_mono S R1 R2 r r' fl tm ex tm' ex'); try assumption; [|left; apply mono_better, Bt].
    unfold labels_unique. replace (map lbl (R1 ++ r :: R2)) with (seq 0 (length (l1 ++ b :: l2))); [apply seq_NoDup|].
    rewrite <- (rows_from_lbl 0 (l1 ++ b :: l2)), rows_from_app. reflexivity.
  Qed.

  Theorem market_uniform_mono S' tm ex tm' ex' : qty_pos (get_df (mk_bm m)) -> price_nonneg (get_df (mk_bm m)) -> price_nonneg (get_df (mk_bm m')) ->
    snd (market_run_uniform S m) = Ok (tm, ex) -> snd (market_run_uniform S' m') = Ok (tm', ex') ->
    traded_by (length l1) (tm_trans tm) <= traded_by (length l1) (tm_trans tm').
  Proof.
    assert (G : forall T n, snd (market_run_uniform T n) = uniform_run T (get_df (mk_bm n))) by (intros T n; unfold market_run_uniform; destruct (uniform_run T (get_df (mk_bm n))) as [[? ?]|]; reflexivity).
    intros Q Hp Hp'. rewrite !G, (mono_rows m l1 b l2 E), (mono_rows m' l1 b' l2 E'). rewrite (mono_rows m l1 b l2 E) in Q, Hp. rewrite (mono_rows m' l1 b' l2 E') in Hp'.
    fold R1 R2 r r' in Q, Hp, Hp' |- *.
    unfold uniform_run, mechanism, mech_run0. rewrite market_guard. destruct (_ || _); [intros [= <- <-] [= <- <-]; apply Qcle_refl|].
    intros X X'. apply (uniform_mono S S' R1 R2 r r' tm ex tm' ex'); try assumption; [|left; apply mono_better, Bt].
    unfold labels_unique. replace (map lbl (R1 ++ r :: R2)) with (seq 0 (length (l1 ++ b :: l2))); [apply seq_NoDup|].
    rewrite <- (rows_from_lbl 0 (l1 ++ b :: l2)), rows_from_app. reflexivity.
  Qed.
End Market.

(** ** Where it fails *)
Lemma less_is (x x' : res (transmgr * extra)) i :
  match x, x' with Ok (t, _), Ok (t', _) => qltb (traded_by i (tm_trans t')) (traded_by i (tm_trans t)) | _, _ => false end = true ->
  exists tm ex tm' ex', x = Ok (tm, ex) /\ x' = Ok (tm', ex') /\ traded_by i (tm_trans tm') < traded_by i (tm_trans tm).
Proof.
  destruct x as [[t e]|]; [|intro H; discriminate H]. destruct x' as [[t' e']|]; [|intro H; discriminate H].
  intro H. apply (proj1 (qltb_lt _ _)) in H. exists t, e, t', e'. auto.
Qed.

(** Huang: who asks for more may become the price setter and trade nothing *)
Lemma huang_larger_witness :
  exists (l1 l2 : df) (r r' : row) tm ex tm' ex', let d := l1 ++ r :: l2 in let d' := l1 ++ r' :: l2 in
    qty_pos d /\ price_nonneg d /\ labels_unique d /\ prices_distinct d /\ asks_pos d /\ larger (l1 ++ l2) r r' /\
    huang_auction SS d = Ok (tm, ex) /\ huang_auction SS d' = Ok (tm', ex') /\
    traded_by (lbl r) (tm_trans tm') < traded_by (lbl r) (tm_trans tm).
Proof.
  set (r := row_of 0 (B (qz 1) (qz 9) 0)). set (r' := row_of 0 (B (qz 2) (qz 9) 0)).
  set (l2 := rows_from 1 [B (qz 2) (qz 5) 1; A (qz 1) (qz 1) 2; A (qz 1) (qz 3) 3]).
  destruct (less_is (huang_auction SS (r :: l2)) (huang_auction SS (r' :: l2)) 0) as (tm & ex & tm' & ex' & X & X' & L); [vm_compute; reflexivity|].
  exists [], l2, r, r', tm, ex, tm', ex'. cbn [app]. split; [each_row|]. split; [each_row|]. split; [no_dup|]. split; [split; no_dup|]. split; [each_row|].
  split; [|auto]. repeat (split; [vm_compute; intuition congruence|]).
  intros x Hx. repeat (destruct Hx as [<-|Hx]; [vm_compute; intuition congruence|]). contradiction.
Qed.

(** Huang run by the market: who leaves a price shared with others for a better one may lose everything *)
Definition shared (p : Qc) : list bid :=
  [B (qz 1) p 0; B (qz 3) (qz 8) 1; B (qz 4) (qz 9) 2; B (qz 8) (qz 5) 3; A (qz 4) (qz 1) 4; A (qz 8) (qz 3) 5].
Lemma huang_shared_witness :
  exists (m m' : market) (b b' : bid) (l : list bid) tm ex tm' ex',
    bm_bids (mk_bm m) = (b :: l)%list /\ bm_bids (mk_bm m') = (b' :: l)%list /\ better_bid b b' /\ b_qty b' = b_qty b /\
    qty_pos (get_df (mk_bm m)) /\ price_nonneg (get_df (mk_bm m)) /\ asks_pos (get_df (mk_bm m)) /\
    snd (market_run SS m (AHuang (fun _ => 0%nat) 0)) = Ok (tm, ex) /\ snd (market_run SS m' (AHuang (fun _ => 0%nat) 0)) = Ok (tm', ex') /\
    traded_by 0 (tm_trans tm) = qf 1 2 /\ traded_by 0 (tm_trans tm') = 0.
Proof.
  set (m := market_of (shared (qz 8))). set (m' := market_of (shared (qf 17 2))).
  assert (K : match snd (market_run SS m (AHuang (fun _ => 0%nat) 0)), snd (market_run SS m' (AHuang (fun _ => 0%nat) 0)) with
    | Ok (t, _), Ok (t', _) => qeqb (traded_by 0 (tm_trans t)) (qf 1 2) && qeqb (traded_by 0 (tm_trans t')) 0 | _, _ => false end = true) by (vm_compute; reflexivity).
  destruct (snd (market_run SS m (AHuang (fun _ => 0%nat) 0))) as [[tm ex]|] eqn:X; [|discriminate K].
  destruct (snd (market_run SS m' (AHuang (fun _ => 0%nat) 0))) as [[tm' ex']|] eqn:X'; [|discriminate K].
  apply andb_true_iff in K. destruct K as [K1 K2]. apply (proj1 (qeqb_eq _ _)) in K1. apply (proj1 (qeqb_eq _ _)) in K2.
  exists m, m', (B (qz 1) (qz 8) 0), (B (qz 1) (qf 17 2) 0), (tl (shared 0)), tm, ex, tm', ex'.
  split; [reflexivity|]. split; [reflexivity|]. split; [vm_compute; intuition congruence|]. split; [reflexivity|].
  split; [each_row|]. split; [each_row|]. split; [each_row|]. auto.
Qed.

(** peer to peer, with the same draws: after an extra trade the draws select other pairs *)
Lemma p2p_better_witness :
  exists (l1 l2 : df) (r r' : row) k g tm ex tm' ex', let d := l1 ++ r :: l2 in let d' := l1 ++ r' :: l2 in
    map lbl d = seq 0 (length d) /\ qty_pos d /\ price_nonneg d /\ 0 <= k /\ k <= 1 /\ better r r' /\ qty r' = qty r /\
    p2p_random d k g = Ok (tm, ex) /\ p2p_random d' k g = Ok (tm', ex') /\
    traded_by (lbl r) (tm_trans tm') < traded_by (lbl r) (tm_trans tm).
Proof.
  set (r := row_of 0 (B (qz 2) (qz 5) 0)). set (r' := row_of 0 (B (qz 2) (qz 7) 0)).
  set (l2 := rows_from 1 [B (qz 2) (qz 5) 1; A (qz 2) (qz 4) 2; A (qz 1) (qz 8) 3; A (qz 1) (qz 7) 4]).
  destruct (less_is (p2p_random (r :: l2) (qf 1 2) (fun k => 2 + k)%nat) (p2p_random (r' :: l2) (qf 1 2) (fun k => 2 + k)%nat) 0) as (tm & ex & tm' & ex' & X & X' & L); [vm_compute; reflexivity|].
  exists [], l2, r, r', (qf 1 2), (fun k => 2 + k)%nat, tm, ex, tm', ex'. cbn [app]. split; [reflexivity|]. split; [each_row|]. split; [each_row|].
  split; [vm_compute; congruence|]. split; [vm_compute; congruence|]. split; [vm_compute; intuition congruence|]. split; [reflexivity|]. auto.
Qed.
