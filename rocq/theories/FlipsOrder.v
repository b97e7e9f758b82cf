(** The average over the random split of MUDA does not depend on the order of submission when prices differ. *)
From Coq Require Import FinFun.
From Verif Require Import QcTac Num ModelBase ModelCurves ModelHuang ModelMuda ModelMarket Spec SpecTrade SpecMuda SpecOrder ListFacts MergeFacts AllocFacts StoreFacts TradeFacts Sorter
  MudaFacts MudaTop MarketOrder P2POrder MudaOrder UnitMarket SpecChance SpecFlips FlipsFacts FlipsMuda.

Lemma flips_back ls : NoDup ls -> forall fl, length fl = length ls -> map (fun i => existsb (Nat.eqb i) (pick_left ls fl)) ls = fl.
Proof.
  induction 1 as [|i ls Ni N IH]; intros [|b fl] L; try discriminate; [reflexivity|]. cbn [length] in L. injection L as L. cbn [map pick_left].
  destruct b.
  - cbn [existsb]. rewrite Nat.eqb_refl. cbn [orb]. f_equal. etransitivity; [|exact (IH fl L)]. apply map_ext_in. intros j Ij. destruct (Nat.eqb_spec j i) as [->|_]; [contradiction | reflexivity].
  - rewrite (IH fl L). f_equal. apply not_true_iff_false. intro E. apply mem_In in E. apply pick_left_sub in E. contradiction.
Qed.
Lemma mem_permutation (i : nat) l l' : Permutation l l' -> existsb (Nat.eqb i) l = existsb (Nat.eqb i) l'.
Proof. intro Q. apply eq_true_iff_eq. rewrite !mem_In. split; apply Permutation_in; [|symmetry]; exact Q. Qed.

Section Moved.
  Variables (d d' : df) (f : nat -> nat).
  Hypothesis Hf : Injective f.
  Hypothesis P : Permutation (map (ren f) d) d'.
  Hypothesis Hu : labels_unique d.
  Lemma moved_perm fl : length fl = length d -> Permutation fl (moved_flips d d' f fl).
  Proof.
    intro L. unfold moved_flips. rewrite <- (Permutation_map _ (Permutation_map lbl P)), lbl_ren, map_map.
    rewrite (map_ext _ (fun i => existsb (Nat.eqb i) (left_of d fl))) by (intro i; apply mem_ren, Hf).
    unfold left_of. rewrite flips_back; [reflexivity | exact Hu | rewrite map_length; exact L].
  Qed.
  Lemma moved_inj fl fl' : length fl = length d -> length fl' = length d -> moved_flips d d' f fl = moved_flips d d' f fl' -> fl = fl'.
  Proof.
    intros L L' E. pose proof (left_moved d d' f Hf P Hu fl) as A. pose proof (left_moved d d' f Hf P Hu fl') as B. rewrite E, <- B in A.
    rewrite <- (flips_back (map lbl d) Hu fl) by (rewrite map_length; exact L). rewrite <- (flips_back (map lbl d) Hu fl') by (rewrite map_length; exact L').
    apply map_ext. intro i. pose proof (mem_permutation (f i) _ _ A) as M. rewrite !(mem_ren f Hf) in M. exact M.
  Qed.
End Moved.

Theorem run_muda_mean S S' m m' f : Permutation (bm_bids (mk_bm m)) (bm_bids (mk_bm m')) -> moved (bm_bids (mk_bm m)) (bm_bids (mk_bm m')) f ->
  prices_distinct (get_df (mk_bm m)) -> forall p (F F' : res (transmgr * extra) -> Qc), (forall x x', renamed f x x' -> F' x' = F x) ->
  expect p (length (bm_bids (mk_bm m'))) (fun fl => F' (snd (market_run S' m' (AMuda fl)))) = expect p (length (bm_bids (mk_bm m))) (fun fl => F (snd (market_run S m (AMuda fl)))).
Proof.
  intros P M N p F F' H. rewrite <- (Permutation_length P).
  assert (Hl : length (get_df (mk_bm m)) = length (bm_bids (mk_bm m))) by (unfold get_df; rewrite <- (map_length lbl), rows_from_lbl, seq_length; reflexivity).
  assert (Hu : labels_unique (get_df (mk_bm m))) by (unfold labels_unique, get_df; rewrite rows_from_lbl; apply seq_NoDup).
  set (g := moved_flips (get_df (mk_bm m)) (get_df (mk_bm m')) f).
  rewrite <- (expect_moved p (length (bm_bids (mk_bm m))) g).
  - apply expect_ext. intros fl L. apply H. rewrite !UnitMarket.run_result. cbn [run_algo mechanism].
    apply (run0_moved (fun b => muda S b fl) (fun b => muda S' b (g fl)) _ _ f P).
    apply muda_moved; [apply (f_inj _ _ f M) | apply (move_perm _ _ f P M) | exact N | exact Hu].
  - intros fl L. apply moved_perm; [apply (f_inj _ _ f M) | apply (move_perm _ _ f P M) | exact Hu | rewrite Hl; exact L].
  - intros fl fl' L L'. apply moved_inj; [apply (f_inj _ _ f M) | apply (move_perm _ _ f P M) | exact Hu | rewrite Hl; exact L | rewrite Hl; exact L'].
Qed.
Corollary run_quantity_mean S S' m m' f : Permutation (bm_bids (mk_bm m)) (bm_bids (mk_bm m')) -> moved (bm_bids (mk_bm m)) (bm_bids (mk_bm m')) f ->
  prices_distinct (get_df (mk_bm m)) -> forall p i,
  expect p (length (bm_bids (mk_bm m'))) (fun fl => quantity_of (f i) (snd (market_run S' m' (AMuda fl)))) = expect p (length (bm_bids (mk_bm m))) (fun fl => quantity_of i (snd (market_run S m (AMuda fl)))).
Proof.
  intros P M N p i. apply (run_muda_mean S S' m m' f P M N). intros [[tm ex]|e] [[tm' ex']|e'] R; try contradiction; [|reflexivity]. destruct R as [E _]. cbn [quantity_of]. rewrite E.
  unfold traded_by. rewrite filter_map, qsumf_map. f_equal. apply filter_ext. intro t. cbn [t_bid rename_trans]. destruct (Nat.eqb_spec (t_bid t) i) as [->|X]; [apply Nat.eqb_refl|].
  apply Nat.eqb_neq. intro K. apply X, M, K.
Qed.
