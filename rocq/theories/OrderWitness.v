(** A MUDA run with two equal bids that depends on their order. *)
From Verif Require Import QcTac Num ModelBase ModelCurves ModelHuang ModelMuda ModelMarket Spec SpecOrder SpecUnits MudaWitness Sorter UnitFacts UnitWitness Conform PlotWitness.

Definition first_buyer := mkBid (qz 1) (qz 5) 0 true 0 true.
Definition second_buyer := mkBid (qz 1) (qz 5) 1 true 0 true.
Definition others := [mkBid (qz 1) (qz 1) 2 false 0 true; mkBid (qz 1) (qz 4) 3 true 0 true; mkBid (qz 1) (qz 2) 4 false 0 true].
Definition tied := market_of (first_buyer :: second_buyer :: others).
Definition tied' := market_of (second_buyer :: first_buyer :: others).
Definition tied_flips := [true; true; true; false; false].
(** the first bid trades, the second does not *)
Definition first_wins (l : list nat) (tm : transmgr) : bool :=
  existsb (Nat.eqb 0) (map t_bid (tm_trans tm)) && negb (existsb (Nat.eqb 1) (map t_bid (tm_trans tm))).
Definition both_left (l : list nat) : bool := existsb (Nat.eqb 0) l && existsb (Nat.eqb 1) l && existsb (Nat.eqb 2) l && negb (existsb (Nat.eqb 3) l) && negb (existsb (Nat.eqb 4) l).
Definition first_only (x : res (transmgr * extra)) : bool :=
  match x with Ok (tm, XMuda l _ _ _ _) => if both_left l then first_wins l tm else true | _ => true end.
Lemma first_always fl : first_only (snd (market_run SS tied' (AMuda fl))) = true.
Proof. destruct fl as [|[] [|[] [|[] [|[] [|[] fl]]]]]; vm_compute; reflexivity. Qed.
Definition left_first (x : res (transmgr * extra)) : bool :=
  match x with Ok (tm, XMuda l _ _ _ _) => both_left l && first_wins l tm | _ => false end.
Lemma first_here : left_first (snd (market_run SS tied (AMuda tied_flips))) = true.
Proof. vm_compute. reflexivity. Qed.

Lemma mem_lists i l : existsb (Nat.eqb i) l = true <-> In i l.
Proof. rewrite existsb_exists. split; [intros (j & I & E); apply Nat.eqb_eq in E; subst; exact I | intro I; exists i; split; [exact I | apply Nat.eqb_refl]]. Qed.
Lemma not_mem i l : negb (existsb (Nat.eqb i) l) = true <-> ~ In i l.
Proof. rewrite negb_true_iff, <- mem_lists. destruct (existsb _ l); intuition congruence. Qed.
Lemma renamed_first f x x' : (forall i j, f i = f j -> i = j) -> f 0%nat = 1%nat -> f 1%nat = 0%nat -> f 2%nat = 2%nat -> f 3%nat = 3%nat -> f 4%nat = 4%nat ->
  left_first x = true -> first_only x' = true -> ~ renamed f x x'.
Proof.
  intros Hf F0 F1 F2 F3 F4 X X' R. destruct x as [[tm ex]|]; [|discriminate]. destruct ex as [| |l r pl pr fees| |]; try discriminate.
  destruct x' as [[tm' ex']|]; [|exact R]. destruct R as [T R]. destruct ex' as [| |l' r' pl' pr' fees'| |]; try (exact R || discriminate R). destruct R as (P & _).
  cbn [left_first first_only] in X, X'. apply andb_true_iff in X. destruct X as [X1 X2].
  assert (I : forall i, In (f i) l' <-> In i l).
  { intro i. rewrite <- P, in_map_iff. split; [intros (j & E & J); apply Hf in E; subst; exact J | intro J; exists i; auto]. }
  assert (J : forall i, In (f i) (map t_bid (tm_trans tm')) <-> In i (map t_bid (tm_trans tm))).
  { intro i. rewrite T, map_map. change (fun x => t_bid (rename_trans f x)) with (fun x => f (t_bid x)). rewrite <- (map_map t_bid f), in_map_iff.
    split; [intros (j & E & J); apply Hf in E; subst; exact J | intro J; exists i; auto]. }
  assert (B : both_left l' = true).
  { unfold both_left in *. rewrite !andb_true_iff, !not_mem, !mem_lists in *. rewrite <- F4 at 1. rewrite <- F3 at 1. rewrite <- F2 at 1. rewrite <- F0 at 1. rewrite <- F1 at 1.
    rewrite !I. tauto. }
  rewrite B in X'. unfold first_wins in X2, X'. rewrite !andb_true_iff, !not_mem, !mem_lists in *. destruct X2 as [X2 _], X' as [_ X']. apply X'. rewrite <- F0. apply J, X2.
Qed.

Lemma muda_ties_order :
  exists (S : sorter) (m m' : market) (fl : list bool), compares_prices S /\ qty_pos (get_df (mk_bm m)) /\ price_nonneg (get_df (mk_bm m)) /\
    Permutation (bm_bids (mk_bm m)) (bm_bids (mk_bm m')) /\
    forall f fl', moved (bm_bids (mk_bm m)) (bm_bids (mk_bm m')) f -> ~ renamed f (snd (market_run S m (AMuda fl))) (snd (market_run S m' (AMuda fl'))).
Proof.
  exists SS, tied, tied', tied_flips. split; [exact stable_compares|]. split; [each_row|]. split; [each_row|]. split; [apply perm_swap|].
  intros f fl' [Hf M]. apply renamed_first; [exact Hf | | | | | | exact first_here | apply first_always].
  - specialize (M 0%nat _ eq_refl). destruct (f 0%nat) as [|[|[|[|[|n]]]]]; cbn in M; try discriminate M; [reflexivity | destruct n; discriminate M].
  - specialize (M 1%nat _ eq_refl). destruct (f 1%nat) as [|[|[|[|[|n]]]]]; cbn in M; try discriminate M; [reflexivity | destruct n; discriminate M].
  - specialize (M 2%nat _ eq_refl). destruct (f 2%nat) as [|[|[|[|[|n]]]]]; cbn in M; try discriminate M; [reflexivity | destruct n; discriminate M].
  - specialize (M 3%nat _ eq_refl). destruct (f 3%nat) as [|[|[|[|[|n]]]]]; cbn in M; try discriminate M; [reflexivity | destruct n; discriminate M].
  - specialize (M 4%nat _ eq_refl). destruct (f 4%nat) as [|[|[|[|[|n]]]]]; cbn in M; try discriminate M; [reflexivity | destruct n; discriminate M].
Qed.
