(** The theorems about the book, for a market; splitting a bid. *)
From Verif Require Import QcTac Num ModelBase ModelCurves ModelHuang ModelMerge ModelMarket StoreFacts Spec SpecTrade SpecMerge SpecBook HuangMarketFacts MarketOrder P2POrder BookFacts.

Lemma market_book S S' m m' smp smp' cnt cnt' : let d := get_df (mk_bm m) in let d' := get_df (mk_bm m') in same_book d d' ->
  let run := snd (market_run S m (AHuang smp cnt)) in let run' := snd (market_run S' m' (AHuang smp' cnt')) in
  (exists e, run = Err e /\ run' = Err e) \/
  exists tm tm' ex unit, run = Ok (tm, ex) /\ run' = Ok (tm', ex) /\
    (forall x, In x d -> traded_by (lbl x) (tm_trans tm) = unit (buying x) (np_round 5 (price x)) * qty x) /\
    (forall x, In x d' -> traded_by (lbl x) (tm_trans tm') = unit (buying x) (np_round 5 (price x)) * qty x) /\
    (forall t x, In t (tm_trans tm) -> In x d -> lbl x = t_bid t -> exists ps pb q, ex = XHuang ps pb q /\ t_price t = if buying x then pb else ps) /\
    (forall t x, In t (tm_trans tm') -> In x d' -> lbl x = t_bid t -> exists ps pb q, ex = XHuang ps pb q /\ t_price t = if buying x then pb else ps).
Proof. cbv zeta. rewrite !market_run_snd. exact (book_run S S' smp smp' cnt cnt' _ _ (get_df_lbl _) (get_df_lbl _)). Qed.

Lemma rows_from_app i l1 l2 : rows_from i (l1 ++ l2) = (rows_from i l1 ++ rows_from (i + length l1) l2)%list.
Proof.
  revert i. induction l1 as [|b l1 IH]; intro i; cbn [app rows_from length]; [rewrite Nat.add_0_r; reflexivity|]. f_equal. rewrite IH. do 2 f_equal. lia.
Qed.
Definition at_level (b : bool) (p : Qc) (x : bid) : bool := Bool.eqb (b_buying x) b && qeqb (np_round 5 (b_price x)) p.
Lemma level_rows i l b p : length (level (rows_from i l) b p) = length (filter (at_level b p) l) /\ qsumf qty (level (rows_from i l) b p) = qsumf b_qty (filter (at_level b p) l).
Proof.
  revert i. induction l as [|x l IH]; intro i; [split; reflexivity|]. cbn [rows_from]. unfold level in *. cbn [filter ModelBase.row_of buying price].
  change (Bool.eqb (b_buying x) b && qeqb (np_round 5 (b_price x)) p) with (at_level b p x). destruct (IH (Datatypes.S i)) as [I1 I2].
  destruct (at_level b p x); [|auto]. cbn [length]. rewrite !qsumf_cons, I1, I2. split; reflexivity.
Qed.
Lemma level_lists i l i' l' b p : (filter (at_level b p) l = [] <-> filter (at_level b p) l' = []) -> qsumf b_qty (filter (at_level b p) l) = qsumf b_qty (filter (at_level b p) l') ->
  (level (rows_from i l) b p = [] <-> level (rows_from i' l') b p = []) /\ qsumf qty (level (rows_from i l) b p) = qsumf qty (level (rows_from i' l') b p).
Proof.
  intros H E. destruct (level_rows i l b p) as [L1 L2], (level_rows i' l' b p) as [L1' L2']. split; [|congruence].
  rewrite <- (length_zero_iff_nil (level (rows_from i l) b p)), <- (length_zero_iff_nil (level (rows_from i' l') b p)), L1, L1'.
  rewrite (length_zero_iff_nil (filter (at_level b p) l)), (length_zero_iff_nil (filter (at_level b p) l')). exact H.
Qed.

Section Split.
  Variables (l1 l2 ps : list bid) (b : bid).
  Hypothesis P : pieces b ps.
  Lemma pieces_level s p : filter (at_level s p) ps = if at_level s p b then ps else [].
  Proof.
    destruct P as (_ & Hp & _). clear P. induction ps as [|x l IH]; [destruct (at_level s p b); reflexivity|]. cbn [filter].
    assert (E : at_level s p x = at_level s p b) by (destruct (Hp x (or_introl eq_refl)) as [E1 E2]; unfold at_level; rewrite E1, E2; reflexivity).
    rewrite E, IH by (intros y Hy; apply Hp; right; exact Hy). destruct (at_level s p b); reflexivity.
  Qed.
  Lemma split_book : same_book (rows_from 0 (l1 ++ b :: l2)) (rows_from 0 (l1 ++ ps ++ l2)).
  Proof.
    intros s p. apply level_lists.
    - rewrite !filter_app, pieces_level. cbn [filter]. destruct (at_level s p b); [|reflexivity]. split; intro E.
      + destruct (filter _ l1); discriminate E.
      + apply app_eq_nil in E. destruct E as [_ E]. apply app_eq_nil in E. destruct P as (N & _). tauto.
    - rewrite !filter_app, pieces_level. cbn [filter]. destruct P as (_ & _ & Q). destruct (at_level s p b); rewrite !qsumf_app; [rewrite qsumf_cons, Q; reflexivity | rewrite qsumf_nil; ring].
  Qed.
End Split.

Lemma pieces_sum (unit : bool -> Qc -> Qc) (f : nat -> Qc) s p ps i : (forall x, In x (rows_from i ps) -> buying x = s /\ np_round 5 (price x) = p /\ f (lbl x) = unit (buying x) (np_round 5 (price x)) * qty x) ->
  qsumf f (seq i (length ps)) = unit s p * qsumf b_qty ps.
Proof.
  revert i. induction ps as [|x l IH]; intros i H; [cbn; ring|]. cbn [length seq]. rewrite !qsumf_cons, (IH (Datatypes.S i)) by (intros y Hy; apply H; right; exact Hy).
  destruct (H (ModelBase.row_of i x) (or_introl eq_refl)) as (A1 & A2 & A3). rewrite A1, A2 in A3. cbn [ModelBase.row_of lbl qty] in A3. rewrite A3. ring.
Qed.

Lemma market_split S S' m m' smp smp' cnt cnt' l1 b l2 ps :
  bm_bids (mk_bm m) = (l1 ++ b :: l2)%list -> bm_bids (mk_bm m') = (l1 ++ ps ++ l2)%list -> pieces b ps ->
  let run := snd (market_run S m (AHuang smp cnt)) in let run' := snd (market_run S' m' (AHuang smp' cnt')) in
  (exists e, run = Err e /\ run' = Err e) \/
  exists tm tm' ex, run = Ok (tm, ex) /\ run' = Ok (tm', ex) /\
    (forall k, (k < length l1)%nat -> traded_by k (tm_trans tm') = traded_by k (tm_trans tm)) /\
    qsumf (fun k => traded_by k (tm_trans tm')) (seq (length l1) (length ps)) = traded_by (length l1) (tm_trans tm) /\
    (forall k, (k < length l2)%nat -> traded_by (length l1 + length ps + k) (tm_trans tm') = traded_by (length l1 + 1 + k) (tm_trans tm)).
Proof.
  intros E E' P. pose proof (split_book l1 l2 ps b P) as Bk. rewrite <- E, <- E' in Bk.
  destruct (market_book S S' m m' smp smp' cnt cnt' Bk) as [H|(tm & tm' & ex & unit & R & R' & T & T' & _)]; [left; exact H|]. right. cbv zeta. exists tm, tm', ex. split; [exact R|]. split; [exact R'|].
  unfold get_df in T, T'. rewrite E in T. rewrite E' in T'. rewrite rows_from_app in T, T'. cbn [rows_from] in T. rewrite rows_from_app in T'. cbn [Nat.add] in T, T'.
  split; [|split].
  - intros k Hk. destruct (nth_error l1 k) as [x|] eqn:N; [|apply nth_error_None in N; lia]. apply (rows_from_nth 0) in N. apply nth_error_In in N.
    pose proof (T _ (in_or_app _ _ _ (or_introl N))) as A. pose proof (T' _ (in_or_app _ _ _ (or_introl N))) as A'. cbn [ModelBase.row_of lbl Nat.add] in A, A'. congruence.
  - rewrite (pieces_sum unit _ (b_buying b) (np_round 5 (b_price b)) ps (length l1)).
    + pose proof (T (ModelBase.row_of (length l1) b)) as A. cbn [ModelBase.row_of lbl qty buying price] in A. rewrite A by (apply in_or_app; right; left; reflexivity).
      destruct P as (_ & _ & ->). reflexivity.
    + intros x Hx. assert (I : In (terms x) ps).
      { rewrite <- (terms_rows (length l1) ps). apply in_map, Hx. }
      destruct P as (_ & Hp & _). destruct (Hp _ I) as [A1 A2]. unfold terms in A1, A2. cbn [b_buying b_price] in A1, A2. split; [exact A1|]. split; [exact A2|].
      apply T'. apply in_or_app. right. apply in_or_app. left. exact Hx.
  - intros k Hk. destruct (nth_error l2 k) as [x|] eqn:N; [|apply nth_error_None in N; lia].
    pose proof (rows_from_nth (length l1 + length ps) _ _ _ N) as N'. apply (rows_from_nth (Datatypes.S (length l1))) in N. apply nth_error_In in N, N'.
    assert (I : In (ModelBase.row_of (Datatypes.S (length l1) + k) x) (rows_from 0 l1 ++ ModelBase.row_of (length l1) b :: rows_from (Datatypes.S (length l1)) l2)) by (apply in_or_app; right; right; exact N).
    assert (I' : In (ModelBase.row_of (length l1 + length ps + k) x) (rows_from 0 l1 ++ rows_from (length l1) ps ++ rows_from (length l1 + length ps) l2)) by (apply in_or_app; right; apply in_or_app; right; exact N').
    apply T in I. apply T' in I'. cbn [ModelBase.row_of lbl qty buying price] in I, I'. rewrite I'. replace (length l1 + 1 + k)%nat with (Datatypes.S (length l1) + k)%nat by lia. congruence.
Qed.
