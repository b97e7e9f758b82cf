(** [Market.run] with the Huang auction depends neither on the order of the bids nor on the sorting algorithm. *)
From Verif Require Import QcTac Num ModelBase ModelCurves ModelHuang ModelMuda ModelMerge ModelMarket ListFacts Spec SpecMerge SpecUnits SpecOrder
  StoreFacts Sorter SortFacts MergeFacts UnitFacts UnitMech UnitMarket UnitWitness ExactFacts.

(** ** the sorting algorithm *)
Lemma run0_sort S1 S2 d : prices_distinct d -> mech_run0 (huang_auction S1) d = mech_run0 (huang_auction S2) d.
Proof. intro N. unfold mech_run0. destruct (_ || _); [reflexivity|]. apply tie_huang; [reflexivity | exact N]. Qed.
Lemma merged_sort S1 S2 d : prices_distinct d -> merged_run (huang_auction S1) d = merged_run (huang_auction S2) d.
Proof. intro N. unfold merged_run. destruct (lone_buyer d); [reflexivity | apply run0_sort, N]. Qed.
Lemma algo_sort S1 S2 smp cnt d : run_algo S1 (AHuang smp cnt) d = run_algo S2 (AHuang smp cnt) d.
Proof.
  cbn [run_algo mechanism]. destruct (merge_same_price_ok 5 smp d cnt) as (mb & ms & c2 & E & M). rewrite E. cbn [bind].
  rewrite (merged_sort S1 S2) by (apply (merged_distinct _ _ _ _ _ _ M)). reflexivity.
Qed.
Theorem market_sort S1 S2 m smp cnt : market_run S1 m (AHuang smp cnt) = market_run S2 m (AHuang smp cnt).
Proof. unfold market_run. rewrite (algo_sort S1 S2). reflexivity. Qed.

(** ** the order of the bids *)
Definition terms (r : row) : bid := mkBid (qty r) (price r) (user r) (buying r) (time r) (divisible r).
Lemma terms_rows i bs : map terms (rows_from i bs) = bs.
Proof. revert i. induction bs as [|[] bs IH]; intro i; [reflexivity|]. cbn [rows_from map]. rewrite IH. reflexivity. Qed.
Lemma terms_nth bs r : In r (rows_from 0 bs) -> nth_error bs (lbl r) = Some (terms r).
Proof.
  intro H. apply In_nth_error in H. destruct H as (k & H).
  assert (L : (k < length bs)%nat) by (rewrite <- (rows_from_length 0 bs); apply nth_error_Some; congruence).
  destruct (nth_error bs k) as [b|] eqn:E; [|apply nth_error_None in E; lia].
  rewrite (rows_from_nth 0 bs k b E) in H. injection H as <-. cbn [row_of lbl Nat.add]. rewrite E. destruct b; reflexivity.
Qed.

Lemma sorted_lt_unique l : forall l', StronglySorted Qclt l -> StronglySorted Qclt l' -> (forall x, In x l <-> In x l') -> l = l'.
Proof.
  induction l as [|x l IH]; intros l' H H' E.
  - destruct l' as [|y l']; [reflexivity|]. destruct (proj2 (E y)). left; reflexivity.
  - destruct l' as [|y l']; [destruct (proj1 (E x)); left; reflexivity|].
    inversion_clear H as [|? ? Hs Hx]. inversion_clear H' as [|? ? Hs' Hy]. rewrite Forall_forall in Hx, Hy.
    assert (x = y).
    { destruct (proj1 (E x) (or_introl eq_refl)) as [|I]; [congruence|]. destruct (proj2 (E y) (or_introl eq_refl)) as [|J]; [congruence|].
      specialize (Hx _ J). specialize (Hy _ I). exfalso. qlra. }
    subst y. f_equal. apply IH; auto. intro z. split; intro I.
    + destruct (proj1 (E z) (or_intror I)) as [<-|J]; [|exact J]. specialize (Hx _ I). exfalso. qlra.
    + destruct (proj2 (E z) (or_intror I)) as [<-|J]; [|exact J]. specialize (Hy _ I). exfalso. qlra.
Qed.

(** a test that only looks at the terms *)
Lemma filter_terms (p : row -> bool) (p' : bid -> bool) l : (forall r, p r = p' (terms r)) -> map terms (filter p l) = filter p' (map terms l).
Proof. intro H. induction l as [|r l IH]; [reflexivity|]. cbn [filter map]. rewrite <- H. destruct (p r); cbn [map]; rewrite IH; reflexivity. Qed.
Lemma perm_terms (p : row -> bool) (p' : bid -> bool) l l' : (forall r, p r = p' (terms r)) -> Permutation (map terms l) (map terms l') ->
  Permutation (map terms (filter p l)) (map terms (filter p l')).
Proof. intros H P. rewrite !(filter_terms p p') by exact H. apply filter_perm, P. Qed.
Lemma sum_terms l l' : Permutation (map terms l) (map terms l') -> qsumf qty l' = qsumf qty l.
Proof.
  intro P. assert (E : forall l, qsumf qty l = qsum (map b_qty (map terms l))) by (intro k; rewrite map_map; reflexivity).
  rewrite !E. clear E. apply (Permutation_map b_qty) in P. generalize (map b_qty (map terms l)), (map b_qty (map terms l')), P.
  clear. intros a b P. change (qsum b) with (qsum (map (fun x => x) b)) || idtac. rewrite <- (map_id b), <- (map_id a).
  induction P; cbn [map qsum]; [reflexivity | rewrite IHP; reflexivity | ring | congruence].
Qed.

Section Order.
  Variables bs bs' : list bid.
  Hypothesis P : Permutation bs bs'.
  Let d := rows_from 0 bs.
  Let d' := rows_from 0 bs'.
  Variable prec : Z.

  Lemma rows_perm : Permutation (map terms d) (map terms d').
  Proof. unfold d, d'. rewrite !terms_rows. exact P. Qed.
  Lemma buyers_perm : Permutation (map terms (buyers d)) (map terms (buyers d')).
  Proof. apply (perm_terms buying b_buying); [reflexivity | apply rows_perm]. Qed.
  Lemma sellers_perm : Permutation (map terms (sellers d)) (map terms (sellers d')).
  Proof. apply (perm_terms _ (fun b => negb (b_buying b))); [reflexivity | apply rows_perm]. Qed.
  Lemma keys_perm l l' : Permutation (map terms l) (map terms l') -> side_keys prec l = side_keys prec l'.
  Proof.
    intro H. unfold side_keys. apply sorted_lt_unique; try apply group_keys_sorted. intro x. rewrite !group_keys_In.
    assert (E : forall k, map (fun x => np_round prec (price x)) k = map (fun b => np_round prec (b_price b)) (map terms k)) by (intro k; rewrite map_map; reflexivity).
    rewrite !E. split; apply Permutation_in; [|symmetry]; apply Permutation_map, H.
  Qed.
  Lemma grp_perm l l' k : Permutation (map terms l) (map terms l') -> Permutation (map terms (grp prec l k)) (map terms (grp prec l' k)).
  Proof. apply (perm_terms _ (fun b => qeqb (np_round prec (b_price b)) k)). reflexivity. Qed.

  (** an entry of the merged table and of the mapping, for the two orders *)
  Definition entries (x y : row * list nat) : Prop :=
    qty (fst y) = qty (fst x) /\ price (fst y) = price (fst x) /\ buying (fst y) = buying (fst x) /\
    exists g g', snd x = map lbl g /\ snd y = map lbl g' /\ incl g d /\ incl g' d' /\ Permutation (map terms g) (map terms g').
  Lemma entries_side b l l' keys m m' : Permutation (map terms l) (map terms l') -> incl l d -> incl l' d' ->
    Forall2 (entry_ok prec l b) keys m -> Forall2 (entry_ok prec l' b) keys m' -> Forall2 entries m m'.
  Proof.
    intros Hp Hl Hl' F. revert m'. induction F as [|k x keys m Hx F IH]; intros m' F'; inversion_clear F' as [|? y ? m0 Hy F0]; constructor; [|apply IH; assumption].
    destruct Hx as (A1 & A2 & A3 & A4 & _), Hy as (B1 & B2 & B3 & B4 & _). pose proof (grp_perm l l' k Hp) as G.
    split; [rewrite A2, B2; apply sum_terms, G|]. split; [congruence|]. split; [congruence|].
    exists (grp prec l k), (grp prec l' k). repeat split; auto.
    - intros r Hr. apply Hl. apply filter_In in Hr. apply Hr.
    - intros r Hr. apply Hl'. apply filter_In in Hr. apply Hr.
  Qed.
  Lemma entries_merge c0 c2 mb ms c0' c2' mb' ms' : merge_ok prec d c0 mb ms c2 -> merge_ok prec d' c0' mb' ms' c2' -> Forall2 entries (mb ++ ms) (mb' ++ ms').
  Proof.
    intros M M'. apply Forall2_app.
    - apply (entries_side true (buyers d) (buyers d') (side_keys prec (buyers d))); [apply buyers_perm| intros r Hr; apply filter_In in Hr; apply Hr | intros r Hr; apply filter_In in Hr; apply Hr | apply M |].
      rewrite (keys_perm _ _ buyers_perm). apply M'.
    - apply (entries_side false (sellers d) (sellers d') (side_keys prec (sellers d))); [apply sellers_perm| intros r Hr; apply filter_In in Hr; apply Hr | intros r Hr; apply filter_In in Hr; apply Hr | apply M |].
      rewrite (keys_perm _ _ sellers_perm). apply M'.
  Qed.
  Lemma entries_rows l l' i n : Forall2 entries l l' -> map lbl (map fst l) = seq i n -> map lbl (map fst l') = seq i n -> Forall2 (same_bid 1 1) (map fst l) (map fst l').
  Proof.
    intro F. revert i n. induction F as [|x y l l' (A1 & A2 & A3 & _) F IH]; intros i n E E'; [constructor|]. destruct n as [|n]; [discriminate E|].
    cbn [map seq] in *. injection E as E0 E. injection E' as E0' E'. constructor; [|apply (IH (Datatypes.S i) n); assumption].
    split; [congruence|]. split; [rewrite A1; ring|]. split; [rewrite A2; ring | exact A3].
  Qed.

  Lemma lbl_d : map lbl d = seq 0 (length d).
  Proof. unfold d. rewrite rows_from_lbl, rows_from_length. reflexivity. Qed.
  Lemma lbl_d' : map lbl d' = seq 0 (length d').
  Proof. unfold d'. rewrite rows_from_lbl, rows_from_length. reflexivity. Qed.

  Lemma split_one_order l l' t : Forall2 entries l l' ->
    match split_one d (map snd l) false t, split_one d' (map snd l') false t with
    | Ok a, Ok a' => Permutation (map (seen bs) a) (map (seen bs') a') | Err e, Err e' => e' = e | _, _ => False end.
  Proof.
    intro F. pose proof (F2_nth entries l l' F (t_bid t)) as N.
    destruct (nth_error l (t_bid t)) as [x|] eqn:E, (nth_error l' (t_bid t)) as [y|] eqn:E'; try contradiction.
    2: { unfold split_one. rewrite !nth_error_map, E, E'. reflexivity. }
    destruct N as (_ & _ & _ & g & g' & X1 & X2 & I & I' & G). pose proof (sum_terms g g' G) as Sg.
    assert (Lg : length g' = length g) by (rewrite <- (map_length terms g), <- (map_length terms g'); symmetry; apply Permutation_length, G).
    assert (E1 : nth_error (map snd l) (t_bid t) = Some (map lbl g)) by (rewrite nth_error_map, E; cbn [option_map]; congruence).
    assert (E1' : nth_error (map snd l') (t_bid t) = Some (map lbl g')) by (rewrite nth_error_map, E'; cbn [option_map]; congruence).
    destruct (qeq_spec (qsumf qty g) 0) as [Z|Z].
    - unfold split_one. rewrite E1, E1', (iloc_rows d lbl_d _ g eq_refl I), (iloc_rows d' lbl_d' _ g' eq_refl I'). cbn [bind].
      rewrite !andb_false_r. change (qsum (map qty g)) with (qsumf qty g). change (qsum (map qty g')) with (qsumf qty g'). rewrite Sg, Z.
      change (qeqb 0 0) with true. cbn iota. destruct g, g'; cbn [map]; try discriminate Lg; [constructor | reflexivity].
    - rewrite (split_one_spec d _ false t _ g lbl_d E1 eq_refl I Z (or_introl eq_refl)).
      rewrite (split_one_spec d' _ false t _ g' lbl_d' E1' eq_refl I') by (rewrite ?Sg; auto). rewrite Sg, !map_map.
      set (h := fun b : bid => (Some b, t_qty t * (b_qty b / qsumf qty g), t_price t, t_source t, t_active t)).
      assert (K : forall k D, incl k (rows_from 0 D) -> map (fun r => seen D (mkTrans (lbl r) (t_qty t * (qty r / qsumf qty g)) (t_price t) (t_source t) (t_active t))) k = map h (map terms k)).
      { intros k D Ik. rewrite map_map. apply map_ext_in. intros r Hr. unfold seen, h. cbn [t_bid t_qty t_price t_source t_active].
        rewrite (terms_nth D r (Ik r Hr)). reflexivity. }
      rewrite (K g bs I), (K g' bs' I'). apply Permutation_map, G.
  Qed.
  Lemma split_list_order l l' ts : Forall2 entries l l' -> forall acc acc', n_trans acc' = n_trans acc -> Permutation (map (seen bs) (tm_trans acc)) (map (seen bs') (tm_trans acc')) ->
    match split_list d (map snd l) false ts acc, split_list d' (map snd l') false ts acc' with
    | Ok a, Ok a' => n_trans a' = n_trans a /\ Permutation (map (seen bs) (tm_trans a)) (map (seen bs') (tm_trans a')) | Err e, Err e' => e' = e | _, _ => False end.
  Proof.
    intro F. induction ts as [|t ts IH]; intros acc acc' Hn Hp; cbn [split_list]; [auto|].
    pose proof (split_one_order l l' t F) as K.
    destruct (split_one d (map snd l) false t) as [a|], (split_one d' (map snd l') false t) as [a'|]; cbn [bind]; try contradiction; [|exact K].
    apply IH.
    - rewrite !add_all_n. rewrite Hn. f_equal. rewrite <- (map_length (seen bs) a), <- (map_length (seen bs') a'). symmetry. apply Permutation_length, K.
    - rewrite !add_all_trans, !map_app. apply Permutation_app; assumption.
  Qed.
End Order.

Lemma algo_order S S' bs bs' smp smp' cnt cnt' : Permutation bs bs' ->
  same_outcome bs bs' (run_algo S (AHuang smp cnt) (rows_from 0 bs)) (run_algo S' (AHuang smp' cnt') (rows_from 0 bs')).
Proof.
  intro P. rewrite (algo_sort S stable_sorter), (algo_sort S' stable_sorter). cbn [run_algo mechanism].
  destruct (merge_same_price_ok 5 smp (rows_from 0 bs) cnt) as (mb & ms & c2 & E & M). destruct (merge_same_price_ok 5 smp' (rows_from 0 bs') cnt') as (mb' & ms' & c2' & E' & M').
  rewrite E, E'. cbn [bind]. pose proof (entries_merge bs bs' P 5 _ _ _ _ _ _ _ _ M M') as F.
  assert (R : Forall2 (same_bid 1 1) (map fst (mb ++ ms)) (map fst (mb' ++ ms'))).
  { apply (entries_rows bs bs' _ _ 0 (length (mb ++ ms)) F); [apply M|]. rewrite (Forall2_len _ _ _ F). apply M'. }
  assert (one : 0 < 1) by reflexivity.
  rewrite (merged_run_units stable_sorter 1 1 (same_bid 1 1) (huang_auction stable_sorter) (huang_auction stable_sorter) _ _ (fun r r' H => H) R
    (huang_units 1 1 one one (same_bid 1 1) (fun r r' H => H) stable_sorter stable_compares _ _ R)), result_one.
  destruct (merged_run (huang_auction stable_sorter) (map fst (mb ++ ms))) as [[tm ex]|]; [|reflexivity]. cbn [bind]. unfold split_transactions_merged_players.
  pose proof (split_list_order bs bs' _ _ (tm_trans tm) F tm_init tm_init eq_refl (Permutation_refl _)) as K.
  destruct (split_list (rows_from 0 bs) _ false (tm_trans tm) tm_init) as [a|], (split_list (rows_from 0 bs') _ false (tm_trans tm) tm_init) as [a'|]; try contradiction; cbn [bind same_outcome]; [|exact K].
  destruct K as [K1 K2]. auto.
Qed.
Theorem market_order S S' m m' smp smp' cnt cnt' : Permutation (bm_bids (mk_bm m)) (bm_bids (mk_bm m')) ->
  same_outcome (bm_bids (mk_bm m)) (bm_bids (mk_bm m')) (snd (market_run S m (AHuang smp cnt))) (snd (market_run S' m' (AHuang smp' cnt'))).
Proof. intro P. rewrite !run_result. apply (algo_order S S' _ _ smp smp' cnt cnt' P). Qed.

(** ** units and names, whatever the sorting algorithm *)
Lemma huang_any S S' m smp cnt : snd (market_run S m (AHuang smp cnt)) = snd (market_run S' m (AHuang smp cnt)).
Proof. rewrite (market_sort S S'). reflexivity. Qed.
Theorem any_qty S S' m m' a smp smp' cnt cnt' : 0 < a -> Forall2 (same_bid a 1) (get_df (mk_bm m)) (get_df (mk_bm m')) ->
  snd (market_run S' m' (AHuang smp' cnt')) = result_units a 1 (snd (market_run S m (AHuang smp cnt))).
Proof. intros Ha F. rewrite (huang_any S stable_sorter), (huang_any S' stable_sorter). apply run_huang_qty; [exact stable_compares | exact Ha | exact F]. Qed.
Theorem any_grid S S' m m' a b smp smp' cnt cnt' : 0 < a -> 0 < b -> Forall2 (same_bid a b) (get_df (mk_bm m)) (get_df (mk_bm m')) ->
  (forall r, In r (get_df (mk_bm m)) -> np_round 5 (price r) = price r) -> (forall r, In r (get_df (mk_bm m')) -> np_round 5 (price r) = price r) ->
  snd (market_run S' m' (AHuang smp' cnt')) = result_units a b (snd (market_run S m (AHuang smp cnt))).
Proof. intros Ha Hb F G G'. rewrite (huang_any S stable_sorter), (huang_any S' stable_sorter). apply run_huang_grid; auto. exact stable_compares. Qed.
Theorem any_names S S' m m' smp smp' cnt cnt' : Forall2 same_terms_anon (get_df (mk_bm m)) (get_df (mk_bm m')) ->
  snd (market_run S' m' (AHuang smp' cnt')) = snd (market_run S m (AHuang smp cnt)).
Proof. intros F. rewrite (huang_any S stable_sorter), (huang_any S' stable_sorter). apply huang_names; [exact stable_compares | exact F]. Qed.
