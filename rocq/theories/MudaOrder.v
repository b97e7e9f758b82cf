(** MUDA does not depend on the order of the bids when the prices of each side differ: the same split into
    halves gives the same result. *)
From Coq Require Import FinFun.
From Verif Require Import QcTac Num ModelBase ModelCurves ModelHuang ModelMuda ModelMarket ListFacts Spec SpecMuda SpecOrder StoreFacts Sorter SortFacts
  CurveFacts MudaFacts MudaHalf MudaTop ExactFacts MarketOrder P2POrder.

Section Rename.
  Variables (f : nat -> nat).
  Hypothesis Hf : Injective f.
  Notation ren := (ren f).
  Notation rt := (rename_trans f).
  Definition rtm (tm : transmgr) : transmgr := mkTM (n_trans tm) (map rt (tm_trans tm)).
  Lemma filter_ren (p : row -> bool) l : (forall r, p (ren r) = p r) -> filter p (map ren l) = map ren (filter p l).
  Proof. intro H. induction l as [|r l IH]; [reflexivity|]. cbn [map filter]. rewrite H. destruct (p r); cbn [map]; rewrite IH; reflexivity. Qed.
  Lemma map_ren {A} (h : row -> A) l : (forall r, h (ren r) = h r) -> map h (map ren l) = map h l.
  Proof. intro H. rewrite map_map. apply map_ext. exact H. Qed.
  Lemma add_all_ren l tm : add_all (rtm tm) (map rt l) = rtm (add_all tm l).
  Proof.
    revert tm. unfold add_all. induction l as [|t l IH]; intro tm; [reflexivity|]. cbn [map fold_left]. rewrite <- IH. f_equal. unfold rtm, add_transaction.
    cbn [fst n_trans tm_trans]. rewrite map_app. reflexivity.
  Qed.
  Section Sorts.
    Variables S1 S2 : sorter.
    Lemma desc_ren l l' : Permutation (map ren l) l' -> NoDup (map price l) -> s_desc S2 l' = map ren (s_desc S1 l).
    Proof.
      intros P N. symmetry. apply (sorted_unique price (fun a b => b <= a)).
      - intros a b H1 H2. apply Qcle_antisym; assumption.
      - rewrite (s_desc_perm S2). rewrite (Permutation_map ren (s_desc_perm S1 l)). exact P.
      - rewrite map_ren by reflexivity. apply (Permutation_NoDup (Permutation_map price (Permutation_sym (s_desc_perm S1 l)))), N.
      - pose proof (s_desc_sorted S1 l) as H. induction H as [|x k H IH Hx]; cbn [map]; constructor; [exact IH|]. rewrite Forall_forall in *.
        intros y Iy. apply in_map_iff in Iy. destruct Iy as (z & <- & Iz). apply (Hx z Iz).
      - apply s_desc_sorted.
    Qed.
    Lemma asc_ren l l' : Permutation (map ren l) l' -> NoDup (map price l) -> s_asc S2 l' = map ren (s_asc S1 l).
    Proof.
      intros P N. symmetry. apply (sorted_unique price (fun a b => a <= b)).
      - intros a b H1 H2. apply Qcle_antisym; assumption.
      - rewrite (s_asc_perm S2). rewrite (Permutation_map ren (s_asc_perm S1 l)). exact P.
      - rewrite map_ren by reflexivity. apply (Permutation_NoDup (Permutation_map price (Permutation_sym (s_asc_perm S1 l)))), N.
      - pose proof (s_asc_sorted S1 l) as H. induction H as [|x k H IH Hx]; cbn [map]; constructor; [exact IH|]. rewrite Forall_forall in *.
        intros y Iy. apply in_map_iff in Iy. destruct Iy as (z & <- & Iz). apply (Hx z Iz).
      - apply s_asc_sorted.
    Qed.
    Variables d d' : df.
    Hypothesis P : Permutation (map ren d) d'.
    Hypothesis N : prices_distinct d.
    Lemma buyers_ren : Permutation (map ren (buyers d)) (buyers d').
    Proof. unfold buyers. rewrite <- filter_ren by reflexivity. apply filter_perm, P. Qed.
    Lemma sellers_ren : Permutation (map ren (sellers d)) (sellers d').
    Proof. unfold sellers. rewrite <- filter_ren by reflexivity. apply filter_perm, P. Qed.
    Lemma price_ren : find_competitive_price S2 d' = find_competitive_price S1 d.
    Proof.
      unfold find_competitive_price, demand_curve_from_bids, supply_curve_from_bids. rewrite (desc_ren _ _ buyers_ren (proj1 N)), (asc_ren _ _ sellers_ren (proj2 N)).
      assert (C : forall l, curve_rows (map ren l) = curve_rows l).
      { intro l. unfold curve_rows. rewrite !map_ren by reflexivity. reflexivity. }
      cbn [fst]. rewrite !C. reflexivity.
    Qed.
    Lemma cut_ren (l : df) (q : Qc) : get_trading_bids (map ren l) q = match get_trading_bids l q with Ok x => Ok (map ren (fst x), snd x) | Err e => Err e end.
    Proof.
      unfold get_trading_bids. rewrite map_length, !map_ren by reflexivity. cbv zeta. match goal with |- context [nth_error l ?j] => set (i := j) end. rewrite firstn_map, map_ren by reflexivity.
      rewrite nth_error_map. destruct (nth_error l i) as [r|]; cbn [option_map]; [|reflexivity]. change (qty (ren r)) with (qty r).
      destruct (qltb _ (qty r)); [|reflexivity]. cbn [fst snd]. rewrite skipn_map, map_app. reflexivity.
    Qed.
    Lemma fee_ren l i u q p : compute_fee (indexed (map ren l)) i u q p = compute_fee (indexed l) i u q p.
    Proof.
      set (g := fun ir : nat * row => (fst ir, ren (snd ir))).
      assert (I : indexed (map ren l) = map g (indexed l)).
      { unfold indexed. rewrite map_length. generalize (seq 0 (length l)). induction l as [|r l IH]; intros [|n k]; [reflexivity..|]. cbn [map combine]. rewrite IH. reflexivity. }
      rewrite I. generalize (indexed l). clear I. intro L. unfold compute_fee.
      assert (Fi : forall (h : nat * row -> bool) k, (forall x, h (g x) = h x) -> filter h (map g k) = map g (filter h k)).
      { intros h k H. induction k as [|x k IH]; [reflexivity|]. cbn [map filter]. rewrite H. destruct (h x); cbn [map]; rewrite IH; reflexivity. }
      assert (Mp : forall (h : nat * row -> Qc) k, (forall x, h (g x) = h x) -> map h (map g k) = map h k) by (intros h k H; rewrite map_map; apply map_ext; exact H).
      rewrite (Fi (fun ir => negb (Z.eqb (user (snd ir)) u)) L) by reflexivity. set (O := filter _ L). clearbody O. destruct O as [|x0 O0]; [reflexivity|].
      match goal with |- match _ with [] => _ | _ :: _ => ?a end = ?b => change (a = b) end. generalize (x0 :: O0). clear x0 O0. intro O.
      cbv zeta. rewrite map_length, !Mp by reflexivity. match goal with |- context [nth_error O ?j] => set (n := j) end. rewrite !firstn_map, Mp by reflexivity. set (diff := q - _).
      rewrite nth_error_map.
      assert (SL : forall k v, set_last_qty (map g k) v = map g (set_last_qty k v)).
      { intros k v. unfold set_last_qty. rewrite <- map_rev. destruct (rev k) as [|[j r] t]; [reflexivity|]. cbn [map]. unfold g at 1. cbn [fst snd]. rewrite map_app, <- map_rev. reflexivity. }
      set (W := match nth_error O n with Some (_, r) => if qltb diff (qty r) then set_last_qty (firstn (Datatypes.S n) O) diff else firstn (Datatypes.S n) O | None => firstn (Datatypes.S n) O end).
      replace (match option_map g (nth_error O n) with Some (_, r) => if qltb diff (qty r) then set_last_qty (map g (firstn (Datatypes.S n) O)) diff else map g (firstn (Datatypes.S n) O) | None => map g (firstn (Datatypes.S n) O) end)
        with (map g W).
      2: { unfold W. destruct (nth_error O n) as [[j r]|]; cbn [option_map g fst snd]; [|reflexivity]. change (qty (ren r)) with (qty r). destruct (qltb diff (qty r)); [symmetry; apply SL | reflexivity]. }
      rewrite (Fi (fun ir => Nat.ltb i (fst ir))) by reflexivity. rewrite Mp by reflexivity. reflexivity.
    Qed.
    Lemma charge_ren l i q p us : forall fees, charge_users (map ren l) i q p us fees = charge_users l i q p us fees.
    Proof. induction us as [|u us IH]; intro fees; [reflexivity|]. cbn [charge_users]. rewrite fee_ren. destruct (set_fee _ _ _); [apply IH | reflexivity]. Qed.
    Lemma side_ren p fees : solve_market_side S2 d' p fees = match solve_market_side S1 d p fees with Ok x => Ok (rtm (fst x), snd x) | Err e => Err e end.
    Proof.
      unfold solve_market_side. pose proof buyers_ren as Pb. pose proof sellers_ren as Ps.
      destruct N as [N1 N2]. change (filter buying d) with (buyers d) in N1. change (filter (fun r => negb (buying r)) d) with (sellers d) in N2.
      destruct (buyers d) as [|b lb]; [apply Permutation_nil in Pb; rewrite Pb; reflexivity|].
      destruct (buyers d') as [|b' lb']; [apply Permutation_sym, Permutation_nil in Pb; discriminate|].
      destruct (sellers d) as [|s ls]; [apply Permutation_nil in Ps; rewrite Ps; reflexivity|].
      destruct (sellers d') as [|s' ls']; [apply Permutation_sym, Permutation_nil in Ps; discriminate|].
      set (PB := fun r => nleb p (Fin (price r))). set (PS := fun r => nleb (Fin (price r)) p).
      rewrite (desc_ren (filter PB (b :: lb)) (filter PB (b' :: lb'))); [|rewrite <- filter_ren by reflexivity; apply filter_perm, Pb | apply NoDup_filter_map, N1].
      rewrite (asc_ren (filter PS (s :: ls)) (filter PS (s' :: ls'))); [|rewrite <- filter_ren by reflexivity; apply filter_perm, Ps | apply NoDup_filter_map, N2].
      set (D := s_desc S1 _). set (U := s_asc S1 _). clearbody D U. cbv zeta. rewrite !map_ren by reflexivity.
      set (c := qltb (qsum (map qty D)) (qsum (map qty U))). destruct (qltb 0 (if c then qsum (map qty D) else qsum (map qty U))); [|reflexivity].
      destruct p as [pr| | |]; try reflexivity.
      assert (Mk : forall l, map (fun r => mkTrans (lbl r) (qty r) pr (-1) false) (map ren l) = map rt (map (fun r => mkTrans (lbl r) (qty r) pr (-1) false) l)).
      { intro l. rewrite !map_map. apply map_ext. reflexivity. }
      destruct c; rewrite cut_ren.
      - destruct (get_trading_bids U _) as [[L i]|]; [|reflexivity]. cbn [bind fst snd]. rewrite cut_ren.
        destruct (get_trading_bids D _) as [[H j]|]; [|reflexivity]. cbn [bind fst snd].
        rewrite charge_ren, !firstn_map, map_ren by reflexivity. destruct (charge_users _ _ _ _ _ _) as [k|]; [|reflexivity]. cbn [bind fst snd]. f_equal. f_equal.
        rewrite !Mk. change tm_init with (rtm tm_init) at 1. rewrite !add_all_ren. reflexivity.
      - destruct (get_trading_bids D _) as [[L i]|]; [|reflexivity]. cbn [bind fst snd]. rewrite cut_ren.
        destruct (get_trading_bids U _) as [[H j]|]; [|reflexivity]. cbn [bind fst snd].
        rewrite charge_ren, !firstn_map, map_ren by reflexivity. destruct (charge_users _ _ _ _ _ _) as [k|]; [|reflexivity]. cbn [bind fst snd]. f_equal. f_equal.
        rewrite !Mk. change tm_init with (rtm tm_init) at 1. rewrite !add_all_ren. reflexivity.
    Qed.
  End Sorts.
  Lemma merge_ren a b : tm_merge (rtm a) (rtm b) = rtm (tm_merge a b).
  Proof. unfold tm_merge. change (tm_trans (rtm a)) with (map rt (tm_trans a)). change (tm_trans (rtm b)) with (map rt (tm_trans b)). change tm_init with (rtm tm_init) at 1. rewrite !add_all_ren. reflexivity. Qed.
End Rename.

Lemma unique_dup l : NoDup (map price l) -> dup_price_user l = false.
Proof.
  induction l as [|r l IH]; [reflexivity|]. cbn [map dup_price_user]. intro N. apply NoDup_cons_iff in N. destruct N as [N1 N2]. rewrite (IH N2), orb_false_r.
  apply not_true_iff_false. intro E. apply existsb_exists in E. destruct E as (s & Is & E). apply andb_true_iff in E. destruct E as [E _]. apply qeqb_eq in E.
  apply N1. rewrite <- E. apply in_map, Is.
Qed.
Lemma unique_count l l' : Permutation l l' -> length (uniqueZ l) = length (uniqueZ l').
Proof.
  intro P. apply Permutation_length. apply NoDup_Permutation; try apply uniqueZ_NoDup. intro x. rewrite !uniqueZ_In. split; apply Permutation_in; [|symmetry]; exact P.
Qed.
Lemma pick_all (k : nat -> bool) ls : pick_left ls (map k ls) = filter k ls.
Proof. induction ls as [|i ls IH]; [reflexivity|]. cbn [map pick_left filter]. destruct (k i); rewrite IH; reflexivity. Qed.

Section Muda.
  Variables (S1 S2 : sorter) (d d' : df) (f : nat -> nat).
  Hypothesis Hf : Injective f.
  Hypothesis P : Permutation (map (ren f) d) d'.
  Hypothesis N : prices_distinct d.
  Hypothesis Hu : labels_unique d.
  Lemma lbl_ren : map lbl (map (ren f) d) = map f (map lbl d).
  Proof. rewrite !map_map. reflexivity. Qed.
  Lemma unique' : labels_unique d'.
  Proof.
    unfold labels_unique. apply (Permutation_NoDup (Permutation_map lbl P)). rewrite lbl_ren. apply Injective_map_NoDup; [exact Hf | exact Hu].
  Qed.
  Lemma distinct' : prices_distinct d'.
  Proof.
    destruct N as [N1 N2]. split.
    - apply (Permutation_NoDup (Permutation_map price (buyers_ren f d d' P))). rewrite map_ren by reflexivity. exact N1.
    - apply (Permutation_NoDup (Permutation_map price (sellers_ren f d d' P))). rewrite map_ren by reflexivity. exact N2.
  Qed.
  Lemma mem_ren ls i : existsb (Nat.eqb (f i)) (map f ls) = existsb (Nat.eqb i) ls.
  Proof.
    induction ls as [|j ls IH]; [reflexivity|]. cbn [map existsb]. rewrite IH. f_equal. destruct (Nat.eqb_spec i j) as [->|X]; [apply Nat.eqb_refl|]. apply Nat.eqb_neq. intro E. apply X, Hf, E.
  Qed.
  Lemma mem_perm i l l' : Permutation l l' -> existsb (Nat.eqb i) l = existsb (Nat.eqb i) l'.
  Proof.
    intro Q. apply eq_true_iff_eq. rewrite !mem_In. split; apply Permutation_in; [|symmetry]; exact Q.
  Qed.
  Lemma rows_ren ls ls' : Permutation (map f ls) ls' -> Permutation (map (ren f) (rows_in ls d)) (rows_in ls' d').
  Proof.
    intro Q. unfold rows_in. rewrite <- (filter_perm _ _ _ P).
    assert (E : forall l, filter (fun r => existsb (Nat.eqb (lbl r)) ls') (map (ren f) l) = map (ren f) (filter (fun r => existsb (Nat.eqb (lbl r)) ls) l)); [|rewrite E; reflexivity].
    induction l as [|r l IH]; [reflexivity|]. cbn [map filter]. change (lbl (ren f r)) with (f (lbl r)). rewrite <- (mem_perm _ _ _ Q), mem_ren. destruct (existsb _ ls); cbn [map]; rewrite IH; reflexivity.
  Qed.
  Definition moved_flips (fl : list bool) : list bool := map (fun i => existsb (Nat.eqb i) (map f (left_of d fl))) (map lbl d').
  Lemma left_moved fl : Permutation (map f (left_of d fl)) (left_of d' (moved_flips fl)).
  Proof.
    unfold left_of at 2, moved_flips. rewrite pick_all. rewrite <- (filter_perm _ _ _ (Permutation_map lbl P)), lbl_ren.
    assert (E : forall ls k, filter (fun i => existsb (Nat.eqb i) (map f ls)) (map f k) = map f (filter (fun i => existsb (Nat.eqb i) ls) k)).
    { intros ls k. induction k as [|i k IH]; [reflexivity|]. cbn [map filter]. rewrite mem_ren. destruct (existsb _ ls); cbn [map]; rewrite IH; reflexivity. }
    rewrite E. pose proof (pick_left_filter _ Hu fl) as K. fold (left_of d fl) in K. rewrite <- K. reflexivity.
  Qed.
  Lemma right_moved fl : Permutation (map f (right_of d fl)) (right_of d' (moved_flips fl)).
  Proof.
    unfold right_of. rewrite <- (filter_perm _ _ _ (Permutation_map lbl P)), lbl_ren.
    assert (E : forall k, filter (fun i => negb (existsb (Nat.eqb i) (left_of d' (moved_flips fl)))) (map f k) = map f (filter (fun i => negb (existsb (Nat.eqb i) (left_of d fl))) k)); [|rewrite E; reflexivity].
    induction k as [|i k IH]; [reflexivity|]. cbn [map filter]. rewrite <- (mem_perm _ _ _ (left_moved fl)), mem_ren. destruct (existsb _ (left_of d fl)); cbn [map negb]; rewrite IH; reflexivity.
  Qed.
  Lemma muda_moved fl : renamed f (muda S1 d fl) (muda S2 d' (moved_flips fl)).
  Proof.
    rewrite !muda_eq by (exact Hu || exact unique'). unfold check_equal_price. rewrite !unique_dup by (apply N || apply distinct'). cbn [orb]. unfold muda_body.
    pose proof (rows_ren _ _ (left_moved fl)) as PL. pose proof (rows_ren _ _ (right_moved fl)) as PR.
    assert (NL := distinct_rows (left_of d fl) d N). assert (NR := distinct_rows (right_of d fl) d N).
    rewrite (price_ren f S1 S2 _ _ PL NL), (price_ren f S1 S2 _ _ PR NR).
    destruct (find_competitive_price S1 (rows_in (left_of d fl) d)) as [pl|]; [|exact eq_refl]. cbn [bind fst snd].
    destruct (find_competitive_price S1 (rows_in (right_of d fl) d)) as [pr|]; [|exact eq_refl]. cbn [bind fst snd].
    assert (Z : zero_fees d' = zero_fees d).
    { unfold zero_fees. f_equal. apply unique_count. rewrite <- (Permutation_map user P), map_ren by reflexivity. reflexivity. }
    rewrite Z, (side_ren f S1 S2 _ _ PL NL). destruct (solve_market_side S1 (rows_in (left_of d fl) d) pr (zero_fees d)) as [[tl f1]|]; [|exact eq_refl]. cbn [bind fst snd].
    rewrite (side_ren f S1 S2 _ _ PR NR). destruct (solve_market_side S1 (rows_in (right_of d fl) d) pl f1) as [[tr f2]|]; [|exact eq_refl]. cbn [bind fst snd].
    rewrite merge_ren. split; [reflexivity|]. split; [apply left_moved|]. split; [apply right_moved|]. auto.
  Qed.
End Muda.

Lemma run_muda_moved S S' m m' f : Permutation (bm_bids (mk_bm m)) (bm_bids (mk_bm m')) -> moved (bm_bids (mk_bm m)) (bm_bids (mk_bm m')) f ->
  prices_distinct (get_df (mk_bm m)) -> forall fl, exists fl', renamed f (snd (market_run S m (AMuda fl))) (snd (market_run S' m' (AMuda fl'))).
Proof.
  intros P M N fl. exists (moved_flips (get_df (mk_bm m)) (get_df (mk_bm m')) f fl). rewrite !UnitMarket.run_result. cbn [run_algo mechanism].
  apply (run0_moved (fun b => muda S b fl) (fun b => muda S' b (moved_flips (get_df (mk_bm m)) (get_df (mk_bm m')) f fl)) _ _ f P).
  apply muda_moved; [apply (f_inj _ _ f M) | apply (move_perm _ _ f P M) | exact N|]. unfold labels_unique. unfold get_df. rewrite rows_from_lbl. apply seq_NoDup.
Qed.
