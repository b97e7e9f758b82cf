(** Change of units and of attributes: [Market.run]. *)
From Verif Require Import QcTac Num ModelBase ModelCurves ModelHuang ModelMuda ModelP2P ModelMerge ModelMarket ListFacts SpecUnits Sorter UnitFacts UnitMech.

Section Merge.
  Variables a b : Qc.
  Hypothesis Ha : 0 < a.
  Hypothesis Hb : 0 < b.
  Variable prec : Z.
  Let R (x y : row) : Prop := same_bid a b x y /\ np_round prec (price y) = b * np_round prec (price x).
  Let HR x y : R x y -> same_bid a b x y.
  Proof. intros H; apply H. Qed.
  Lemma sample_const (smp : nat -> nat) k (l : list bool) v d0 : l <> [] -> (forall x, In x l -> x = v) -> sample smp k l d0 = v.
  Proof.
    intros N K. unfold sample. apply K, nth_In, Nat.mod_upper_bound. destruct l; [congruence|discriminate].
  Qed.
  Definition RM (x y : row * list nat) : Prop := same_bid a b (fst x) (fst y) /\ snd y = snd x.
  Definition same_keys (x : res (list (row * list nat) * nat * Z)) (y : res (list (row * list nat) * nat * Z)) : Prop :=
    match x, y with Ok (l, g, _), Ok (l', g', _) => Forall2 RM l l' /\ g' = g | Err e, Err e' => e' = e | _, _ => False end.
  Lemma groups_units smp smp' side side' v : Forall2 R side side' -> (forall x, In x side -> buying x = v) ->
    forall keys g c c', same_keys (merge_groups prec smp side keys g c) (merge_groups prec smp' side' (map (Qcmult b) keys) g c').
  Proof.
    intros F V. assert (V' : forall x, In x side' -> buying x = v).
    { intros y Iy. clear - F V Iy. induction F as [|x y0 l l' H F IH]; [destruct Iy|]. destruct Iy as [<-|Iy].
      - destruct H as [(_ & _ & _ & ->) _]. apply V. left; reflexivity.
      - apply IH; [|exact Iy]. intros z Iz. apply V. right; exact Iz. }
    induction keys as [|k keys IH]; intros g c c'; cbn [map merge_groups]; [split; [constructor|reflexivity]|].
    assert (G : Forall2 R (filter (fun x => qeqb (np_round prec (price x)) k) side) (filter (fun x => qeqb (np_round prec (price x)) (b * k)) side')).
    { apply F2_filter; [exact F|]. intros x y _ [_ ->]. apply scale_eqb, Hb. }
    assert (B : forall x, In x (filter (fun x => qeqb (np_round prec (price x)) k) side) -> buying x = v) by (intros x Ix; apply filter_In in Ix; apply V, Ix).
    assert (B' : forall x, In x (filter (fun x => qeqb (np_round prec (price x)) (b * k)) side') -> buying x = v) by (intros x Ix; apply filter_In in Ix; apply V', Ix).
    set (rows := filter _ side) in *. set (rows' := filter _ side') in *. clearbody rows rows'. cbv zeta.
    destruct rows as [|x0 rows]; inversion G as [|? y0 ? rows1 H0 G0]; subst; [reflexivity|]. rename rows1 into rows'.
    assert (Hid : forall us cc, us <> [] -> exists z, new_id us cc = Ok z) by (intros [|u1 [|u2 us]] cc N; [congruence|eexists; reflexivity..]).
    destruct (Hid (map user (x0 :: rows)) c) as [[u1 c1] E1]; [discriminate|]. destruct (Hid (map user (y0 :: rows')) c') as [[u1' c1'] E1']; [discriminate|].
    rewrite E1, E1'. cbn [bind]. assert (I := IH (Datatypes.S g) c1 c1'). unfold same_keys in I.
    destruct (merge_groups prec smp side keys (Datatypes.S g) c1) as [[[l g1] c2]|], (merge_groups prec smp' side' (map (Qcmult b) keys) (Datatypes.S g) c1') as [[[l' g1'] c2']|]; try contradiction; [|exact I].
    destruct I as [Fl ->]. cbn [bind]. split; [|reflexivity]. constructor; [|exact Fl]. split; cbn [fst snd].
    - repeat split; cbn [lbl qty price buying].
      + rewrite (tb_qty a b R HR _ _ G). apply scale_sum.
      + rewrite !(sample_const _ _ _ v); [reflexivity|discriminate| |discriminate|]; intros x Ix; apply in_map_iff in Ix; destruct Ix as (r & <- & Ir); [apply B, Ir|apply B', Ir].
    - apply (tb_lbl a b R HR _ _ G).
  Qed.
  Lemma insert_units x l : qinsert (b * x) (map (Qcmult b) l) = map (Qcmult b) (qinsert x l).
  Proof. induction l as [|y l IH]; [reflexivity|]. cbn [map qinsert]. rewrite scale_ltb, scale_eqb by exact Hb. destruct (qltb x y); [reflexivity|]. destruct (qeqb x y); [reflexivity|]. cbn [map]. rewrite IH. reflexivity. Qed.
  Lemma keys_units side side' : Forall2 R side side' -> side_keys prec side' = map (Qcmult b) (side_keys prec side).
  Proof.
    intros F. unfold side_keys. rewrite (F2_map R (fun x => np_round prec (price x)) (fun x => np_round prec (price x)) (Qcmult b) _ _ F) by (intros x y _ [_ H]; exact H).
    unfold group_keys. induction (map (fun x => np_round prec (price x)) side) as [|x l IH]; [reflexivity|]. cbn [map fold_right]. rewrite IH. apply insert_units.
  Qed.
  Lemma RM_split l l' : Forall2 RM l l' -> Forall2 (same_bid a b) (map fst l) (map fst l') /\ map snd l' = map snd l.
  Proof. induction 1 as [|x y l l' [H K] F [IH1 IH2]]; cbn [map]; [split; [constructor|reflexivity]|]. split; [constructor; assumption|]. rewrite K, IH2. reflexivity. Qed.
  Lemma merge_units smp smp' d d' c c' : Forall2 R d d' ->
    match merge_same_price prec smp d c, merge_same_price prec smp' d' c' with
    | Ok (n, m, _), Ok (n', m', _) => Forall2 (same_bid a b) n n' /\ m' = m | Err e, Err e' => e' = e | _, _ => False end.
  Proof.
    intros F. unfold merge_same_price. cbv zeta.
    assert (Fb := tb_buyers a b R HR _ _ F). assert (Fs := tb_sellers a b R HR _ _ F).
    rewrite (keys_units _ _ Fb), (keys_units _ _ Fs).
    assert (K := groups_units smp smp' _ _ true Fb (fun x Ix => proj2 (proj1 (filter_In _ _ _) Ix)) (side_keys prec (buyers d)) 0%nat (new_player_id (user_max d + 1) c) (new_player_id (user_max d' + 1) c')).
    unfold same_keys in K. destruct (merge_groups prec smp (buyers d) _ _ _) as [[[lb gb] cb]|], (merge_groups prec smp' (buyers d') _ _ _) as [[[lb' gb'] cb']|]; try contradiction; [|exact K].
    destruct K as [Kb ->]. cbn [bind].
    assert (K := groups_units smp smp' _ _ false Fs (fun x Ix => proj1 (negb_true_iff _) (proj2 (proj1 (filter_In _ _ _) Ix))) (side_keys prec (sellers d)) gb cb cb').
    unfold same_keys in K. destruct (merge_groups prec smp (sellers d) _ _ _) as [[[ls gs] cs]|], (merge_groups prec smp' (sellers d') _ _ _) as [[[ls' gs'] cs']|]; try contradiction; [|exact K].
    destruct K as [Ks _]. cbn [bind]. apply RM_split, F2_app; assumption.
  Qed.
  Lemma iloc_units d d' : Forall2 R d d' -> forall rows, match iloc d rows, iloc d' rows with Ok l, Ok l' => Forall2 R l l' | Err e, Err e' => e' = e | _, _ => False end.
  Proof.
    intros F. induction rows as [|i rows IH]; cbn [iloc]; [constructor|]. assert (N := F2_nth R d d' F i).
    destruct (nth_error d i) as [x|], (nth_error d' i) as [y|]; try contradiction; [|reflexivity].
    destruct (iloc d rows) as [l|], (iloc d' rows) as [l'|]; try contradiction; [|exact IH]. constructor; assumption.
  Qed.
  Lemma div_units q t x : a * q * (a * x / (a * t)) = a * (q * (x / t)).
  Proof.
    destruct (qeq_spec t 0) as [->|N]; [replace (a * 0) with 0 by ring; unfold Qcdiv; change (/ 0) with 0; ring|].
    field. split; [exact N|]. intros E. rewrite E in Ha. qlra.
  Qed.
  Lemma split_one_units d d' m fees t : Forall2 R d d' -> split_one d' m fees (trans_units a b t) = res_map (map (trans_units a b)) (split_one d m fees t).
  Proof.
    intros F. unfold split_one. cbn [trans_units t_bid t_qty t_price t_source t_active]. destruct (nth_error m (t_bid t)) as [rows|]; [|reflexivity].
    assert (K := iloc_units d d' F rows). destruct (iloc d rows) as [l|], (iloc d' rows) as [l'|]; try contradiction; [|subst; reflexivity]. cbn [bind].
    rewrite (tb_qty a b R HR _ _ K), scale_sum, scale_eqb0 by exact Ha.
    destruct (Nat.ltb 1 (length rows) && fees); [reflexivity|]. destruct (qeqb (qsum (map qty l)) 0); [destruct rows; reflexivity|]. cbn [res_map]. f_equal.
    set (T := qsum (map qty l)). clearbody T. revert rows. induction K as [|x y l l' H K IH]; intros rows; [destruct rows; reflexivity|]. destruct rows as [|i rows]; [reflexivity|].
    cbn [combine map fst snd]. rewrite IH. f_equal. destruct H as [(_ & -> & _) _]. unfold trans_units. cbn [t_bid t_qty t_price t_source t_active]. rewrite div_units. reflexivity.
  Qed.
  Lemma split_list_units d d' m fees ts : Forall2 R d d' -> forall acc, split_list d' m fees (map (trans_units a b) ts) (tmgr_units a b acc) = res_map (tmgr_units a b) (split_list d m fees ts acc).
  Proof.
    intros F. induction ts as [|t ts IH]; intros acc; cbn [map split_list]; [reflexivity|]. rewrite (split_one_units d d') by exact F.
    destruct (split_one d m fees t) as [l|]; [|reflexivity]. cbn [res_map bind]. rewrite add_all_units. apply IH.
  Qed.
End Merge.

Lemma mech_run0_units (S : sorter) a b (R : row -> row -> Prop) f f' d d' : (forall r r', R r r' -> same_bid a b r r') -> Forall2 R d d' ->
  f' d' = result_units a b (f d) -> mech_run0 f' d' = result_units a b (mech_run0 f d).
Proof.
  intros HR F E. unfold mech_run0. rewrite <- (Forall2_len _ _ _ F), <- (Forall2_len _ _ _ (tb_buyers a b R HR _ _ F)). destruct (_ || _); [reflexivity|exact E].
Qed.
Lemma merged_run_units (S : sorter) a b (R : row -> row -> Prop) f f' d d' : (forall r r', R r r' -> same_bid a b r r') -> Forall2 R d d' ->
  f' d' = result_units a b (f d) -> merged_run f' d' = result_units a b (merged_run f d).
Proof.
  intros HR F E. unfold merged_run.
  assert (L : lone_buyer d' = lone_buyer d).
  { destruct F as [|x y l l' H [|x2 y2 l2 l2' H2 F]]; [reflexivity| |reflexivity]. cbn [lone_buyer]. apply HR in H. apply H. }
  rewrite L. destruct (lone_buyer d); [reflexivity | apply (mech_run0_units S a b R); assumption].
Qed.

Section Run.
  Variable S : sorter.
  Hypothesis HS : compares_prices S.
  Variables m m' : market.
  Let d := get_df (mk_bm m).
  Let d' := get_df (mk_bm m').
  Lemma run_result a0 : snd (market_run S m a0) = run_algo S a0 d.
  Proof. unfold market_run. fold d. destruct (run_algo S a0 d) as [[t x]|]; reflexivity. Qed.
  Lemma run_result' a0 : snd (market_run S m' a0) = run_algo S a0 d'.
  Proof. unfold market_run. fold d'. destruct (run_algo S a0 d') as [[t x]|]; reflexivity. Qed.
  Lemma run_p2p_units a b c r : 0 < a -> 0 < b -> Forall2 (same_bid a b) d d' ->
    snd (market_run S m' (AP2P c r)) = result_units a b (snd (market_run S m (AP2P c r))).
  Proof.
    intros Ha Hb F. rewrite run_result, run_result'. cbn [run_algo mechanism].
    apply (mech_run0_units S a b (same_bid a b)); [auto|exact F|]. apply (p2p_units a b Ha Hb (same_bid a b)); auto.
  Qed.
  Lemma run_muda_units a b fl : 0 < a -> 0 < b -> Forall2 (same_offer a b) d d' ->
    snd (market_run S m' (AMuda fl)) = result_units a b (snd (market_run S m (AMuda fl))).
  Proof.
    intros Ha Hb F. rewrite run_result, run_result'. cbn [run_algo mechanism].
    apply (mech_run0_units S a b (same_offer a b) (fun x => muda S x fl) (fun x => muda S x fl)); [intros r r' H; apply H|exact F|]. apply muda_units; assumption.
  Qed.
  Lemma run_huang_units a b smp smp' cnt cnt' : 0 < a -> 0 < b ->
    Forall2 (fun x y => same_bid a b x y /\ np_round 5 (price y) = b * np_round 5 (price x)) d d' ->
    snd (market_run S m' (AHuang smp' cnt')) = result_units a b (snd (market_run S m (AHuang smp cnt))).
  Proof.
    intros Ha Hb F. rewrite run_result, run_result'. cbn [run_algo mechanism].
    assert (K := merge_units a b Hb 5 smp smp' d d' cnt cnt' F).
    destruct (merge_same_price 5 smp d cnt) as [[[n mp] c2]|], (merge_same_price 5 smp' d' cnt') as [[[n' mp'] c2']|]; try contradiction; [|subst; reflexivity].
    destruct K as [K ->]. cbn [bind].
    rewrite (merged_run_units S a b (same_bid a b) (huang_auction S) (huang_auction S) n n' (fun r r' H => H) K (huang_units a b Ha Hb (same_bid a b) (fun r r' H => H) S HS n n' K)).
    destruct (merged_run (huang_auction S) n) as [[tm ex]|]; [|reflexivity]. cbn [result_units bind]. unfold split_transactions_merged_players. cbn [tm_trans].
    change tm_init with (tmgr_units a b tm_init) at 1. rewrite (split_list_units a b Ha 5 d d') by exact F.
    destruct (split_list d mp false (tm_trans tm) tm_init); reflexivity.
  Qed.
  Lemma run_huang_qty a smp smp' cnt cnt' : 0 < a -> Forall2 (same_bid a 1) d d' ->
    snd (market_run S m' (AHuang smp' cnt')) = result_units a 1 (snd (market_run S m (AHuang smp cnt))).
  Proof.
    intros Ha F. apply run_huang_units; [exact Ha|reflexivity|]. apply (F2_impl (same_bid a 1)); [|exact F].
    intros x y H. split; [exact H|]. destruct H as (_ & _ & -> & _). replace (1 * price x) with (price x) by ring. ring.
  Qed.
  Lemma run_huang_grid a b smp smp' cnt cnt' : 0 < a -> 0 < b -> Forall2 (same_bid a b) d d' ->
    (forall r, In r d -> np_round 5 (price r) = price r) -> (forall r, In r d' -> np_round 5 (price r) = price r) ->
    snd (market_run S m' (AHuang smp' cnt')) = result_units a b (snd (market_run S m (AHuang smp cnt))).
  Proof.
    intros Ha Hb F G G'. apply run_huang_units; [exact Ha|exact Hb|]. clearbody d d'. induction F as [|x y l l' H F IH]; constructor.
    - split; [exact H|]. rewrite (G x), (G' y) by (left; reflexivity). apply H.
    - apply IH; intros r Ir; [apply G|apply G']; right; exact Ir.
  Qed.
  Lemma run_muda_names a b fl tm ex tm' ex' : 0 < a -> 0 < b -> Forall2 (same_bid a b) d d' ->
    snd (market_run S m (AMuda fl)) = Ok (tm, ex) -> snd (market_run S m' (AMuda fl)) = Ok (tm', ex') ->
    tm' = mkTM (n_trans tm) (map (trans_units a b) (tm_trans tm)).
  Proof.
    intros Ha Hb F. rewrite run_result, run_result'. cbn [run_algo mechanism]. unfold mech_run0.
    rewrite <- (Forall2_len _ _ _ F), <- (Forall2_len _ _ _ (tb_buyers a b _ (fun r r' H => H) _ _ F)). destruct (_ || _); [intros E E'; inversion E; inversion E'; reflexivity|].
    intros E E'. assert (X : forall D t x, muda S D fl = Ok (t, x) -> exists l r pl pr f, x = XMuda l r pl pr f).
    { intros D t x. unfold muda, check_equal_price. destruct (_ || _); [discriminate|]. do 2 (destruct (find_competitive_price _ _); [|discriminate]; cbn [bind]).
      do 2 (destruct (solve_market_side _ _ _ _) as [[? ?]|]; [|discriminate]; cbn [bind]). intros Q; inversion Q. eauto 8. }
    destruct (X _ _ _ E) as (l & r & pl & pr & f & ->). destruct (X _ _ _ E') as (l' & r' & pl' & pr' & f' & ->).
    apply (muda_trans_units a b Ha Hb S HS _ _ _ _ _ _ _ _ _ _ _ _ _ _ _ F E E').
  Qed.
End Run.
