(** [Market.run('huang')] with infinite prices is the run with large prices; NaN bids have no effect. *)
From Verif Require Import QcTac Num NumFacts ListFacts ModelBase ModelHuang ModelMerge ModelMarket ModelAny ModelWild ModelWildMarket Spec SpecWild SpecWildMarket
  StoreFacts MergeFacts WildCap WildTop WildMarket WildMarketTop.

Section Cap.
  Variable n : Z.
  Let P := qz n.
  Definition good (k : num) : Prop := k <> NaN /\ forall q, k = Fin q -> - P < q /\ q < P.
  Hypothesis HP : 0 < P.

  Lemma round_int m : np_round 5 (qz m) = qz m.
  Proof.
    unfold np_round, pow10. cbn [Z.leb Z.compare]. rewrite <- qz_mult, rint_int, qz_mult. field. intro C. apply (f_equal this) in C. discriminate C.
  Qed.
  Lemma qz_opp m : qz (- m) = - qz m.
  Proof. assert (H := qz_plus m (- m)). rewrite Z.add_opp_diag_r, qz_0 in H. replace (qz (- m)) with (0 - qz m + (qz m + qz (- m)) - 0) by ring. rewrite <- H. ring. Qed.
  Lemma round_cap p : p <> NaN -> np_round 5 (cap P p) = cap P (n_round 5 p).
  Proof. destruct p as [q| | |]; intro H; cbn [cap n_round]; [reflexivity | apply round_int | unfold P; rewrite <- qz_opp; apply round_int | congruence]. Qed.

  Lemma cap_lt a b : good a -> good b -> qltb (cap P a) (cap P b) = nltb a b.
  Proof. intros [A1 A2] [B1 B2]. apply cap_ltb; assumption. Qed.
  Lemma cap_eq a b : good a -> good b -> qeqb (cap P a) (cap P b) = neqb a b.
  Proof.
    intros Ga Gb. destruct (neqb a b) eqn:E.
    - apply neqb_eq in E. destruct E as [-> _]. apply qeqb_eq. reflexivity.
    - apply qeqb_neq. intro C. assert (L1 := cap_lt a b Ga Gb). assert (L2 := cap_lt b a Gb Ga). rewrite C in L1, L2.
      assert (Z : qltb (cap P b) (cap P b) = false) by (destruct (qlt_spec (cap P b) (cap P b)); [exfalso; qlra | reflexivity]). rewrite Z in L1, L2.
      destruct Ga as [Oa Ga], Gb as [Ob Gb]. destruct a as [x| | |], b as [y| | |]; cbn [nltb neqb cap] in *; try discriminate; try congruence.
      subst x. assert (qeqb y y = true) by (apply qeqb_eq; reflexivity). congruence.
  Qed.
  Lemma cap_insert x l : good x -> Forall good l -> qinsert (cap P x) (map (cap P) l) = map (cap P) (n_insert x l).
  Proof.
    intros Gx. induction 1 as [|y l Gy G IH]; [reflexivity|]. cbn [map qinsert n_insert]. rewrite cap_lt, cap_eq by assumption.
    destruct (nltb x y); [reflexivity|]. destruct (neqb x y); [reflexivity|]. cbn [map]. rewrite IH. reflexivity.
  Qed.
  Lemma cap_keys l : Forall good l -> group_keys (map (cap P) l) = map (cap P) (n_keys l).
  Proof.
    induction 1 as [|x l Gx G IH]; [reflexivity|]. change (qinsert (cap P x) (group_keys (map (cap P) l)) = map (cap P) (match x with NaN => n_keys l | _ => n_insert x (n_keys l) end)).
    rewrite IH, cap_insert; [destruct x; try reflexivity; destruct Gx; congruence | exact Gx|].
    rewrite Forall_forall in *. intros k Hk. apply n_keys_In in Hk. apply G, Hk.
  Qed.

  Section Side.
    Variable side : wdf.
    Hypothesis Hg : forall x, In x side -> w_price x <> NaN /\ good (n_round 5 (w_price x)).
    Lemma cap_side_keys : side_keys 5 (map (cap_row P) side) = map (cap P) (w_side_keys 5 side).
    Proof.
      unfold side_keys, w_side_keys. rewrite map_map. rewrite <- cap_keys by (rewrite Forall_forall; intros k Hk; apply in_map_iff in Hk; destruct Hk as (x & <- & Hx); apply Hg, Hx).
      rewrite map_map. f_equal. apply map_ext_in. intros x Hx. cbn [cap_row price]. apply round_cap, Hg, Hx.
    Qed.
    Definition cap_entry (rm : wrow * list nat) : row * list nat := (cap_row P (fst rm), snd rm).
    Lemma cap_groups smp keys g cnt : Forall good keys ->
      merge_groups 5 smp (map (cap_row P) side) (map (cap P) keys) g cnt =
      match w_merge_groups 5 smp side keys g cnt with Ok (l, g', c) => Ok (map cap_entry l, g', c) | Err e => Err e end.
    Proof.
      intro G. revert g cnt. induction G as [|k keys Gk G IH]; intros g cnt; [reflexivity|]. cbn [map merge_groups w_merge_groups].
      assert (E : filter (fun x => qeqb (np_round 5 (price x)) (cap P k)) (map (cap_row P) side) = map (cap_row P) (filter (fun x => neqb (n_round 5 (w_price x)) k) side)).
      { clear IH. induction side as [|x s I]; [reflexivity|]. cbn [map filter]. destruct (Hg x (or_introl eq_refl)) as [Nx Gx]. cbn [cap_row price]. rewrite (round_cap _ Nx), (cap_eq _ _ Gx Gk).
        rewrite I by (intros y Hy; apply Hg; right; exact Hy). destruct (neqb (n_round 5 (w_price x)) k); reflexivity. }
      rewrite E. clear E. set (rows := filter (fun x => neqb (n_round 5 (w_price x)) k) side). rewrite !map_map.
      change (fun x => user (cap_row P x)) with w_user. change (fun x => qty (cap_row P x)) with w_qty. change (fun x => buying (cap_row P x)) with w_buying.
      change (fun x => time (cap_row P x)) with w_time. change (fun x => divisible (cap_row P x)) with w_div. change (fun x => lbl (cap_row P x)) with w_lbl.
      destruct (new_id (map w_user rows) cnt) as [[u c1]|e]; [|reflexivity]. cbn [bind]. rewrite IH.
      destruct (w_merge_groups 5 smp side keys (Datatypes.S g) c1) as [[[l g'] c2]|e]; reflexivity.
    Qed.
  End Side.

  Variable d : wdf.
  Hypothesis Hn : no_nan d.
  Hypothesis Hbe : beyond P (map round_row d).
  Lemma good_row x : In x d -> w_price x <> NaN /\ good (n_round 5 (w_price x)).
  Proof.
    intro Hx. split; [apply Hn, Hx|]. split; [intro C; apply (Hn x Hx); destruct (w_price x); cbn in C; congruence|].
    intros q E. apply (proj2 Hbe (round_row x) q); [apply in_map, Hx | exact E].
  Qed.
  Lemma cap_buyers (l : wdf) : buyers (map (cap_row P) l) = map (cap_row P) (w_buyers l).
  Proof. unfold buyers, w_buyers. induction l as [|x l IH]; [reflexivity|]. cbn [map filter cap_row buying]. destruct (w_buying x); cbn [map]; rewrite IH; reflexivity. Qed.
  Lemma cap_sellers (l : wdf) : sellers (map (cap_row P) l) = map (cap_row P) (w_sellers l).
  Proof. unfold sellers, w_sellers. induction l as [|x l IH]; [reflexivity|]. cbn [map filter cap_row buying]. destruct (w_buying x); cbn [negb map]; rewrite IH; reflexivity. Qed.
  Lemma cap_user_max (l : wdf) : user_max (map (cap_row P) l) = w_user_max l.
  Proof. destruct l as [|x l]; [reflexivity|]. cbn [map user_max w_user_max]. rewrite map_map. reflexivity. Qed.
  Lemma cap_merge smp cnt : merge_same_price 5 smp (map (cap_row P) d) cnt =
    match w_merge 5 smp d cnt with Ok (nd, mp, c) => Ok (map (cap_row P) nd, mp, c) | Err e => Err e end.
  Proof.
    unfold merge_same_price, w_merge. cbv zeta. rewrite cap_buyers, cap_sellers, cap_user_max.
    assert (G : forall l, (forall x, In x l -> In x d) -> Forall good (w_side_keys 5 l)).
    { intros l Hl. rewrite Forall_forall. intros k Hk. apply n_keys_In in Hk. destruct Hk as [Hk _]. apply in_map_iff in Hk. destruct Hk as (x & <- & Hx). apply good_row, Hl, Hx. }
    assert (B : forall x, In x (w_buyers d) -> In x d) by (intros x Hx; apply filter_In in Hx; tauto).
    assert (L : forall x, In x (w_sellers d) -> In x d) by (intros x Hx; apply filter_In in Hx; tauto).
    rewrite (cap_side_keys (w_buyers d)), (cap_side_keys (w_sellers d)) by (intros x Hx; apply good_row; auto).
    rewrite (cap_groups (w_buyers d)) by (try (intros x Hx; apply good_row; auto); apply G; auto).
    destruct (w_merge_groups 5 smp (w_buyers d) _ 0 _) as [[[mb g1] c1]|e]; [|reflexivity]. cbn [bind].
    rewrite (cap_groups (w_sellers d)) by (try (intros x Hx; apply good_row; auto); apply G; auto).
    destruct (w_merge_groups 5 smp (w_sellers d) _ g1 c1) as [[[ms g2] c2]|e]; [|reflexivity]. cbn [bind].
    rewrite <- map_app, !map_map. reflexivity.
  Qed.
End Cap.

(** ** Splitting *)
Lemma cap_iloc P d rows : iloc (map (cap_row P) d) rows = match w_iloc d rows with Ok l => Ok (map (cap_row P) l) | Err e => Err e end.
Proof.
  induction rows as [|i r IH]; [reflexivity|]. cbn [iloc w_iloc]. rewrite nth_error_map. destruct (nth_error d i) as [x|]; cbn [option_map]; [|reflexivity].
  rewrite IH. destruct (w_iloc d r); reflexivity.
Qed.
Lemma cap_split_one P d mp t : split_one (map (cap_row P) d) mp false (cap_trans P t) =
  match w_split_one d mp t with Ok l => Ok (map (cap_trans P) l) | Err e => Err e end.
Proof.
  unfold split_one, w_split_one. cbn [cap_trans t_bid]. destruct (nth_error mp (x_bid t)) as [rows|]; [|reflexivity]. rewrite cap_iloc.
  destruct (w_iloc d rows) as [rs|e]; [|reflexivity]. cbn [bind]. rewrite andb_false_r, map_map. change (fun x => qty (cap_row P x)) with w_qty.
  destruct (qeqb _ 0); [destruct rows; reflexivity|]. f_equal. rewrite map_map. generalize (qsum (map w_qty rs)). intro tot. revert rs. induction rows as [|i rows IH]; intros [|x rs]; try reflexivity.
  cbn [map combine fst snd]. rewrite IH. reflexivity.
Qed.
Lemma cap_split P d mp ts acc : match split_list (map (cap_row P) d) mp false (map (cap_trans P) ts) acc, w_split d mp ts with
  | Ok tm, Ok l => tm_trans tm = tm_trans acc ++ map (cap_trans P) l | Err e, Err e' => e = e' | _, _ => False end.
Proof.
  revert acc. induction ts as [|t ts IH]; intro acc; [cbn; rewrite app_nil_r; reflexivity|]. cbn [map split_list w_split]. rewrite cap_split_one.
  destruct (w_split_one d mp t) as [l|e]; [|reflexivity]. cbn [bind]. specialize (IH (add_all acc (map (cap_trans P) l))).
  destruct (split_list _ mp false (map (cap_trans P) ts) _) as [tm|e], (w_split d mp ts) as [l'|e']; cbn [bind]; try contradiction; [|exact IH].
  rewrite IH, add_all_trans, map_app, app_assoc. reflexivity.
Qed.

Theorem run_large_prices S smp cnt d n : w_qty_pos d -> no_nan d -> beyond (qz n) (map round_row d) -> wanted_at_any_price d <= offered d ->
  exists S', same_run (qz n) (w_run_huang S smp cnt d) (run_algo S' (AHuang smp cnt) (map (cap_row (qz n)) d)).
Proof.
  intros Hq Hn Hb Fl. cbn [run_algo mechanism]. unfold w_run_huang, merged_run, w_merged_run, mech_run0. rewrite (cap_merge n (proj1 Hb) d Hn Hb smp cnt).
  destruct (w_merge_ok smp d cnt) as (mb & ms & c & E & Fb & Fs & _). rewrite E. cbn [bind]. set (nd := map fst (mb ++ ms)).
  assert (K : filter not_nan d = d) by (apply filter_all; intros x Hx; unfold not_nan; specialize (Hn x Hx); destruct (w_price x); congruence).
  destruct (large_prices S nd (qz n)) as (S' & R).
  - apply (m_qty_pos d mb ms Fb Fs Hq).
  - intros r Hr. destruct (m_row_in mb ms r Hr) as (i & E1 & rows & E2). destruct (m_row d mb ms Fb Fs i r rows E1 E2) as (rs & _ & _ & _ & _ & N & _). exact N.
  - split; [apply Hb|]. intros r q Hr Er. destruct (m_row_in mb ms r Hr) as (i & E1 & rows & E2). destruct (m_row d mb ms Fb Fs i r rows E1 E2) as (rs & _ & Ne & Hin & _).
    destruct rs as [|x rs]; [congruence|]. destruct (Hin x (or_introl eq_refl)) as (I1 & _ & I3). apply (proj2 Hb (round_row x) q); [apply in_map, I1 | cbn; congruence].
  - unfold nd. rewrite (m_wanted_any d mb ms Fb Fs), (m_offered d mb ms Fb Fs), K. exact Fl.
  - exists S'.
    assert (E1 : lone_buyer (map (cap_row (qz n)) nd) = match nd with [r] => w_buying r | _ => false end) by (destruct nd as [|r [|]]; reflexivity).
    rewrite E1. destruct (match nd with [r] => w_buying r | _ => false end); [reflexivity|].
    rewrite (cap_buyers n nd), !map_length. destruct (Nat.eqb (length (w_buyers nd)) 0 || Nat.eqb (length (w_buyers nd)) (length nd)); [cbn; auto|].
    destruct (w_huang S nd) as [[ts e]|e], (huang_auction S' (map (cap_row (qz n)) nd)) as [[tm e']|e']; cbn [same_run] in R; try contradiction; cbn [bind]; [|exact R].
    destruct R as [R1 R2]. unfold split_transactions_merged_players. rewrite R1. assert (C := cap_split (qz n) d (map snd (mb ++ ms)) ts tm_init).
    destruct (split_list _ _ _ _ _) as [tm'|x], (w_split d (map snd (mb ++ ms)) ts) as [l|y]; try contradiction; cbn [bind same_run]; [|congruence].
    rewrite C. auto.
Qed.
