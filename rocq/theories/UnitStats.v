(** Change of units: the statistics. *)
From Verif Require Import QcTac Num ModelBase ModelHuang ModelMuda ModelMarket ModelStats ListFacts Spec SpecTrade SpecMuda SpecStats SpecUnits UnitFacts UnitMech LPFacts.

Section Units.
  Variables a b : Qc.
  Hypothesis Ha : 0 < a.
  Hypothesis Hb : 0 < b.
  Definition lp_units (k : Qc) (p : lp) : lp := mkLP (lp_vars p) (map (fun vc => (fst vc, k * snd vc)) (lp_obj p)) (map (fun c => (fst c, a * snd c)) (lp_cons p)).
  Lemma sum_units {A} k (f : A -> Qc) l : qsumf (fun x => k * f x) l = k * qsumf f l.
  Proof. induction l as [|x l IH]; [cbn; ring|]. unfold qsumf in *. cbn [map qsum]. rewrite IH. ring. Qed.
  Lemma value_units k p x : lp_value (lp_units k p) (fun v => a * x v) = a * k * lp_value p x.
  Proof.
    unfold lp_value, lp_units. cbn [lp_obj]. induction (lp_obj p) as [|vc l IH]; [cbn; ring|]. unfold qsumf in *. cbn [map qsum fst snd]. rewrite IH. ring.
  Qed.
  Lemma feasible_units k p x : lp_feasible p x -> lp_feasible (lp_units k p) (fun v => a * x v).
  Proof.
    intros [H1 H2]. split; cbn [lp_units lp_vars lp_cons].
    - intros v Iv. apply qmult_nonneg; [qlra|apply H1, Iv].
    - intros c Ic. apply in_map_iff in Ic. destruct Ic as (c0 & <- & Ic0). cbn [fst snd]. rewrite sum_units. apply qmult_le_l; [qlra|apply H2, Ic0].
  Qed.
  Lemma qsumf_ext' {A} (f g : A -> Qc) l : (forall x, f x = g x) -> qsumf f l = qsumf g l.
  Proof. intros H. induction l as [|x l IH]; [reflexivity|]. unfold qsumf in *. cbn [map qsum]. rewrite IH, H. reflexivity. Qed.
  Lemma feasible_back k p x : lp_feasible (lp_units k p) x -> lp_feasible p (fun v => / a * x v).
  Proof.
    assert (N : a <> 0) by (intros E; rewrite E in Ha; qlra).
    assert (P : 0 < / a). { destruct (qlt_spec 0 (/ a)) as [|L]; [assumption|]. exfalso. assert (a * / a = 1) by (field; exact N). assert (0 <= a * (- / a)) by (apply qmult_nonneg; qlra). assert (a * - / a = - (1)) by (field; exact N). qlra. }
    intros [H1 H2]. split.
    - intros v Iv. apply qmult_nonneg; [qlra|apply H1, Iv].
    - intros c Ic. rewrite sum_units. assert (K := H2 (fst c, a * snd c) (in_map _ _ _ Ic)). cbn [fst snd] in K.
      replace (snd c) with (/ a * (a * snd c)) by (field; exact N). apply qmult_le_l; [qlra|exact K].
  Qed.
  Lemma optimal_units k p x y : lp_optimal p x -> lp_optimal (lp_units k p) y -> 0 < k -> lp_value (lp_units k p) y = a * k * lp_value p x.
  Proof.
    intros [F O] [F' O'] Hk. assert (N : a <> 0) by (intros E; rewrite E in Ha; qlra).
    assert (K := O' _ (feasible_units k p x F)). rewrite value_units in K.
    assert (K' := O _ (feasible_back k p y F')).
    assert (E : lp_value (lp_units k p) y = a * k * lp_value p (fun v => / a * y v)).
    { rewrite <- value_units. apply qsumf_ext'. intros v. field. exact N. }
    rewrite E in *. assert (0 <= a * k) by (apply qmult_nonneg; qlra).
    assert (a * k * lp_value p (fun v => / a * y v) <= a * k * lp_value p x) by (apply qmult_le_l; assumption). qlra.
  Qed.
  Lemma optimum_units k p : 0 < k -> (exists x, lp_optimal p x) -> exists y, lp_optimal (lp_units k p) y.
  Proof.
    intros Hk [x [F O]]. exists (fun v => a * x v). split; [apply feasible_units, F|]. intros y Fy. rewrite value_units.
    assert (N : a <> 0) by (intros E; rewrite E in Ha; qlra).
    assert (E : lp_value (lp_units k p) y = a * k * lp_value p (fun v => / a * y v)).
    { rewrite <- value_units. apply qsumf_ext'. intros v. field. exact N. }
    rewrite E. apply qmult_le_l; [apply qmult_nonneg; qlra|]. apply O, (feasible_back k), Fy.
  Qed.
  Lemma ratio_units sv k p x : solver_ok sv -> 0 < k -> (exists y, lp_optimal p y) ->
    ratio (a * k * x) (solve_lp sv (lp_units k p)) = ratio x (solve_lp sv p).
  Proof.
    intros Hs Hk O. destruct (Hs p O) as (y & E & Oy). destruct (Hs _ (optimum_units k p Hk O)) as (y' & E' & Oy'). unfold solve_lp. rewrite E, E'. unfold ratio.
    rewrite (optimal_units k p y y' Oy Oy' Hk). assert (P : 0 < a * k) by (apply qmult_pos; assumption). rewrite scale_ltb0 by exact P.
    destruct (qltb 0 (lp_value p y)) eqn:L; [|reflexivity]. apply qltb_lt in L. f_equal. f_equal. field. repeat split; intros Z; rewrite Z in *; qlra.
  Qed.

  Section Table.
    Variables d d' : df.
    Hypothesis F : Forall2 (same_bid a b) d d'.
    Let HR : forall r r', same_bid a b r r' -> same_bid a b r r' := fun r r' H => H.
    Lemma pairs_units : pair_index d' = pair_index d.
    Proof.
      unfold pair_index. rewrite (tb_lbl a b _ HR _ _ (tb_buyers a b _ HR _ _ F)), (tb_lbl a b _ HR _ _ (tb_sellers a b _ HR _ _ F)). reflexivity.
    Qed.
    Lemma iloc_qty_units i : iloc_qty d' i = res_map (Qcmult a) (iloc_qty d i).
    Proof. unfold iloc_qty. assert (N := F2_nth _ _ _ F i). destruct (nth_error d i), (nth_error d' i); try contradiction; [|reflexivity]. cbn. f_equal. apply N. Qed.
    Lemma iloc_price_units i : iloc_price d' i = res_map (Qcmult b) (iloc_price d i).
    Proof. unfold iloc_price. assert (N := F2_nth _ _ _ F i). destruct (nth_error d i), (nth_error d' i); try contradiction; [|reflexivity]. cbn. f_equal. apply N. Qed.
    Lemma compatible_units l : compatible d' l = compatible d l.
    Proof.
      induction l as [|v l IH]; [reflexivity|]. cbn [compatible]. rewrite !iloc_price_units, IH.
      destruct (iloc_price d (fst v)) as [x|]; [|reflexivity]. destruct (iloc_price d (snd v)) as [y|]; [|reflexivity]. cbn [res_map bind]. rewrite scale_leb by exact Hb. reflexivity.
    Qed.
    Lemma mapM_units {A B C} (f : A -> res B) (g : A -> res C) (h : B -> C) l : (forall x, g x = res_map h (f x)) -> mapM g l = res_map (map h) (mapM f l).
    Proof.
      intros H. induction l as [|x l IH]; [reflexivity|]. cbn [mapM]. rewrite H, IH. destruct (f x); [|reflexivity]. cbn [res_map bind]. destruct (mapM f l); reflexivity.
    Qed.
    Lemma buyer_cons_units l : buyer_cons d' l = res_map (map (fun c => (fst c, a * snd c))) (buyer_cons d l).
    Proof.
      unfold buyer_cons. rewrite (tb_lbl a b _ HR _ _ (tb_buyers a b _ HR _ _ F)), (tb_lbl a b _ HR _ _ (tb_sellers a b _ HR _ _ F)).
      apply mapM_units. intros i. rewrite iloc_qty_units. destruct (iloc_qty d i); reflexivity.
    Qed.
    Lemma seller_cons_units l : seller_cons d' l = res_map (map (fun c => (fst c, a * snd c))) (seller_cons d l).
    Proof.
      unfold seller_cons. rewrite (tb_lbl a b _ HR _ _ (tb_buyers a b _ HR _ _ F)), (tb_lbl a b _ HR _ _ (tb_sellers a b _ HR _ _ F)).
      apply mapM_units. intros i. rewrite iloc_qty_units. destruct (iloc_qty d i); reflexivity.
    Qed.
    Lemma volume_lp_units : volume_lp d' = res_map (lp_units 1) (volume_lp d).
    Proof.
      unfold volume_lp. rewrite pairs_units, compatible_units. destruct (compatible d (pair_index d)) as [l|]; [|reflexivity]. cbn [bind]. rewrite buyer_cons_units, seller_cons_units.
      destruct (buyer_cons d l) as [cb|]; [|reflexivity]. destruct (seller_cons d l) as [cs|]; [|reflexivity]. cbn [res_map bind]. unfold lp_units. cbn [lp_vars lp_obj lp_cons].
      rewrite map_app, map_map. cbn [fst snd]. replace (1 * 1) with 1 by ring. reflexivity.
    Qed.
    Definition dict_units (m : dict) : dict := map (fun iv => (fst iv, b * snd iv)) m.
    Lemma dict_get_units m i : dict_get (dict_units m) i = option_map (Qcmult b) (dict_get m i).
    Proof. induction m as [|[j v] m IH]; [reflexivity|]. cbn [dict_units map dict_get fst snd]. destruct (Nat.eqb j i); [reflexivity|exact IH]. Qed.
    Lemma dict_fill_units m : dict_fill (dict_units m) d' = dict_units (dict_fill m d).
    Proof.
      unfold dict_fill. revert m. clear HR. induction F as [|x y l l' H K IH]; intros m; [reflexivity|]. cbn [fold_left]. destruct H as (H1 & _ & H3 & _).
      rewrite H1, dict_get_units. destruct (dict_get m (lbl x)) as [v|]; cbn [option_map]; [apply (IH K)|]. assert (E : dict_units m ++ [(lbl x, price y)] = dict_units (m ++ [(lbl x, price x)])) by (unfold dict_units; rewrite map_app; cbn [map fst snd]; rewrite H3; reflexivity). refine (eq_trans (f_equal (fun acc => fold_left _ l' acc) E) (IH K _)).
    Qed.
    Lemma welfare_lp_units m : welfare_lp d' (dict_units m) = res_map (lp_units b) (welfare_lp d m).
    Proof.
      unfold welfare_lp. rewrite pairs_units. cbv zeta.
      rewrite (mapM_units (fun v => pb <- dict_lookup m (fst v);; ps <- dict_lookup m (snd v);; Ok (v, pb - ps)) _ (fun vc => (fst vc, b * snd vc))).
      2:{ intros v. unfold dict_lookup. rewrite !dict_get_units. destruct (dict_get m (fst v)); [|reflexivity]. destruct (dict_get m (snd v)); [|reflexivity]. cbn. f_equal. f_equal. ring. }
      match goal with |- context [mapM ?f (pair_index d)] => destruct (mapM f (pair_index d)) as [l|] end; [|reflexivity]. cbn [res_map bind]. rewrite buyer_cons_units, seller_cons_units.
      destruct (buyer_cons d _) as [cb|]; [|reflexivity]. destruct (seller_cons d _) as [cs|]; [|reflexivity]. cbn [res_map bind]. unfold lp_units. cbn [lp_vars lp_obj lp_cons]. rewrite map_app. reflexivity.
    Qed.
    (** joined rows correspond *)
    Definition RJ (x y : trans * row) : Prop := fst y = trans_units a b (fst x) /\ same_bid a b (snd x) (snd y).
    Lemma joined ts : Forall2 RJ (join ts d) (join (map (trans_units a b) ts) d').
    Proof.
      induction ts as [|t ts IH]; [constructor|]. unfold join in *. cbn [map flat_map]. apply F2_app; [|exact IH]. cbn [trans_units t_bid].
      assert (G : Forall2 (same_bid a b) (filter (fun r => Nat.eqb (lbl r) (t_bid t)) d) (filter (fun r => Nat.eqb (lbl r) (t_bid t)) d')).
      { apply F2_filter; [exact F|]. intros x y _ (-> & _). reflexivity. }
      induction G as [|x y l l' H G IHG]; cbn [map]; constructor; [split; [reflexivity|exact H]|exact IHG].
    Qed.
    Lemma joined_sum ts (P : row -> bool) (f : trans -> row -> Qc) : (forall x y, same_bid a b x y -> P y = P x) ->
      (forall t x y, same_bid a b x y -> f (trans_units a b t) y = a * b * f t x) ->
      qsum (map (fun tr => f (fst tr) (snd tr)) (filter (fun tr => P (snd tr)) (join (map (trans_units a b) ts) d'))) =
      a * b * qsum (map (fun tr => f (fst tr) (snd tr)) (filter (fun tr => P (snd tr)) (join ts d))).
    Proof.
      intros HP Hf. rewrite <- scale_sum. f_equal.
      apply (F2_map RJ (fun tr => f (fst tr) (snd tr)) (fun tr => f (fst tr) (snd tr)) (Qcmult (a * b))).
      - apply F2_filter; [apply joined|]. intros x y _ [_ H]. apply HP, H.
      - intros x y _ [-> H]. apply Hf, H.
    Qed.
    Lemma traded_units sv ts : solver_ok sv -> map lbl d = seq 0 (length d) -> qty_nonneg d ->
      percentage_traded sv d' (map (trans_units a b) ts) = percentage_traded sv d ts.
    Proof.
      intros Hs Hl Hq. unfold percentage_traded, maximum_traded_volume. rewrite volume_lp_units. destruct (volume_lp_optimal d Hl Hq) as (p & y & -> & O). cbn [res_map bind].
      replace (qsum (map t_qty (map (trans_units a b) ts)) / qz 2) with (a * 1 * (qsum (map t_qty ts) / qz 2)).
      - apply ratio_units; [exact Hs|reflexivity|eauto].
      - rewrite map_map. replace (map (fun x => t_qty (trans_units a b x)) ts) with (map (Qcmult a) (map t_qty ts)) by (rewrite map_map; reflexivity). rewrite scale_sum. unfold Qcdiv. ring.
    Qed.
    Lemma welfare_units sv ts rp rp' : solver_ok sv -> map lbl d = seq 0 (length d) -> qty_nonneg d ->
      percentage_welfare sv d' (map (trans_units a b) ts) rp' = percentage_welfare sv d ts rp.
    Proof.
      intros Hs Hl Hq. unfold percentage_welfare, maximum_aggregated_utility. change (@nil (nat * Qc)) with (dict_units []) at 1. rewrite dict_fill_units, welfare_lp_units.
      destruct (welfare_lp_optimal d Hl [] Hq) as (p & y & -> & O). cbn [res_map bind]. cbv zeta.
      rewrite (joined_sum ts buying (fun t r => (price r - t_price t) * t_qty t)).
      rewrite (joined_sum ts (fun r => negb (buying r)) (fun t r => (t_price t - price r) * t_qty t)).
      - match goal with |- ratio (a * b * ?x + a * b * ?y) _ = _ => replace (a * b * x + a * b * y) with (a * b * (x + y)) by ring end. apply ratio_units; [exact Hs|exact Hb|eauto].
      - intros x z (_ & _ & _ & ->). reflexivity.
      - intros t x z (_ & _ & -> & _). cbn [trans_units t_qty t_price]. ring.
      - intros x z (_ & _ & _ & ->). reflexivity.
      - intros t x z (_ & _ & -> & _). cbn [trans_units t_qty t_price]. ring.
    Qed.
  End Table.
  Section Users.
    Variables d d' : df.
    Hypothesis F : Forall2 (same_offer a b) d d'.
    Let F0 : Forall2 (same_bid a b) d d'.
    Proof. apply (F2_impl (same_offer a b)); [|exact F]. intros x y H; apply H. Qed.
    Lemma users_units : map user d' = map user d.
    Proof. apply (F2_map_same _ _ _ _ _ F). intros x y _ [_ H]. exact H. Qed.
    Lemma joined_user ts : Forall2 (fun x y => RJ x y /\ user (snd y) = user (snd x)) (join ts d) (join (map (trans_units a b) ts) d').
    Proof.
      induction ts as [|t ts IH]; [constructor|]. unfold join in *. cbn [map flat_map]. apply F2_app; [|exact IH]. cbn [trans_units t_bid].
      assert (G : Forall2 (same_offer a b) (filter (fun r => Nat.eqb (lbl r) (t_bid t)) d) (filter (fun r => Nat.eqb (lbl r) (t_bid t)) d')).
      { apply F2_filter; [exact F|]. intros x y _ [(-> & _) _]. reflexivity. }
      induction G as [|x y l l' H G IHG]; cbn [map]; constructor; [|exact IHG]. destruct H as [H1 H2]. repeat split; try exact H2; apply H1.
    Qed.
    Lemma players_units ts v v' : (forall x y, same_offer a b x y -> v' y = b * v x) ->
      player_profits d' (map (trans_units a b) ts) v' = map (Qcmult (a * b)) (player_profits d ts v).
    Proof.
      intros Hv. unfold player_profits, users_sorted. rewrite users_units, map_map. apply map_ext. intros u. rewrite <- scale_sum. f_equal.
      apply (F2_map (fun x y => RJ x y /\ user (snd y) = user (snd x)) (fun tr => get_gain (t_price (fst tr)) (v (snd tr)) (buying (snd tr)) (t_qty (fst tr))) _ (Qcmult (a * b))).
      - apply F2_filter; [apply joined_user|]. intros x y _ [_ ->]. reflexivity.
      - intros x y _ [[-> H] Hu]. cbn [trans_units t_qty t_price]. rewrite (Hv (snd x) (snd y)) by (split; assumption). destruct H as (_ & _ & _ & ->).
        unfold get_gain. cbv zeta. destruct (buying (snd x)); ring.
    Qed.
    Definition profits_units (p : profits) : profits := mkProfits (map (Qcmult (a * b)) (pr_bid p)) (map (Qcmult (a * b)) (pr_reservation p)) (a * b * pr_market p).
    Lemma profits_in_units ts rp fees :
      calculate_profits d' (map (trans_units a b) ts) (option_map dict_units rp) (option_map (map (Qcmult (a * b))) fees) =
      (p <- fst (calculate_profits d ts rp fees) ;; Ok (profits_units p), option_map dict_units (snd (calculate_profits d ts rp fees))).
    Proof.
      unfold calculate_profits. cbv zeta. cbn [fst snd]. 
      replace (match option_map dict_units rp with Some m => m | None => [] end) with (dict_units (match rp with Some m => m | None => [] end)) by (destruct rp; reflexivity).
      rewrite (dict_fill_units d d' F0). f_equal; [|destruct rp; reflexivity].
      pose proof (joined d d' F0 ts) as J. destruct (join ts d) as [|j0 js], (join (map (trans_units a b) ts) d') as [|k0 ks];
        [reflexivity | inversion J | inversion J | clear J j0 js k0 ks].
      cbn [bind]. f_equal. unfold profits_units. cbn [pr_bid pr_reservation pr_market]. f_equal.
      - apply players_units. intros x y H. apply H.
      - apply players_units. intros x y [(H1 & _ & H3 & _) _]. rewrite H1, dict_get_units. destruct (dict_get _ (lbl x)); [reflexivity|exact H3].
      - unfold market_profit. cbv zeta. rewrite (joined_sum d d' F0 ts buying (fun t r => t_price t * t_qty t)), (joined_sum d d' F0 ts (fun r => negb (buying r)) (fun t r => t_price t * t_qty t)).
        + rewrite users_units. destruct fees as [f|]; cbn [option_map]; [rewrite scale_sum; ring|].
          assert (Z : forall n, qsum (repeat 0 n) = 0) by (induction n as [|n IH]; [reflexivity|]; cbn [repeat qsum]; rewrite IH; ring). rewrite Z. ring.
        + intros x z (_ & _ & _ & ->). reflexivity.
        + intros t x z _. cbn [trans_units t_qty t_price]. ring.
        + intros x z (_ & _ & _ & ->). reflexivity.
        + intros t x z _. cbn [trans_units t_qty t_price]. ring.
    Qed.
  End Users.
End Units.
