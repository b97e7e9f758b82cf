(** Sums, curves and crossings of data on which a rounding makes no error. *)
From Verif Require Import QcTac Num NumFacts ModelBase ModelCurves ModelHuang ModelMerge ModelRound ModelFloat ListFacts MergeFacts
  RoundFacts RoundFeeHalf SpecGrid.

Lemma grid_0 g : on_grid g 0.
Proof. exists 0%Z. rewrite qz_0. ring. Qed.
Lemma grid_add g x y : on_grid g x -> on_grid g y -> on_grid g (x + y).
Proof. intros [a ->] [b ->]. exists (a + b)%Z. rewrite qz_plus. ring. Qed.
Lemma qz_opp z : qz (- z) = - qz z.
Proof. apply Qc_is_canon. rewrite this_opp, !this_qz. unfold Qeq. simpl. lia. Qed.
Lemma grid_opp g x : on_grid g x -> on_grid g (- x).
Proof. intros [a ->]. exists (- a)%Z. rewrite qz_opp. ring. Qed.
Lemma grid_sub g x y : on_grid g x -> on_grid g y -> on_grid g (x - y).
Proof. intros A B. unfold Qcminus. apply grid_add; [exact A | apply grid_opp, B]. Qed.
Lemma grid_mul g h x y : on_grid g x -> on_grid h y -> on_grid (g * h) (x * y).
Proof. intros [a ->] [b ->]. exists (a * b)%Z. rewrite qz_mult. ring. Qed.
Lemma half2 : qf 1 2 + qf 1 2 = 1.
Proof. apply Qc_is_canon. reflexivity. Qed.
Lemma qz2 : qz 2 = 1 + 1.
Proof. apply Qc_is_canon. reflexivity. Qed.
Lemma grid_half g x : on_grid g x -> on_grid (g * qf 1 2) x.
Proof. intros [a ->]. exists (a * 2)%Z. rewrite qz_mult, qz2. transitivity (qz a * g * (qf 1 2 + qf 1 2)); [rewrite half2; ring | ring]. Qed.
Lemma grid_halved g x : on_grid g x -> on_grid (g * qf 1 2) (x * qf 1 2).
Proof. intros [a ->]. exists a. ring. Qed.
Lemma grid_sum g l : (forall x, In x l -> on_grid g x) -> on_grid g (qsum l).
Proof. induction l as [|x l IH]; intro H; cbn [qsum]; [apply grid_0|]. apply grid_add; [apply H; left; reflexivity | apply IH; intros; apply H; right; assumption]. Qed.
Lemma grid_sumf {X} g (f : X -> Qc) l : (forall x, In x l -> on_grid g (f x)) -> on_grid g (qsumf f l).
Proof. intro H. apply grid_sum. intros y Hy. apply in_map_iff in Hy. destruct Hy as (x & <- & Hx). apply H, Hx. Qed.
Lemma abs_sum l : qabs (qsum l) <= qsumf qabs l.
Proof.
  induction l as [|x l IH]; cbn [qsum]; [unfold qsumf; cbn [map qsum]; vm_compute; discriminate|].
  rewrite qsumf_cons. pose proof (qabs_add x (qsum l)). qlra.
Qed.
Lemma abs_sum_nonneg l : (forall x, In x l -> 0 <= x) -> qsumf qabs l = qsum l.
Proof. induction l as [|x l IH]; intro H; [reflexivity|]. rewrite qsumf_cons. cbn [qsum]. rewrite IH by (intros; apply H; right; assumption). rewrite qabs_pos by (apply H; left; reflexivity). reflexivity. Qed.
Lemma abs_sum_nn l : 0 <= qsumf qabs l.
Proof. apply qsumf_nonneg. intros. apply qabs_nonneg. Qed.
Lemma no_error_less R g B B' : no_error R g B -> B' <= B -> no_error R g B'.
Proof. intros N L x X A. apply N; [exact X | qlra]. Qed.

Section Sums.
  Variables (R : rounding) (g B : Qc).
  Hypothesis N : no_error R g B.
  Lemma sums_free l s : sums_to R l s -> (forall x, In x l -> on_grid g x) -> qsumf qabs l <= B -> s = qsum l.
  Proof.
    induction 1 as [|x|l1 l2 a b _ IH1 _ IH2|l l' s P _ IH]; intros G L.
    - reflexivity.
    - cbn [qsum]. ring.
    - rewrite qsumf_app in L. pose proof (abs_sum_nn l1). pose proof (abs_sum_nn l2).
      rewrite IH1, IH2; [|intros; apply G, in_or_app; auto|qlra|intros; apply G, in_or_app; auto|qlra].
      rewrite qsum_app. apply N.
      + apply grid_add; apply grid_sum; intros; apply G, in_or_app; auto.
      + pose proof (qabs_add (qsum l1) (qsum l2)). pose proof (abs_sum l1). pose proof (abs_sum l2). qlra.
    - rewrite <- (qsum_perm _ _ P). apply IH; [intros x Hx; apply G; apply (Permutation_in _ P), Hx|]. rewrite (qsumf_perm qabs _ _ P). exact L.
  Qed.
  Lemma asum_free (A : adder R) l : (forall x, In x l -> on_grid g x) -> qsumf qabs l <= B -> A l = qsum l.
  Proof. intros. apply sums_free; [apply asum_ok | assumption | assumption]. Qed.
  Lemma asum_free_pos (A : adder R) {X} (f : X -> Qc) l : (forall x, In x l -> on_grid g (f x) /\ 0 <= f x) -> qsumf f l <= B -> A (map f l) = qsumf f l.
  Proof.
    intros H L. assert (H' : forall x, In x (map f l) -> on_grid g x /\ 0 <= x) by (intros x Hx; apply in_map_iff in Hx; destruct Hx as (y & <- & Hy); apply H, Hy).
    apply asum_free; [intros x Hx; apply H', Hx|]. rewrite abs_sum_nonneg by (intros x Hx; apply H', Hx). exact L.
  Qed.
  Lemma cumsum_free_from l : forall acc, on_grid g acc -> 0 <= acc -> (forall x, In x l -> on_grid g x /\ 0 <= x) -> acc + qsum l <= B ->
    cumsum_from_r R acc l = cumsum_from acc l.
  Proof.
    induction l as [|x l IH]; intros acc Ga Na H L; [reflexivity|]. cbn [cumsum_from_r cumsum_from]. cbn [qsum] in L.
    destruct (H x (or_introl eq_refl)) as [Gx Nx]. assert (Nl : 0 <= qsum l).
    { rewrite <- (abs_sum_nonneg l) by (intros y Hy; apply (H y (or_intror Hy))). apply abs_sum_nn. }
    assert (E : R (acc + x) = acc + x) by (apply N; [apply grid_add; assumption | rewrite qabs_pos by qlra; qlra]). rewrite E.
    rewrite IH; [reflexivity | apply grid_add; assumption | qlra | intros y Hy; apply H; right; exact Hy | qlra].
  Qed.
  Lemma cumsum_free l : (forall x, In x l -> on_grid g x /\ 0 <= x) -> qsum l <= B -> cumsum_r R l = cumsum l.
  Proof. intros H L. apply cumsum_free_from; [apply grid_0 | qlra | exact H | rewrite Qcplus_0_l; exact L]. Qed.
End Sums.

(** ** Double precision *)
Lemma f64_free_pos m e : (0 < m <= 2 ^ 53)%Z -> f64_pos (qz m * p2 e) = qz m * p2 e.
Proof.
  intros [H0 H]. pose proof (Z.log2_spec m ltac:(lia)) as [L1 L2]. set (k := Z.log2 m) in *. assert (K0 : (0 <= k)%Z) by apply Z.log2_nonneg.
  destruct (Z.le_gt_cases k 52) as [Lk|Lk].
  - apply (f64_pos_grid _ (m * 2 ^ (52 - k)) (e + k)).
    + rewrite qz_mult, <- (p2_nonneg_int (52 - k)) by lia. rewrite <- Qcmult_assoc, <- p2_plus. f_equal. f_equal. lia.
    + replace (2 ^ 52)%Z with (2 ^ k * 2 ^ (52 - k))%Z by (rewrite <- Z.pow_add_r by lia; f_equal; lia).
      replace (2 ^ 53)%Z with (2 ^ Z.succ k * 2 ^ (52 - k))%Z by (rewrite <- Z.pow_add_r by lia; f_equal; lia).
      pose proof (Z.pow_pos_nonneg 2 (52 - k) ltac:(lia) ltac:(lia)). split; apply Z.mul_le_mono_nonneg_r; lia.
  - assert (E : m = (2 ^ 53)%Z) by (pose proof (Z.pow_le_mono_r 2 53 k ltac:(lia) ltac:(lia)); lia).
    apply (f64_pos_grid _ (2 ^ 53) (e + 52)); [|lia]. rewrite E. f_equal. f_equal. lia.
Qed.
(** multiples of [2^e] up to [2^(e+53)] are doubles *)
Lemma f64_free e : no_error f64 (p2 e) (p2 (e + 53)).
Proof.
  intros x [z ->] L. change (f64_round (qz z * p2 e) = qz z * p2 e). pose proof (p2_pos e) as Pe.
  assert (M : forall m, (0 < m)%Z -> qz m * p2 e <= p2 (e + 53) -> (m <= 2 ^ 53)%Z).
  { intros m Hm Lm. rewrite Z.add_comm, p2_plus in Lm. apply mul_cancel_le in Lm; [|exact Pe]. rewrite (p2_nonneg_int 53) in Lm by lia.
    destruct (Z.le_gt_cases m (2 ^ 53)) as [K|K]; [exact K|]. apply (proj1 (qz_lt _ _)) in K. qlra. }
  assert (Pz : forall m, (0 < m)%Z -> 0 < qz m * p2 e) by (intros m Hm; apply qmult_pos; [rewrite <- qz_0; apply (proj1 (qz_lt _ _)), Hm | exact Pe]).
  destruct (Z.lt_trichotomy z 0) as [Lz|[->|Lz]].
  - assert (P : 0 < qz (- z) * p2 e) by (apply Pz; lia). assert (E : qz z * p2 e = - (qz (- z) * p2 e)) by (rewrite qz_opp; ring).
    rewrite E in *. set (y := qz (- z) * p2 e) in *. unfold f64_round. rewrite (proj2 (qltb_ge 0 (- y))) by qlra. rewrite (proj2 (qltb_lt (- y) 0)) by qlra.
    replace (- - y) with y by ring. f_equal. unfold y. apply f64_free_pos. split; [lia|]. apply M; [lia|]. fold y.
    rewrite qabs_neg in L by qlra. qlra.
  - rewrite qz_0, Qcmult_0_l. reflexivity.
  - pose proof (Pz z Lz) as P. unfold f64_round. rewrite (proj2 (qltb_lt _ _) P). apply f64_free_pos. split; [exact Lz|]. apply M; [exact Lz|].
    rewrite qabs_pos in L by qlra. exact L.
Qed.
(** what a machine may not keep: the multiple after the bound *)
Lemma f64_free_sharp : exists x, on_grid 1 x /\ x = p2 53 + 1 /\ f64 x <> x.
Proof.
  exists (p2 53 + 1). split; [exists (2 ^ 53 + 1)%Z; apply Qc_is_canon; vm_compute; reflexivity|]. split; [reflexivity|].
  intro E. apply (f_equal this) in E. vm_compute in E. discriminate.
Qed.

(** ** Tables *)
Section Table.
  Variables (gq gp T P : Qc).
  Notation fine := (gridded gq gp T P).
  Lemma fine_filter f d : fine d -> fine (filter f d).
  Proof.
    intros [H L]. split; [intros r Hr; apply filter_In in Hr; apply H, Hr|].
    assert (qsumf qty (filter f d) <= qsumf qty d); [|qlra]. rewrite qsumf_filter. apply qsumf_le. intros r Hr. destruct (H r Hr) as (H0 & _). destruct (f r); qlra.
  Qed.
  Lemma fine_perm d e : Permutation d e -> fine d -> fine e.
  Proof.
    intros Pm [H L]. split; [intros r Hr; apply H, (Permutation_in _ (Permutation_sym Pm)), Hr|]. rewrite <- (qsumf_perm qty _ _ Pm). exact L.
  Qed.
  Lemma fine_app d e : fine (d ++ e) -> fine d /\ fine e.
  Proof.
    intros [H L]. rewrite qsumf_app in L.
    assert (A : 0 <= qsumf qty d) by (apply qsumf_nonneg; intros r Hr; apply (H r), in_or_app; auto).
    assert (B : 0 <= qsumf qty e) by (apply qsumf_nonneg; intros r Hr; apply (H r), in_or_app; auto).
    split; (split; [intros r Hr; apply H, in_or_app; auto | qlra]).
  Qed.
  Lemma fine_firstn n d : fine d -> fine (firstn n d).
  Proof. intro H. rewrite <- (firstn_skipn n d) in H. apply fine_app in H. apply H. Qed.
  Lemma fine_desc S d : fine d -> fine (s_desc S d).
  Proof. apply fine_perm, Permutation_sym, s_desc_perm. Qed.
  Lemma fine_asc S d : fine d -> fine (s_asc S d).
  Proof. apply fine_perm, Permutation_sym, s_asc_perm. Qed.
  Lemma fine_buyers d : fine d -> fine (buyers d).
  Proof. apply fine_filter. Qed.
  Lemma fine_sellers d : fine d -> fine (sellers d).
  Proof. apply fine_filter. Qed.

  Variable R : rounding.
  Hypothesis Nq : no_error R gq T.
  Lemma fine_sum (A : adder R) d : fine d -> A (map qty d) = qsum (map qty d).
  Proof. intros [H L]. apply (asum_free_pos R gq T Nq A qty); [|exact L]. intros r Hr. destruct (H r Hr) as (H0 & H1 & _). auto. Qed.
  Lemma fine_cumsum d : fine d -> cumsum_r R (map qty d) = cumsum (map qty d).
  Proof.
    intros [H L]. apply (cumsum_free R gq T Nq); [|exact L]. intros x Hx. apply in_map_iff in Hx. destruct Hx as (r & <- & Hr). destruct (H r Hr) as (H0 & H1 & _). auto.
  Qed.
  Lemma demand_free S d : fine d -> demand_curve_r R S d = demand_curve_from_bids S d.
  Proof. intro H. unfold demand_curve_r, demand_curve_from_bids, curve_rows_r, curve_rows. rewrite fine_cumsum by (apply fine_desc, fine_buyers, H). reflexivity. Qed.
  Lemma supply_free S d : fine d -> supply_curve_r R S d = supply_curve_from_bids S d.
  Proof. intro H. unfold supply_curve_r, supply_curve_from_bids, curve_rows_r, curve_rows. rewrite fine_cumsum by (apply fine_asc, fine_sellers, H). reflexivity. Qed.

  (** the ordinates of a curve *)
  Definition fine_value (g : Qc) (v : num) : Prop := match v with Fin y => on_grid g y /\ qabs y <= P | _ => True end.
  Hypothesis P0 : 0 <= P.
  Lemma fine_rows d x v : fine d -> In (x, v) (curve_rows d) -> fine_value gp v.
  Proof.
    intros [H _] I. apply in_combine_r in I. apply in_map_iff in I. destruct I as (r & <- & Hr). apply (H r Hr).
  Qed.
  Lemma fine_demand S d x v : fine d -> In (x, v) (fst (demand_curve_from_bids S d)) -> fine_value gp v.
  Proof.
    intros H I. unfold demand_curve_from_bids in I. cbn [fst] in I. apply in_app_or in I. destruct I as [I|[E|[]]].
    - apply (fine_rows _ _ _ (fine_desc S _ (fine_buyers d H)) I).
    - injection E as <- <-. split; [apply grid_0|]. rewrite qabs_pos; qlra.
  Qed.
  Lemma fine_supply S d x v : fine d -> In (x, v) (fst (supply_curve_from_bids S d)) -> fine_value gp v.
  Proof.
    intros H I. unfold supply_curve_from_bids in I. cbn [fst] in I. apply in_app_or in I. destruct I as [I|[E|[]]].
    - apply (fine_rows _ _ _ (fine_asc S _ (fine_sellers d H)) I).
    - injection E as <- <-. exact I.
  Qed.
  Lemma step_search_in x f v : step_search x f = Some v -> exists y, In (y, v) f.
  Proof.
    induction f as [|[a b] f IH]; cbn [step_search]; [discriminate|]. destruct (nleb x a).
    - intro E. injection E as <-. exists a. left; reflexivity.
    - intro E. destruct (IH E) as (y & Hy). exists y. right; exact Hy.
  Qed.
  Lemma piece_in i xs g v : piece_value i xs g = Ok (Some v) -> exists y, In (y, v) g.
  Proof.
    unfold piece_value. destruct i as [i|].
    - destruct (nth_error g i) as [[a b]|] eqn:E; [|discriminate]. intro H. injection H as <-. exists a. eapply nth_error_In, E.
    - unfold value_at_last. destruct (rev xs) as [|x l]; [discriminate|]. intro H. injection H as H. unfold get_value_stepwise in H.
      destruct (nltb x (Fin 0)); [discriminate|]. eapply step_search_in, H.
  Qed.

  (** the midpoint *)
  Hypothesis Np : no_error R (gp * qf 1 2) (P + P).
  Hypothesis Hh : R (qf 1 2) = qf 1 2.
  Lemma half_pos : 0 < qf 1 2.
  Proof. reflexivity. Qed.
  Lemma half_abs y : qabs (y * qf 1 2) <= qabs y.
  Proof.
    rewrite qabs_scale by (pose proof half_pos; qlra). pose proof (qabs_nonneg y) as A. 
    pose proof (qmult_nonneg _ _ A (Qclt_le_weak _ _ half_pos)) as M.
    replace (qabs y) with (qabs y * qf 1 2 + qabs y * qf 1 2) at 2 by (rewrite <- Qcmult_plus_distr_r, half2; ring). qlra.
  Qed.
  Lemma half_abs2 y : qabs (y * qf 1 2) + qabs (y * qf 1 2) = qabs y.
  Proof. rewrite qabs_scale by (pose proof half_pos; qlra). rewrite <- Qcmult_plus_distr_r, half2. ring. Qed.
  Lemma mix_free a b : fine_value gp a -> fine_value gp b ->
    mix_r R a b (qf 1 2) = nadd (nmul a (Fin (qf 1 2))) (nmul (Fin (1 - qf 1 2)) b) /\ fine_value (gp * qf 1 2) (nadd (nmul a (Fin (qf 1 2))) (nmul (Fin (1 - qf 1 2)) b)).
  Proof.
    assert (E1 : 1 - qf 1 2 = qf 1 2) by (apply Qc_is_canon; reflexivity). unfold mix_r. rewrite !E1, Hh.
    assert (I : forall y, qabs y <= P -> on_grid gp y -> R (y * qf 1 2) = y * qf 1 2).
    { intros y Hy Gy. apply Np; [apply grid_halved, Gy|]. pose proof (half_abs y). qlra. }
    destruct a as [x| | |], b as [y| | |]; cbn [fine_value]; intros Ha Hb; cbn [nmul nround nadd]; try (split; [reflexivity | exact Logic.I]);
      try (destruct Ha as [Ga La]); try (destruct Hb as [Gb Lb]).
    - rewrite (Qcmult_comm (qf 1 2) y). rewrite !I by assumption. cbn [nadd nround].
      assert (G2 : on_grid (gp * qf 1 2) (x * qf 1 2 + y * qf 1 2)) by (apply grid_add; apply grid_halved; assumption).
      assert (L2 : qabs (x * qf 1 2 + y * qf 1 2) <= P).
      { pose proof (qabs_add (x * qf 1 2) (y * qf 1 2)). pose proof (half_abs2 x). pose proof (half_abs2 y). qlra. }
      rewrite Np by (try exact G2; qlra). split; [reflexivity | split; assumption].
  Qed.
  Lemma intersect_free f g : (forall x v, In (x, v) f -> fine_value gp v) -> (forall x v, In (x, v) g -> fine_value gp v) ->
    intersect_stepwise_r R f g (qf 1 2) = intersect_stepwise f g (qf 1 2) /\
    forall x i j v, intersect_stepwise f g (qf 1 2) = Ok (x, i, j, v) -> fine_value (gp * qf 1 2) v.
  Proof.
    intros Ff Fg. unfold intersect_stepwise_r, intersect_stepwise.
    assert (D : forall e, @Err (option num * option nat * option nat * num) e = Err e /\ (forall x i j v, @Err (option num * option nat * option nat * num) e = Ok (x, i, j, v) -> fine_value (gp * qf 1 2) v)) by (intro; split; [reflexivity | intros; discriminate]).
    destruct (col_max f) as [fm|]; [|apply D]. cbn [bind].
    destruct (col_max g) as [gm|]; [|apply D]. cbn [bind]. cbv zeta. destruct (scan _ _) as [xa|]; [|apply D]. cbn [bind].
    destruct (piece_value _ _ g) as [[gv|]|] eqn:Eg; [| |apply D]; cbn [bind];
      (destruct (piece_value _ _ f) as [[fv|]|] eqn:Ef; try apply D). cbn [bind].
    destruct (piece_in _ _ _ _ Eg) as (y1 & I1). destruct (piece_in _ _ _ _ Ef) as (y2 & I2). apply Fg in I1. apply Ff in I2.
    destruct (mix_free gv fv I1 I2) as [M1 M2]. rewrite M1.
    assert (W : forall v, fine_value gp v -> fine_value (gp * qf 1 2) v) by (intros [y| | |]; cbn [fine_value]; auto; intros [G0 L0]; split; [apply grid_half, G0 | exact L0]).
    split; [reflexivity|]. intros x i j v E. injection E as _ _ _ <-. destruct xa; [|exact M2]. destruct (_ && _); [exact M2|]. destruct (mem_col _ f); apply W; assumption.
  Qed.
  Lemma crossing_free S d : fine d ->
    intersect_stepwise_r R (fst (demand_curve_r R S d)) (fst (supply_curve_r R S d)) (qf 1 2) =
    intersect_stepwise (fst (demand_curve_from_bids S d)) (fst (supply_curve_from_bids S d)) (qf 1 2) /\
    forall x i j v, intersect_stepwise (fst (demand_curve_from_bids S d)) (fst (supply_curve_from_bids S d)) (qf 1 2) = Ok (x, i, j, v) -> fine_value (gp * qf 1 2) v.
  Proof. intro H. rewrite (demand_free S d H), (supply_free S d H). apply intersect_free; intros x v I; [apply (fine_demand S d x v H I) | apply (fine_supply S d x v H I)]. Qed.
  Lemma price_free S d : fine d -> find_competitive_price_r R S d = ModelMuda.find_competitive_price S d /\
    forall v, ModelMuda.find_competitive_price S d = Ok v -> fine_value (gp * qf 1 2) v.
  Proof.
    intro H. destruct (crossing_free S d H) as [E F]. unfold find_competitive_price_r, ModelMuda.find_competitive_price. rewrite E. split; [reflexivity|].
    intros v. destruct (intersect_stepwise _ _ _) as [[[[x i] j] w]|] eqn:Ei; [|discriminate]. cbn [bind]. intro Ev. injection Ev as <-. exact (F _ _ _ _ eq_refl).
  Qed.
End Table.
