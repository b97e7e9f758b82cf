(** What the helper functions raise, and when. *)
From Verif Require Import QcTac Num NumFacts ModelBase ModelCurves ModelHuang ModelMuda ModelMerge ModelStats ModelDatasets ListFacts Spec SpecErrors
  CurveFacts IntersectFacts UpdateFacts SplitFees RoundMuda MudaHalf AllocFacts DatasetFacts.

(** ** update_quantity *)
Lemma uq_loop_full fuel : forall q gap N i v, N = length (somes q) -> (N < fuel)%nat -> nanargmin q = Some (i, v) ->
  (gap <= qsum (somes q) -> exists q' gap' N', uq_loop fuel q gap N i v = Ok (q', gap', N') /\ length q' = length q) /\
  (qsum (somes q) < gap -> uq_loop fuel q gap N i v = Err ValueError).
Proof.
  induction fuel as [|fuel IH]; intros q gap N i v HN Hf Hm; [lia|].
  simpl. destruct (nanargmin_some _ _ _ Hm) as [Hi Hmin]. destruct (somes_remove _ _ _ Hi) as [Es El].
  assert (PN : 0 < qnat N) by (apply qnat_pos; lia).
  assert (NZ : qnat N <> 0) by (intro Z; rewrite Z in PN; qlra).
  assert (Eg : gap / qnat N * qnat N = gap) by (field; exact NZ).
  destruct (qlt_spec v (gap / qnat N)) as [L|L].
  - set (q1 := set_nth i None q) in *. destruct (nanargmin q1) as [[i1 v1]|] eqn:E1.
    + destruct (IH q1 (gap - v) (N - 1)%nat i1 v1) as [A B]; [lia | lia | exact E1|].
      assert (Lq : length q1 = length q) by (unfold q1; apply set_nth_length).
      split; intro H; [destruct A as (q' & g' & N' & E & Lq'); [qlra|]; exists q', g', N'; split; [exact E | congruence] | apply B; qlra].
    + apply nanargmin_none in E1. rewrite E1 in Es, El. simpl in Es, El.
      assert (N1' : qnat N = 1) by (rewrite HN, El; apply Qc_is_canon; reflexivity).
      rewrite N1' in L. replace (gap / 1) with gap in L by (field; discriminate).
      split; [intro H; exfalso; qlra | reflexivity].
  - split; [intros _; exists q, gap, N; split; reflexivity|]. intro H. exfalso.
    assert (K : forall l : list Qc, (forall x, In x l -> v <= x) -> qnat (length l) * v <= qsum l).
    { clear. induction l as [|x l IH]; intro H; [cbn [length qsum]; rewrite qnat_0, Qcmult_0_l; apply Qcle_refl|]. cbn [length qsum]. rewrite qnat_S.
      pose proof (H x (or_introl eq_refl)). specialize (IH (fun y Hy => H y (or_intror Hy))).
      replace ((qnat (length l) + 1) * v) with (qnat (length l) * v + v) by ring. qlra. }
    specialize (K _ Hmin). rewrite <- HN in K. pose proof (qmult_le_r _ _ _ (Qclt_le_weak _ _ PN) L) as K2. rewrite Eg in K2.
    rewrite (Qcmult_comm v) in K2. qlra.
Qed.
Theorem update_quantity_full Q gap :
  (Q <> [] /\ gap <= qsum Q -> exists Q', update_quantity Q gap = Ok Q' /\ length Q' = length Q) /\
  (Q = [] \/ qsum Q < gap -> update_quantity Q gap = Err ValueError).
Proof.
  unfold update_quantity. destruct (nanargmin (map Some Q)) as [[i v]|] eqn:Hm.
  - destruct (uq_loop_full (Datatypes.S (length Q)) (map Some Q) gap (length Q) i v) as [A B]; [rewrite somes_map_Some; reflexivity | lia | exact Hm|].
    rewrite somes_map_Some in A, B. split.
    + intros [Hne H]. destruct (A H) as (q' & g' & N' & -> & L). cbn [bind]. rewrite map_length in L. rewrite !map_map.
      destruct q' as [|o q']; [destruct Q; [congruence | discriminate]|]. cbn [map]. eexists. split; [reflexivity|]. simpl in *. rewrite !map_length. exact L.
    + intros [->|H]; [discriminate Hm|]. rewrite (B H). reflexivity.
  - apply nanargmin_none in Hm. rewrite somes_map_Some in Hm. subst Q. split; [intros [H _]; congruence | reflexivity].
Qed.

(** ** intersect_stepwise *)
Section Intersect.
  Variables (f g : curve) (k : Qc).
  Hypothesis Hok : forall x, In x (abscissae f g) -> ok x.
  Lemma fok x : In x (map fst f) -> ok x. Proof. intro H. apply Hok, in_or_app. left. exact H. Qed.
  Lemma gok x : In x (map fst g) -> ok x. Proof. intro H. apply Hok, in_or_app. right. exact H. Qed.
  Lemma col_max_full (h : curve) : (forall x, In x (map fst h) -> ok x) -> h <> [] ->
    exists m, col_max h = Ok m /\ In m (map fst h) /\ forall x, In x (map fst h) -> nle x m.
  Proof.
    intros Ho Hn. unfold col_max. destruct (map fst h) as [|a l] eqn:E; [destruct h; [congruence | discriminate]|].
    assert (Ho' : forall y, In y l -> ok y) by (intros; apply Ho; right; assumption).
    destruct (fold_nmax l a (Ho a (or_introl eq_refl)) Ho') as (H1 & H2 & H3). eexists. split; [reflexivity|]. split.
    - destruct H1 as [->|H1]; [left; reflexivity | right; exact H1].
    - intros x [<-|Hx]; auto.
  Qed.
  Lemma value_some (h : curve) m x : In m (map fst h) -> nle x m -> nltb x (Fin 0) = false -> exists v, get_value_stepwise x h = Some v.
  Proof.
    intros Hm Hx H0. unfold get_value_stepwise. rewrite H0. apply in_map_iff in Hm. destruct Hm as (p & <- & Hp).
    destruct (StepAt_exists h x p Hp Hx) as (i & v & Sv). exists v. apply step_search_iff. eauto.
  Qed.
  Lemma piece_ok ast xs (h : curve) : h <> [] -> xs <> [] -> (forall i, ast = Some i -> (i < length h)%nat) ->
    (forall x, In x xs -> exists v, get_value_stepwise x h = Some v) -> exists v, piece_value ast xs h = Ok (Some v).
  Proof.
    intros Hn Hx Hi Hv. destruct ast as [i|].
    - cbn [piece_value]. specialize (Hi i eq_refl). destruct (nth_error h i) as [[a v]|] eqn:E; [eauto|]. apply nth_error_None in E. lia.
    - cbn [piece_value]. unfold value_at_last. destruct (rev xs) as [|x r] eqn:E.
      + exfalso. apply Hx. rewrite <- (rev_involutive xs), E. reflexivity.
      + destruct (Hv x) as (v & ->); [apply in_rev; rewrite E; left; reflexivity | eauto].
  Qed.
  Theorem intersect_full :
    (f = [] \/ g = [] -> intersect_stepwise f g k = Err ValueError) /\
    (f <> [] -> g <> [] -> (exists x, In x (abscissae f g) /\ nlt x (Fin 0)) -> intersect_stepwise f g k = Err TypeError) /\
    (f <> [] -> g <> [] -> (forall x, In x (abscissae f g) -> nle (Fin 0) x) -> exists r, intersect_stepwise f g k = Ok r).
  Proof.
    split.
    { unfold intersect_stepwise, col_max. intros [->| ->]; [reflexivity|]. destruct (map fst f); reflexivity. }
    assert (Main : f <> [] -> g <> [] -> exists xm fm gm, col_max f = Ok fm /\ col_max g = Ok gm /\ xm = nmin fm gm /\ In fm (map fst f) /\ In gm (map fst g) /\
      nle xm fm /\ nle xm gm /\ (xm = fm \/ xm = gm) /\ (forall x, In x (common_xs f g xm) <-> In x (abscissae f g) /\ nle x xm) /\ StronglySorted nlt (common_xs f g xm) /\
      (forall x, In x (map fst f) -> nle x fm) /\ (forall x, In x (map fst g) -> nle x gm)).
    { intros Nf Ng. destruct (col_max_full f fok Nf) as (fm & E1 & I1 & M1). destruct (col_max_full g gok Ng) as (gm & E2 & I2 & M2).
      assert (Ho : forall y, In y (map fst g ++ map fst f) -> ok y).
      { intros y Hy. apply Hok. unfold abscissae. apply in_app_or in Hy. apply in_or_app. tauto. }
      exists (nmin fm gm), fm, gm. split; [exact E1|]. split; [exact E2|]. split; [reflexivity|]. split; [exact I1|]. split; [exact I2|].
      assert (C : forall x, In x (common_xs f g (nmin fm gm)) <-> In x (abscissae f g) /\ nle x (nmin fm gm)).
      { intro x. unfold common_xs. rewrite nsort_In, filter_In, ndedup_In by exact Ho. unfold abscissae. rewrite !in_app_iff. unfold nle. tauto. }
      assert (St : StronglySorted nlt (common_xs f g (nmin fm gm))).
      { unfold common_xs. apply nsort_sorted.
        - intros y Hy. apply filter_In in Hy. destruct Hy as [Hy _]. apply Ho, (ndedup_In y _ Ho), Hy.
        - apply NoDup_filter, ndedup_NoDup, Ho. }
      destruct (nmin_cases fm gm (fok _ I1) (gok _ I2)) as [[En Ln]|[En Ln]]; rewrite En in *.
      - split; [apply nle_refl, fok, I1|]. split; [exact Ln|]. split; [left; reflexivity|]. split; [exact C|]. split; [exact St|]. split; assumption.
      - split; [exact Ln|]. split; [apply nle_refl, gok, I2|]. split; [right; reflexivity|]. split; [exact C|]. split; [exact St|]. split; assumption. }
    split.
    - intros Nf Ng (x & Hx & Hneg). destruct (Main Nf Ng) as (xm & fm & gm & E1 & E2 & Exm & I1 & I2 & L1 & L2 & Em & C & St & Mf & Mg).
      unfold intersect_stepwise. rewrite E1, E2. cbn [bind]. rewrite <- Exm. set (xs := common_xs f g xm) in *.
      assert (Hn : exists y, In y xs /\ nlt y (Fin 0)).
      { destruct (nle_total x xm) as [L|L]; [apply Hok, Hx | apply (nle_ok _ _ L1) | |].
        - exists x. split; [apply C; auto | exact Hneg].
        - exists xm. split; [|exact (nlt_trans _ _ _ L Hneg)]. apply C. split; [|apply nle_refl, (nle_ok _ _ L1)].
          unfold abscissae. apply in_or_app. destruct Em as [->| ->]; auto. }
      clear Hx Hneg x. destruct Hn as (y & Hy & Hneg). destruct xs as [|x0 rest] eqn:Exs; [contradiction|].
      assert (N0 : nltb x0 (Fin 0) = true).
      { destruct Hy as [<-|Hy]; [exact Hneg|]. apply StronglySorted_inv in St. destruct St as [_ St]. rewrite Forall_forall in St.
        exact (nlt_trans _ _ _ (St y Hy) Hneg). }
      assert (Vf : get_value_stepwise x0 f = None) by (unfold get_value_stepwise; rewrite N0; reflexivity).
      assert (Vg : get_value_stepwise x0 g = None) by (unfold get_value_stepwise; rewrite N0; reflexivity).
      destruct rest as [|x1 rest].
      + cbn [map scan bind option_map piece_value]. unfold value_at_last. cbn [rev app bind]. rewrite Vg, ?Vf. reflexivity.
      + cbn [map scan]. rewrite Vf. reflexivity.
    - intros Nf Ng Hpos. destruct (Main Nf Ng) as (xm & fm & gm & E1 & E2 & Exm & I1 & I2 & L1 & L2 & Em & C & St & Mf & Mg).
      unfold intersect_stepwise. rewrite E1, E2. cbn [bind]. rewrite <- Exm. set (xs := common_xs f g xm) in *.
      assert (P : forall x, In x xs -> nltb x (Fin 0) = false).
      { intros x Hx. apply C in Hx. destruct Hx as [Hx _]. specialize (Hpos x Hx). destruct (nltb x (Fin 0)) eqn:N; [|reflexivity].
        exfalso. exact (nlt_not_le _ _ N Hpos). }
      assert (VF : forall x, In x xs -> exists v, get_value_stepwise x f = Some v).
      { intros x Hx. apply (value_some f fm); [exact I1 | | apply P, Hx]. apply C in Hx. apply (nle_trans _ xm); tauto. }
      assert (VG : forall x, In x xs -> exists v, get_value_stepwise x g = Some v).
      { intros x Hx. apply (value_some g gm); [exact I2 | | apply P, Hx]. apply C in Hx. apply (nle_trans _ xm); tauto. }
      set (F := fun x => match get_value_stepwise x f with Some v => v | None => NaN end).
      set (G := fun x => match get_value_stepwise x g with Some v => v | None => NaN end).
      rewrite (map_ext_in _ (fun x => (x, Some (F x), Some (G x)))).
      2:{ intros x Hx. unfold F, G. destruct (VF x Hx) as (v & ->), (VG x Hx) as (w & ->). reflexivity. }
      destruct (scan_spec F G xs None) as (r & -> & _). cbn [bind].
      assert (Nx : xs <> []).
      { intro Z. assert (In xm xs); [|rewrite Z in H; contradiction]. apply C. split; [|apply nle_refl, (nle_ok _ _ L1)].
        unfold abscissae. apply in_or_app. destruct Em as [->| ->]; auto. }
      assert (A : forall (h : curve) i, h <> [] -> option_map (fun x => argmax_bool (map (fun p => nleb x (fst p)) h)) r = Some i -> (i < length h)%nat).
      { intros h i Hn Ei. destruct r as [x|]; [|discriminate]. injection Ei as <-.
        rewrite <- (map_length (fun p => nleb x (fst p)) h). apply argmax_bool_bound. destruct h; [congruence | discriminate]. }
      destruct (piece_ok (option_map (fun x => argmax_bool (map (fun p => nleb x (fst p)) g)) r) xs g Ng Nx (fun i => A g i Ng) VG) as (gv & ->).
      destruct (piece_ok (option_map (fun x => argmax_bool (map (fun p => nleb x (fst p)) f)) r) xs f Nf Nx (fun i => A f i Nf) VF) as (fv & ->).
      cbn [bind]. eexists. reflexivity.
  Qed.
End Intersect.

(** ** Fees *)
Lemma set_fee_full fees u x : (in_range (length fees) u -> set_fee fees u x = Ok (set_nth (entry (length fees) u) x fees) /\ (entry (length fees) u < length fees)%nat) /\
  (~ in_range (length fees) u -> set_fee fees u x = Err IndexError).
Proof.
  unfold in_range, set_fee, entry. set (n := Z.of_nat (length fees)).
  destruct (Z.leb_spec 0 u) as [L0|L0]; destruct (Z.ltb_spec u n) as [L1|L1]; destruct (Z.leb_spec (- n) u) as [L2|L2]; destruct (Z.ltb_spec u 0) as [L3|L3]; cbn [andb];
    split; intro H; try lia; try (split; [reflexivity | lia]); try reflexivity.
Qed.
Theorem charge_full ls li Q p us fees :
  ((forall u, In u us -> in_range (length fees) u) -> exists fees', charge_users ls li Q p us fees = Ok fees' /\ length fees' = length fees /\
     forall i, (i < length fees)%nat ->
       ((forall u, In u us -> entry (length fees) u <> i) -> nth i fees' 0 = nth i fees 0) /\
       (forall l1 u l2, us = l1 ++ u :: l2 -> entry (length fees) u = i -> (forall w, In w l2 -> entry (length fees) w <> i) ->
          nth i fees' 0 = compute_fee (indexed ls) li u Q p)) /\
  (forall u, In u us -> ~ in_range (length fees) u -> charge_users ls li Q p us fees = Err IndexError).
Proof.
  revert fees; induction us as [|u us IH]; intro fees; cbn [charge_users].
  - split; [intros _|intros u []]. exists fees. split; [reflexivity|]. split; [reflexivity|]. intros i Hi. split; [reflexivity|]. intros [|? ?] ? ? E; discriminate.
  - destruct (set_fee_full fees u (compute_fee (indexed ls) li u Q p)) as [S1 S2]. split.
    + intro H. destruct (S1 (H u (or_introl eq_refl))) as [E L]. rewrite E. cbn [bind]. set (fees1 := set_nth (entry (length fees) u) _ fees).
      assert (L1 : length fees1 = length fees) by apply set_nth_length. destruct (IH fees1) as [A _]. rewrite L1 in A.
      destruct A as (fees' & E' & L' & N); [intros w Hw; apply H; right; exact Hw|]. exists fees'. split; [exact E'|]. split; [exact L'|].
      intros i Hi. destruct (N i Hi) as [N1 N2]. split.
      * intro Hn. rewrite N1 by (intros w Hw; apply Hn; right; exact Hw). unfold fees1. apply set_nth_other, Hn. left. reflexivity.
      * intros [|w l1] u' l2 Eu Ei Hl; cbn [app] in Eu; injection Eu as -> ->.
        -- rewrite N1 by exact Hl. unfold fees1. rewrite Ei. apply set_nth_same, Hi.
        -- apply (N2 l1 u' l2 eq_refl Ei Hl).
    + intros w Hw Hr. destruct (Z_lt_dec u (- Z.of_nat (length fees))) as [Lu|Lu]; [rewrite S2 by (unfold in_range; lia); reflexivity|].
      destruct (Z_lt_dec u (Z.of_nat (length fees))) as [Lv|Lv]; [|rewrite S2 by (unfold in_range; lia); reflexivity].
      destruct S1 as [E L]; [unfold in_range; lia|]. rewrite E. cbn [bind]. destruct Hw as [->|Hw]; [exfalso; apply Hr; unfold in_range; lia|].
      destruct (IH (set_nth (entry (length fees) u) (compute_fee (indexed ls) li u Q p) fees)) as [_ B]. rewrite set_nth_length in B. exact (B w Hw Hr).
Qed.

(** ** Splitting *)
Lemma iloc_err d rows e : iloc d rows = Err e -> e = IndexError /\ exists i, In i rows /\ (length d <= i)%nat.
Proof.
  induction rows as [|i rows IH]; cbn [iloc]; [discriminate|]. destruct (nth_error d i) as [x|] eqn:E.
  - destruct (iloc d rows) as [xs|e'] eqn:E'; [discriminate|]. intro H. injection H as <-. destruct (IH eq_refl) as [-> (j & Hj & L)]. split; [reflexivity|]. exists j. split; [right; exact Hj | exact L].
  - intro H. injection H as <-. split; [reflexivity|]. exists i. split; [left; reflexivity | apply nth_error_None, E].
Qed.
Lemma split_one_err d mp (fees : option (list (Z * Qc))) t e :
  split_one d mp (match fees with Some _ => true | None => false end) t = Err e <-> split_fails d mp fees t e.
Proof.
  unfold split_one. split.
  - destruct (nth_error mp (t_bid t)) as [rows|] eqn:En; [|intro H; injection H as <-; constructor; exact En].
    destruct (iloc d rows) as [rs|e'] eqn:Ei; cbn [bind].
    2:{ intro H. injection H as <-. destruct (iloc_err _ _ _ Ei) as [-> (i & Hi & L)]. econstructor; eassumption. }
    pose proof (iloc_nth _ _ _ Ei) as Nr. pose proof (proj1 (iloc_ok d rows) (ex_intro _ rs Ei)) as Hin.
    destruct (Nat.ltb 1 (length rows) && _) eqn:C.
    + intro H. injection H as <-. apply andb_true_iff in C. destruct C as [C1 C2]. apply Nat.ltb_lt in C1.
      apply (sf_fees d mp fees t rows En Hin C1). destruct fees; [discriminate | discriminate C2].
    + destruct (qeq_spec (qsum (map qty rs)) 0) as [Z|Z]; [|discriminate]. destruct rows as [|i rows]; [discriminate|].
      intro H. injection H as <-. apply (sf_nan d mp fees t (i :: rows) rs En Nr); [discriminate | | exact Z].
      apply andb_false_iff in C. destruct C as [C|C]; [left; apply Nat.ltb_ge in C; exact C | right; destruct fees; [discriminate C | reflexivity]].
  - intros [En|rows i En Hi L|rows En Hin L Hf|rows rs En Nr Hne Hc Hz]; rewrite En.
    + reflexivity.
    + destruct (iloc d rows) as [rs|e'] eqn:Ei; cbn [bind].
      * exfalso. pose proof (proj1 (iloc_ok d rows) (ex_intro _ rs Ei) i Hi). lia.
      * destruct (iloc_err _ _ _ Ei) as [-> _]. reflexivity.
    + destruct (proj2 (iloc_ok d rows) Hin) as (rs & ->). cbn [bind]. rewrite (proj2 (Nat.ltb_lt _ _) L). destruct fees; [reflexivity | congruence].
    + assert (Hin : forall i, In i rows -> (i < length d)%nat).
      { intros i Hi. apply nth_error_Some. intro Z. apply (in_map (nth_error d)) in Hi. rewrite Nr, Z in Hi. apply in_map_iff in Hi. destruct Hi as (? & ? & _). discriminate. }
      destruct (proj2 (iloc_ok d rows) Hin) as (rs' & Ei). pose proof (iloc_nth _ _ _ Ei) as Nr'. rewrite Ei. cbn [bind].
      assert (rs' = rs). { assert (E : map Some rs' = map Some rs) by (rewrite <- Nr'; exact Nr). clear - E. revert rs E. induction rs' as [|x l IH]; intros [|y l'] E; try discriminate; [reflexivity|].
        injection E as -> E. f_equal. apply IH, E. }
      subst rs'. replace (Nat.ltb 1 (length rows) && _) with false.
      * change (qsum (map qty rs) = 0) in Hz. rewrite (proj2 (qeqb_eq _ _) Hz). destruct rows; [congruence | reflexivity].
      * symmetry. destruct Hc as [Hc| ->]; [apply andb_false_iff; left; apply Nat.ltb_ge, Hc | apply andb_false_r].
Qed.
Theorem split_raises d mp tm fees e : split_transactions_merged_players tm d mp fees = Err e <->
  exists l1 t l2, tm_trans tm = l1 ++ t :: l2 /\ (forall t', In t' l1 -> forall e', ~ split_fails d mp fees t' e') /\ split_fails d mp fees t e.
Proof.
  unfold split_transactions_merged_players. set (b := match fees with Some _ => true | None => false end).
  assert (K : forall ts acc, (x <- split_list d mp b ts acc ;; Ok (x, fees)) = Err e <->
    exists l1 t l2, ts = l1 ++ t :: l2 /\ (forall t', In t' l1 -> forall e', ~ split_fails d mp fees t' e') /\ split_fails d mp fees t e).
  { induction ts as [|t ts IH]; intro acc; cbn [split_list].
    - split; [discriminate | intros ([|t0 l0] & t1 & l2 & E & _); discriminate].
    - destruct (split_one d mp b t) as [l|e0] eqn:E0; cbn [bind].
      + rewrite IH. assert (Nt : forall e', ~ split_fails d mp fees t e') by (intros e' H; apply split_one_err in H; fold b in H; congruence). split.
        * intros (l1 & t' & l2 & -> & H1 & H2). exists (t :: l1), t', l2. split; [reflexivity|]. split; [|exact H2]. intros t'' [<-|H]; auto.
        * intros ([|t0 l1] & t' & l2 & E & H1 & H2); cbn [app] in E; injection E as -> ->; [exfalso; exact (Nt _ H2)|].
          exists l1, t', l2. split; [reflexivity|]. split; [intros; apply H1; right; assumption | exact H2].
      + pose proof E0 as F0. unfold b in F0. apply split_one_err in F0. split.
        * intro H. injection H as <-. exists [], t, ts. split; [reflexivity|]. split; [intros ? [] | exact F0].
        * intros ([|t0 l1] & t' & l2 & E & H1 & H2); cbn [app] in E; injection E as -> ->.
          -- apply split_one_err in H2. fold b in H2. congruence.
          -- exfalso. exact (H1 t0 (or_introl eq_refl) _ F0). }
  apply K.
Qed.

(** ** The linear programs *)
Lemma iloc_qty_full d i : ((i < length d)%nat -> exists q, iloc_qty d i = Ok q) /\ ((length d <= i)%nat -> iloc_qty d i = Err IndexError).
Proof. unfold iloc_qty. destruct (nth_error d i) eqn:E; split; intro H; [eauto| |apply nth_error_None in E; lia | reflexivity]. assert (nth_error d i <> None) by congruence. apply nth_error_Some in H0. lia. Qed.
Lemma iloc_price_full d i : ((i < length d)%nat -> exists q, iloc_price d i = Ok q) /\ ((length d <= i)%nat -> iloc_price d i = Err IndexError).
Proof. unfold iloc_price. destruct (nth_error d i) eqn:E; split; intro H; [eauto| |apply nth_error_None in E; lia | reflexivity]. assert (nth_error d i <> None) by congruence. apply nth_error_Some in H0. lia. Qed.
Lemma mapM_full {X Y} (f : X -> res Y) l : (forall x, In x l -> (exists y, f x = Ok y) \/ f x = Err IndexError) ->
  ((forall x, In x l -> exists y, f x = Ok y) -> exists ys, mapM f l = Ok ys) /\ ((exists x, In x l /\ f x = Err IndexError) -> mapM f l = Err IndexError).
Proof.
  induction l as [|x l IH]; intro H; cbn [mapM].
  - split; [eauto | intros (x & [] & _)].
  - destruct IH as [A B]; [intros; apply H; right; assumption|]. split.
    + intro Ha. destruct (Ha x (or_introl eq_refl)) as (y & ->). cbn [bind]. destruct A as (ys & ->); [intros; apply Ha; right; assumption|]. eexists. reflexivity.
    + intros (x' & Hx' & E). destruct (H x (or_introl eq_refl)) as [(y & E0)|E0]; rewrite E0; cbn [bind]; [|reflexivity].
      destruct Hx' as [->|Hx']; [congruence|]. rewrite B by eauto. reflexivity.
Qed.
Lemma cons_full d (g : nat -> list var) ls :
  ((forall i, In i ls -> (i < length d)%nat) -> exists r, mapM (fun b => q <- iloc_qty d b ;; Ok (g b, q)) ls = Ok r) /\
  ((exists i, In i ls /\ (length d <= i)%nat) -> mapM (fun b => q <- iloc_qty d b ;; Ok (g b, q)) ls = Err IndexError).
Proof.
  assert (H : forall x, In x ls -> (exists y, (q <- iloc_qty d x ;; Ok (g x, q)) = Ok y) \/ (q <- iloc_qty d x ;; Ok (g x, q)) = Err IndexError).
  { intros x _. destruct (iloc_qty_full d x) as [A B]. destruct (Nat.lt_ge_cases x (length d)) as [L|L].
    - left. destruct (A L) as (q & ->). cbn [bind]. eauto.
    - right. rewrite (B L). reflexivity. }
  destruct (mapM_full _ ls H) as [A B]. split.
  - intro Hi. apply A. intros x Hx. destruct (iloc_qty_full d x) as [A' _]. destruct (A' (Hi x Hx)) as (q & ->). cbn [bind]. eauto.
  - intros (i & Hi & L). apply B. exists i. split; [exact Hi|]. destruct (iloc_qty_full d i) as [_ B']. rewrite (B' L). reflexivity.
Qed.
Lemma sides_labels d : (forall r, In r d -> (lbl r < length d)%nat) \/ (exists i, In i (map lbl (buyers d)) /\ (length d <= i)%nat) \/
  (exists i, In i (map lbl (sellers d)) /\ (length d <= i)%nat).
Proof.
  assert (H : (forall r, In r d -> (lbl r < length d)%nat) \/ exists r, In r d /\ (length d <= lbl r)%nat).
  { generalize (length d) as n. intro n. induction d as [|r d' IH]; [left; intros r []|]. destruct (Nat.lt_ge_cases (lbl r) n) as [L|L].
    - destruct IH as [IH|(x & Hx & Lx)]; [left; intros x [<-|Hx]; auto | right; exists x; split; [right; exact Hx | exact Lx]].
    - right. exists r. split; [left; reflexivity | exact L]. }
  destruct H as [H|(r & Hr & L)]; [left; exact H|]. right. destruct (buying r) eqn:Br; [left | right]; exists (lbl r); split; try exact L; apply in_map, filter_In; split; try exact Hr; [exact Br | rewrite Br; reflexivity].
Qed.
Lemma labels_sides d : (forall r, In r d -> (lbl r < length d)%nat) -> (forall i, In i (map lbl (buyers d)) -> (i < length d)%nat) /\ (forall i, In i (map lbl (sellers d)) -> (i < length d)%nat).
Proof. intro H. split; intros i Hi; apply in_map_iff in Hi; destruct Hi as (r & <- & Hr); apply filter_In in Hr; apply H; tauto. Qed.
Lemma compatible_full d l : ((forall v, In v l -> (fst v < length d)%nat /\ (snd v < length d)%nat) -> exists r, compatible d l = Ok r) /\
  (forall e, compatible d l = Err e -> e = IndexError).
Proof.
  induction l as [|v l IH]; cbn [compatible]; [split; [eauto | discriminate]|]. destruct IH as [A B].
  destruct (iloc_price_full d (fst v)) as [P1 P2]. destruct (iloc_price_full d (snd v)) as [Q1 Q2]. split.
  - intro H. destruct (H v (or_introl eq_refl)) as [H1 H2]. destruct (P1 H1) as (x & ->). cbn [bind]. destruct (Q1 H2) as (y & ->). cbn [bind].
    destruct A as (r & ->); [intros; apply H; right; assumption|]. eexists. reflexivity.
  - intro e. destruct (Nat.lt_ge_cases (fst v) (length d)) as [L|L]; [|rewrite (P2 L); cbn [bind]; congruence]. destruct (P1 L) as (x & ->). cbn [bind].
    destruct (Nat.lt_ge_cases (snd v) (length d)) as [L'|L']; [|rewrite (Q2 L'); cbn [bind]; congruence]. destruct (Q1 L') as (y & ->). cbn [bind].
    destruct (compatible d l) as [r|e'] eqn:E; cbn [bind]; [discriminate|]. intro H. injection H as <-. apply B. reflexivity.
Qed.
Lemma pair_index_in d v : In v (pair_index d) -> In (fst v) (map lbl (buyers d)) /\ In (snd v) (map lbl (sellers d)).
Proof. unfold pair_index. intro H. apply in_flat_map in H. destruct H as (i & Hi & H). apply in_map_iff in H. destruct H as (j & <- & Hj). auto. Qed.
Theorem volume_full sv d :
  ((forall r, In r d -> (lbl r < length d)%nat) -> exists r, maximum_traded_volume sv d = Ok r) /\
  ((exists r, In r d /\ (length d <= lbl r)%nat) -> maximum_traded_volume sv d = Err IndexError).
Proof.
  unfold maximum_traded_volume, volume_lp. destruct (compatible_full d (pair_index d)) as [A B]. split.
  - intro H. destruct (labels_sides d H) as [Hb Hs]. destruct A as (ix & ->); [intros v Hv; apply pair_index_in in Hv; split; [apply Hb | apply Hs]; tauto|]. cbn [bind].
    unfold buyer_cons, seller_cons. destruct (cons_full d (fun b => filter (fun v => var_mem v ix) (map (fun j => (b, j)) (map lbl (sellers d)))) (map lbl (buyers d))) as [C1 _].
    destruct (C1 Hb) as (cb & ->). cbn [bind].
    destruct (cons_full d (fun s => filter (fun v => var_mem v ix) (map (fun i => (i, s)) (map lbl (buyers d)))) (map lbl (sellers d))) as [C2 _].
    destruct (C2 Hs) as (cs & ->). cbn [bind]. eauto.
  - intros (r & Hr & L). destruct (compatible d (pair_index d)) as [ix|e]; cbn [bind]; [|rewrite (B e eq_refl); reflexivity].
    unfold buyer_cons, seller_cons. destruct (cons_full d (fun b => filter (fun v => var_mem v ix) (map (fun j => (b, j)) (map lbl (sellers d)))) (map lbl (buyers d))) as [C1 C1'].
    destruct (cons_full d (fun s => filter (fun v => var_mem v ix) (map (fun i => (i, s)) (map lbl (buyers d)))) (map lbl (sellers d))) as [C2 C2'].
    destruct (sides_labels d) as [H|[H|H]]; [specialize (H r Hr); lia | rewrite (C1' H); reflexivity|].
    destruct (mapM _ (map lbl (buyers d))) as [cb|e] eqn:E; cbn [bind]; [rewrite (C2' H); reflexivity|].
    destruct (Forall_Exists_dec (fun i => (i < length d)%nat) (fun i => lt_dec i (length d)) (map lbl (buyers d))) as [F|F].
    + rewrite Forall_forall in F. destruct (C1 F) as (? & ?). congruence.
    + apply Exists_exists in F. destruct F as (i & Hi & Li). assert (Ee : e = IndexError) by (assert (Q : @Err (list (list var * Qc)) e = Err IndexError) by (apply C1'; exists i; split; [exact Hi | lia]); congruence). rewrite Ee. reflexivity.
Qed.
Lemma dict_fill_get d : forall m i, (dict_get m i <> None \/ In i (map lbl d)) -> dict_get (dict_fill m d) i <> None.
Proof.
  induction d as [|r d IH]; intros m i H; unfold dict_fill; cbn [fold_left].
  - destruct H as [H|[]]; exact H.
  - apply IH. destruct (dict_get m (lbl r)) eqn:E.
    + destruct H as [H|[<-|H]]; [left; exact H | left; congruence | right; exact H].
    + assert (App : forall l j v, dict_get (l ++ [(j, v)]) i = match dict_get l i with Some w => Some w | None => if Nat.eqb j i then Some v else None end).
      { clear. induction l as [|[a b] l IH]; intros j v; cbn [app dict_get]; [destruct (Nat.eqb j i); reflexivity|]. destruct (Nat.eqb a i); [reflexivity | apply IH]. }
      rewrite App. destruct H as [H|[<-|H]]; [left | left | right; exact H].
      * destruct (dict_get m i); [discriminate | congruence].
      * rewrite E, Nat.eqb_refl. discriminate.
Qed.
Theorem welfare_full sv d rp :
  ((forall r, In r d -> (lbl r < length d)%nat) -> exists r, maximum_aggregated_utility sv d rp = Ok r) /\
  ((exists r, In r d /\ (length d <= lbl r)%nat) -> maximum_aggregated_utility sv d rp = Err IndexError).
Proof.
  assert (M : forall m, exists cs, mapM (fun v : var => pb <- dict_lookup (dict_fill m d) (fst v) ;; ps <- dict_lookup (dict_fill m d) (snd v) ;; Ok (v, pb - ps)) (pair_index d) = Ok cs).
  { intro m. apply mapM_full.
    - intros v Hv. left. apply pair_index_in in Hv. destruct Hv as [H1 H2]. unfold dict_lookup.
      assert (I1 : In (fst v) (map lbl d)) by (apply in_map_iff in H1; destruct H1 as (r & <- & Hr); apply filter_In in Hr; apply in_map; tauto).
      assert (I2 : In (snd v) (map lbl d)) by (apply in_map_iff in H2; destruct H2 as (r & <- & Hr); apply filter_In in Hr; apply in_map; tauto).
      pose proof (dict_fill_get d m (fst v) (or_intror I1)). pose proof (dict_fill_get d m (snd v) (or_intror I2)).
      destruct (dict_get (dict_fill m d) (fst v)); [|congruence]. destruct (dict_get (dict_fill m d) (snd v)); [|congruence]. cbn [bind]. eauto.
    - intros v Hv. apply pair_index_in in Hv. destruct Hv as [H1 H2]. unfold dict_lookup.
      assert (I1 : In (fst v) (map lbl d)) by (apply in_map_iff in H1; destruct H1 as (r & <- & Hr); apply filter_In in Hr; apply in_map; tauto).
      assert (I2 : In (snd v) (map lbl d)) by (apply in_map_iff in H2; destruct H2 as (r & <- & Hr); apply filter_In in Hr; apply in_map; tauto).
      pose proof (dict_fill_get d m (fst v) (or_intror I1)). pose proof (dict_fill_get d m (snd v) (or_intror I2)).
      destruct (dict_get (dict_fill m d) (fst v)); [|congruence]. destruct (dict_get (dict_fill m d) (snd v)); [|congruence]. cbn [bind]. eauto. }
  destruct (cons_full d (fun b => filter (fun v => var_mem v (pair_index d)) (map (fun j => (b, j)) (map lbl (sellers d)))) (map lbl (buyers d))) as [C1 C1'].
  destruct (cons_full d (fun s => filter (fun v => var_mem v (pair_index d)) (map (fun i => (i, s)) (map lbl (buyers d)))) (map lbl (sellers d))) as [C2 C2'].
  assert (W : forall m, ((forall r, In r d -> (lbl r < length d)%nat) -> exists p, welfare_lp d (dict_fill m d) = Ok p) /\
    ((exists r, In r d /\ (length d <= lbl r)%nat) -> welfare_lp d (dict_fill m d) = Err IndexError)).
  { intro m. unfold welfare_lp, buyer_cons, seller_cons. cbv zeta. destruct (M m) as (cs & Em).
    match goal with |- context [@mapM ?X ?Y ?f (pair_index d)] => replace (@mapM X Y f (pair_index d)) with (@Ok (list Y) cs) by (symmetry; exact Em) end. cbn [bind]. split.
    - intro H. destruct (labels_sides d H) as [Hb Hs]. destruct (C1 Hb) as (cb & ->). cbn [bind]. destruct (C2 Hs) as (cs' & ->). cbn [bind]. eauto.
    - intros (r & Hr & L). destruct (sides_labels d) as [H|[H|H]]; [specialize (H r Hr); lia | rewrite (C1' H); reflexivity|].
      destruct (mapM _ (map lbl (buyers d))) as [cb|e] eqn:E; cbn [bind]; [rewrite (C2' H); reflexivity|].
      destruct (Forall_Exists_dec (fun i => (i < length d)%nat) (fun i => lt_dec i (length d)) (map lbl (buyers d))) as [F|F].
      + rewrite Forall_forall in F. destruct (C1 F) as (? & ?). congruence.
      + apply Exists_exists in F. destruct F as (i & Hi & Li). assert (Ee : e = IndexError) by (assert (Q : @Err (list (list var * Qc)) e = Err IndexError) by (apply C1'; exists i; split; [exact Hi | lia]); congruence). rewrite Ee. reflexivity. }
  unfold maximum_aggregated_utility. destruct (W (match rp with Some m => m | None => [] end)) as [W1 W2]. split.
  - intro H. destruct (W1 H) as (p & E). destruct rp; rewrite E; cbn [bind]; eauto.
  - intro H. specialize (W2 H). destruct rp; rewrite W2; reflexivity.
Qed.

(** ** Data sets *)
Theorem generate_full nb ns os ob r eps :
  let mx := Nat.max nb ns in
  ((eps = 0 \/ mx = 0%nat /\ eps < 0) -> generate nb ns os ob r eps = Err ZeroDivisionError) /\
  (eps <> 0 -> (mx <> 0%nat \/ 0 < eps) -> exists bs, generate nb ns os ob r eps = Ok bs /\ (eps < 0 -> generate nb ns os ob r eps = generate nb ns os ob r (1 / (qz 2 * qnat mx)))).
Proof.
  intro mx. split.
  - intros [->|[Hm He]]; [reflexivity|]. unfold generate. fold mx.
    assert (qeqb eps 0 = false) as -> by (apply qeqb_neq; intro Z; rewrite Z in He; qlra).
    assert (L : 1 / eps < qnat mx).
    { rewrite Hm, qnat_0. apply Qcnot_le_lt. intro K. assert (E : 1 / eps * eps = 1) by (field; intro Z; rewrite Z in He; qlra).
      assert (0 <= 1 / eps * (- eps)) by (apply qmult_nonneg; qlra). replace (1 / eps * - eps) with (- (1 / eps * eps)) in H by ring. rewrite E in H. qlra. }
    rewrite (proj2 (qltb_lt _ _) L), Hm. reflexivity.
  - intros He [Hm|Hp].
    + destruct (Qclt_le_dec eps 0) as [L|L].
      * assert (Pm : 0 < qnat mx) by (apply qnat_pos; lia).
        assert (E : generate nb ns os ob r eps = generate nb ns os ob r (1 / (qz 2 * qnat mx))).
        { unfold generate. fold mx. assert (qeqb eps 0 = false) as -> by (apply qeqb_neq; exact He).
          assert (K : 1 / eps < qnat mx).
          { apply Qcnot_le_lt. intro K. assert (E : 1 / eps * eps = 1) by (field; exact He).
            assert (0 <= 1 / eps * (- eps)) by (apply qmult_nonneg; qlra). replace (1 / eps * - eps) with (- (1 / eps * eps)) in H by ring. rewrite E in H. qlra. }
          rewrite (proj2 (qltb_lt _ _) K). replace (Nat.eqb mx 0) with false by (symmetry; apply Nat.eqb_neq, Hm).
          assert (N2 : qz 2 <> 0) by (intro Z; apply (f_equal this) in Z; discriminate). assert (Nm : qnat mx <> 0) by (intro Z; rewrite Z in Pm; qlra).
          assert (Ei : 1 / (1 / (qz 2 * qnat mx)) = qz 2 * qnat mx) by (field; repeat split; try assumption; intro Z; apply (f_equal this) in Z; vm_compute in Z; discriminate).
          assert (Ne : 1 / (qz 2 * qnat mx) <> 0).
          { intro Z. rewrite Z in Ei. assert (P2 : 0 < qz 2 * qnat mx) by (apply qmult_pos; [reflexivity | exact Pm]). rewrite <- Ei in P2. revert P2. apply Qcle_not_lt. vm_compute. discriminate. }
          assert (qeqb (1 / (qz 2 * qnat mx)) 0 = false) as -> by (apply qeqb_neq; exact Ne). rewrite Ei.
          assert (D : qz 2 * qnat mx = qnat mx + qnat mx) by (replace (qz 2) with (1 + 1) by (apply Qc_is_canon; reflexivity); ring).
          replace (qltb (qz 2 * qnat mx) (qnat mx)) with false by (symmetry; apply qltb_ge; rewrite D; qlra).
          replace (1 / (qz 2 * qnat mx)) with (1 / qnat mx / qz 2) by (field; repeat split; try assumption; intro Z; apply (f_equal this) in Z; vm_compute in Z; discriminate). reflexivity. }
        assert (Pe : 0 < 1 / (qz 2 * qnat mx)).
        { unfold Qcdiv. rewrite Qcmult_1_l. apply AllocFacts.qinv_pos, qmult_pos; [reflexivity | exact Pm]. }
        destruct (generate_ok nb ns os ob r _ Pe) as (bs & ss & E' & _). exists (bs ++ ss). rewrite E. split; [exact E' | reflexivity].
      * assert (P : 0 < eps) by (destruct (qle_spec eps 0); [exfalso; apply He, Qcle_antisym; assumption | assumption]).
        destruct (generate_ok nb ns os ob r _ P) as (bs & ss & E' & _). exists (bs ++ ss). split; [exact E' | intro; exfalso; qlra].
    + destruct (generate_ok nb ns os ob r _ Hp) as (bs & ss & E' & _). exists (bs ++ ss). split; [exact E' | intro; exfalso; qlra].
Qed.
