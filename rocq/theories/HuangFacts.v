(** Facts about [huang_auction]. *)
From Verif Require Import QcTac Num NumFacts ModelBase ModelCurves ModelHuang ListFacts Spec SpecTrade
  CurveFacts IntersectFacts StoreFacts UpdateFacts TradeFacts Sorter.

Lemma crows_app_nth l p i a v : nth_error (crows 0 l ++ [p]) i = Some (a, v) ->
  (exists r, nth_error l i = Some r /\ v = Fin (price r)) \/ (i = length l /\ (a, v) = p).
Proof.
  intro H. destruct (Nat.lt_ge_cases i (length l)) as [L|L].
  - left. rewrite nth_error_app1 in H by (rewrite crows_length; exact L).
    destruct (nth_error l i) as [r|] eqn:E; [|apply nth_error_None in E; lia].
    rewrite (crows_nth 0 l i r E) in H. injection H as <- <-. eauto.
  - right. rewrite nth_error_app2 in H by (rewrite crows_length; exact L). rewrite crows_length in H.
    destruct (i - length l)%nat as [|k] eqn:E; simpl in H; [split; [lia | congruence]|].
    destruct k; discriminate.
Qed.

(** quantities rationed by a common reduction *)
Definition rationed (q q' : list Qc) : Prop := exists t, 0 <= t /\ q' = map (fun x => qmax 0 (x - t)) q.

Lemma rationed_refl q : (forall x, In x q -> 0 <= x) -> rationed q q.
Proof.
  intro H. exists 0. split; [qlra|]. rewrite <- (map_id q) at 1. apply map_ext_in. intros x Hx.
  specialize (H x Hx). destruct (qmax_case 0 (x - 0)) as [[E ?]|[E ?]]; rewrite E; qlra.
Qed.
Lemma rationed_length q q' : rationed q q' -> length q' = length q.
Proof. intros (t & _ & ->). apply map_length. Qed.

Definition trades (L1 B1 : df) (qs qb : list Qc) (ps pb : Qc) : list trans := emit L1 qs ps ++ emit B1 qb pb.

Inductive huang_result (S : sorter) (d : df) : res (transmgr * extra) -> Prop :=
| HR_none : (forall x, ~ Crossing (fst (demand_curve_from_bids S d)) (fst (supply_curve_from_bids S d)) x) ->
    huang_result S d (Ok (tm_init, XEmpty))
| HR_some x B1 rb B2 L1 rs L2 qs qb tm q :
    s_desc S (buyers d) = B1 ++ rb :: B2 -> s_asc S (sellers d) = L1 ++ rs :: L2 ->
    price rs < price rb ->
    Crossing (fst (demand_curve_from_bids S d)) (fst (supply_curve_from_bids S d)) x ->
    StepAt (fst (demand_curve_from_bids S d)) x (length B1) (Fin (price rb)) ->
    StepAt (fst (supply_curve_from_bids S d)) x (length L1) (Fin (price rs)) ->
    (B1 = [] \/ L1 = []) /\ tm = tm_init /\ q = qsumf qty B1 \/
    B1 <> [] /\ L1 <> [] /\ rationed (map qty L1) qs /\ rationed (map qty B1) qb /\
      (qs = map qty L1 \/ qb = map qty B1) /\
      qsum qs = qmin (qsumf qty B1) (qsumf qty L1) /\ qsum qb = qmin (qsumf qty B1) (qsumf qty L1) /\
      q = qsum qb /\ tm_trans tm = trades L1 B1 qs qb (price rs) (price rb) ->
    huang_result S d (Ok (tm, XHuang (price rs) (price rb) q)).

Theorem huang_cases S d : qty_nonneg d -> price_nonneg d -> huang_result S d (huang_auction S d).
Proof.
  intros Hq Hp. unfold huang_auction.
  set (f := fst (demand_curve_from_bids S d)). set (g := fst (supply_curve_from_bids S d)).
  destruct (intersect_cases f g (qf 1 2) (demand_nonempty S d) (supply_nonempty S d)
              (demand_ends S d Hq) (supply_ends S d Hq) (demand_decreasing S d Hp) (supply_increasing S d))
    as [(x & b & s & u & w & v & E & Cr & _ & Sf & Sg)|(v & E & Nc)].
  2:{ rewrite E. cbn [bind]. apply HR_none. exact Nc. }
  rewrite E. cbn [bind].
  assert (Lwu : nlt w u).
  { destruct Cr as (X0 & _ & _ & C). apply (C x b u s w X0 Sf Sg).
    destruct Sf as ((a & _ & La) & _). apply nle_ok in La. apply nle_refl; tauto. }
  destruct (StepAt_in _ _ _ _ Sf) as (af & _ & _ & Nf). destruct (StepAt_in _ _ _ _ Sg) as (ag & _ & _ & Ng).
  assert (Hs : exists rs, nth_error (s_asc S (sellers d)) s = Some rs /\ w = Fin (price rs)).
  { destruct (crows_app_nth _ _ _ _ _ Ng) as [H|[_ H]]; [exact H|]. injection H as -> ->.
    destruct u; discriminate. }
  destruct Hs as (rs & Ns & ->).
  assert (Irs : In rs d).
  { apply nth_error_In in Ns. apply (Permutation_in _ (s_asc_perm S _)) in Ns. apply filter_In in Ns. tauto. }
  assert (Hb : exists rb, nth_error (s_desc S (buyers d)) b = Some rb /\ u = Fin (price rb)).
  { destruct (crows_app_nth _ _ _ _ _ Nf) as [H|[_ H]]; [exact H|]. injection H as -> ->.
    apply nlt_Fin in Lwu. specialize (Hp rs Irs). exfalso; qlra. }
  destruct Hb as (rb & Nb & ->). apply nlt_Fin in Lwu.
  rewrite Ng, Nf.
  pose proof (nth_error_split' _ _ _ Nb) as EB. pose proof (nth_error_split' _ _ _ Ns) as EL.
  assert (LB : length (firstn b (s_desc S (buyers d))) = b).
  { apply firstn_length_le. apply Nat.lt_le_incl. apply nth_error_Some. congruence. }
  assert (LL : length (firstn s (s_asc S (sellers d))) = s).
  { apply firstn_length_le. apply Nat.lt_le_incl. apply nth_error_Some. congruence. }
  set (B1 := firstn b (s_desc S (buyers d))) in *. set (L1 := firstn s (s_asc S (sellers d))) in *.
  assert (QB : forall y, In y B1 -> 0 <= qty y).
  { intros y Hy. apply In_firstn in Hy. apply (Permutation_in _ (s_desc_perm S _)) in Hy. apply filter_In in Hy. apply Hq; tauto. }
  assert (QL : forall y, In y L1 -> 0 <= qty y).
  { intros y Hy. apply In_firstn in Hy. apply (Permutation_in _ (s_asc_perm S _)) in Hy. apply filter_In in Hy. apply Hq; tauto. }
  assert (SB : 0 <= qsumf qty B1) by (apply qsumf_nonneg; exact QB).
  assert (SL : 0 <= qsumf qty L1) by (apply qsumf_nonneg; exact QL).
  destruct (Nat.ltb 0 b && Nat.ltb 0 s) eqn:Pos.
  - apply andb_true_iff in Pos. destruct Pos as [Pb Ps]. apply Nat.ltb_lt in Pb, Ps.
    assert (NB : B1 <> []) by (intro Z; rewrite Z in LB; simpl in LB; lia).
    assert (NL : L1 <> []) by (intro Z; rewrite Z in LL; simpl in LL; lia).
    change (qsum (map qty B1)) with (qsumf qty B1). change (qsum (map qty L1)) with (qsumf qty L1).
    destruct (qlt_spec 0 (qsumf qty L1 - qsumf qty B1)) as [G|G].
    + destruct (update_quantity_spec (map qty L1) (qsumf qty L1 - qsumf qty B1)) as (t & T0 & EU & SU).
      * destruct L1; [congruence | discriminate].
      * qlra.
      * change (qsum (map qty L1)) with (qsumf qty L1). qlra.
      * rewrite EU. cbn [bind]. eapply HR_some with (B1 := B1) (L1 := L1) (x := x); try eassumption.
        -- rewrite LB. exact Sf.
        -- rewrite LL. exact Sg.
        -- right. split; [exact NB|]. split; [exact NL|].
           split; [exists t; split; [exact T0 | reflexivity]|].
           split; [apply rationed_refl; intros z Hz; apply in_map_iff in Hz; destruct Hz as (y & <- & Hy); apply QB, Hy|].
           split; [right; reflexivity|].
           change (qsum (map qty L1)) with (qsumf qty L1) in SU. rewrite SU.
           change (qsum (map qty B1)) with (qsumf qty B1).
           destruct (qmin_case (qsumf qty B1) (qsumf qty L1)) as [[Em ?]|[Em ?]]; rewrite Em.
           ++ split; [ring|]. split; [reflexivity|]. split; [reflexivity|]. rewrite !add_all_trans. reflexivity.
           ++ exfalso; qlra.
    + destruct (update_quantity_spec (map qty B1) (- (qsumf qty L1 - qsumf qty B1))) as (t & T0 & EU & SU).
      * destruct B1; [congruence | discriminate].
      * qlra.
      * change (qsum (map qty B1)) with (qsumf qty B1). qlra.
      * rewrite EU. cbn [bind]. eapply HR_some with (B1 := B1) (L1 := L1) (x := x); try eassumption.
        -- rewrite LB. exact Sf.
        -- rewrite LL. exact Sg.
        -- right. split; [exact NB|]. split; [exact NL|].
           split; [apply rationed_refl; intros z Hz; apply in_map_iff in Hz; destruct Hz as (y & <- & Hy); apply QL, Hy|].
           split; [exists t; split; [exact T0 | reflexivity]|].
           split; [left; reflexivity|].
           change (qsum (map qty B1)) with (qsumf qty B1) in SU. rewrite SU.
           change (qsum (map qty L1)) with (qsumf qty L1).
           destruct (qmin_case (qsumf qty B1) (qsumf qty L1)) as [[Em ?]|[Em ?]]; rewrite Em.
           ++ split; [qlra|]. split; [qlra|]. split; [reflexivity|]. rewrite !add_all_trans. reflexivity.
           ++ split; [reflexivity|]. split; [ring|]. split; [reflexivity|]. rewrite !add_all_trans. reflexivity.
  - eapply HR_some with (B1 := B1) (L1 := L1) (qs := []) (qb := []) (x := x); try eassumption.
    + rewrite LB. exact Sf.
    + rewrite LL. exact Sg.
    + left. split; [|split; reflexivity].
      apply andb_false_iff in Pos. destruct Pos as [P|P]; apply Nat.ltb_ge in P.
      * left. destruct B1; [reflexivity | simpl in LB; lia].
      * right. destruct L1; [reflexivity | simpl in LL; lia].
Qed.

Lemma rationed_combine (X : df) qs r q : rationed (map qty X) qs -> (forall y, In y X -> 0 <= qty y) ->
  In (r, q) (combine X qs) -> 0 <= q /\ q <= qty r.
Proof.
  intros (t & T & ->) Hp. rewrite map_map. induction X as [|x X IH]; simpl; [contradiction|].
  intros [E|H]; [|apply IH; auto; intros; apply Hp; right; assumption].
  injection E as <- <-. specialize (Hp x (or_introl eq_refl)).
  destruct (qmax_case 0 (qty x - t)) as [[E ?]|[E ?]]; rewrite E; split; qlra.
Qed.

Section Result.
  Variables (S : sorter) (d : df).
  Hypothesis Hq : qty_nonneg d.
  Hypothesis Hp : price_nonneg d.
  Hypothesis Hu : labels_unique d.

  Lemma buyer_row l1 r l2 x : s_desc S (buyers d) = l1 ++ r :: l2 -> In x (l1 ++ r :: l2) -> In x d /\ buying x = true.
  Proof. intros <- H. apply (Permutation_in _ (s_desc_perm S _)) in H. apply filter_In in H. tauto. Qed.
  Lemma seller_row l1 r l2 x : s_asc S (sellers d) = l1 ++ r :: l2 -> In x (l1 ++ r :: l2) -> In x d /\ buying x = false.
  Proof.
    intros <- H. apply (Permutation_in _ (s_asc_perm S _)) in H. apply filter_In in H.
    destruct H as [H1 H2]. apply negb_true_iff in H2. tauto.
  Qed.

  Lemma split_labels B1 rb B2 L1 rs L2 :
    s_desc S (buyers d) = B1 ++ rb :: B2 -> s_asc S (sellers d) = L1 ++ rs :: L2 ->
    NoDup (map lbl ((L1 ++ rs :: L2) ++ B1 ++ rb :: B2)).
  Proof.
    intros EB EL.
    assert (P : Permutation d ((L1 ++ rs :: L2) ++ B1 ++ rb :: B2)).
    { rewrite <- EB, <- EL. rewrite (filter_negb_perm buying d) at 1. rewrite Permutation_app_comm.
      apply Permutation_app; symmetry; [apply s_asc_perm | apply s_desc_perm]. }
    apply (Permutation_NoDup (Permutation_map lbl P)). exact Hu.
  Qed.
  Lemma trades_once B1 rb B2 L1 rs L2 :
    s_desc S (buyers d) = B1 ++ rb :: B2 -> s_asc S (sellers d) = L1 ++ rs :: L2 ->
    NoDup (map lbl L1 ++ map lbl B1) /\ ~ In (lbl rb) (map lbl L1 ++ map lbl B1) /\ ~ In (lbl rs) (map lbl L1 ++ map lbl B1).
  Proof.
    intros EB EL. pose proof (split_labels _ _ _ _ _ _ EB EL) as H.
    rewrite <- app_assoc in H. simpl in H. rewrite !map_app in H. simpl in H. rewrite !map_app in H. simpl in H.
    assert (P : Permutation (map lbl L1 ++ lbl rs :: map lbl L2 ++ map lbl B1 ++ lbl rb :: map lbl B2)
                  (lbl rs :: lbl rb :: (map lbl L1 ++ map lbl B1) ++ map lbl L2 ++ map lbl B2)).
    { rewrite <- Permutation_middle. constructor.
      rewrite <- app_assoc.
      transitivity (map lbl L1 ++ lbl rb :: map lbl B1 ++ map lbl L2 ++ map lbl B2).
      2:{ symmetry. apply Permutation_middle. }
      apply Permutation_app_head.
      transitivity (map lbl L2 ++ (lbl rb :: map lbl B1) ++ map lbl B2).
      - apply Permutation_app_head. rewrite <- Permutation_middle. reflexivity.
      - rewrite !app_assoc. change (lbl rb :: (map lbl B1 ++ map lbl L2) ++ map lbl B2) with (((lbl rb :: map lbl B1) ++ map lbl L2) ++ map lbl B2).
        apply Permutation_app_tail. apply Permutation_app_comm. }
    apply (Permutation_NoDup P) in H. inversion_clear H as [|? ? H1 H2]. inversion_clear H2 as [|? ? H3 H4].
    split.
    - clear - H4. revert H4. generalize (map lbl L1 ++ map lbl B1). intros l H.
      induction l; simpl in *; constructor; inversion_clear H; auto.
      intro I. apply H0. apply in_or_app; auto.
    - split; intro I; [apply H3 | apply H1; right]; apply in_or_app; left; exact I.
  Qed.

  Lemma empty_ok : bought d [] = sold d [] /\ once [] /\ refer d [] /\ feasible d [] /\ rational d [].
  Proof.
    split; [reflexivity|]. split; [constructor|]. split; [intros ? []|]. split; [|intros ? ? []].
    split; [intros ? []|]. intros r Hr. apply Hq, Hr.
  Qed.

  (** everything about the outcome *)
  Lemma huang_summary tm ex : huang_auction S d = Ok (tm, ex) ->
    bought d (tm_trans tm) = sold d (tm_trans tm) /\ once (tm_trans tm) /\ refer d (tm_trans tm) /\
    feasible d (tm_trans tm) /\ rational d (tm_trans tm) /\
    (forall t, In t (tm_trans tm) -> t_source t = (-1)%Z /\ t_active t = false) /\
    (tm_trans tm <> [] -> exists ps pb q, ex = XHuang ps pb q /\ q = bought d (tm_trans tm)) /\
    (forall ps pb q, ex = XHuang ps pb q -> ps < pb /\
       forall t r, In t (tm_trans tm) -> In r d -> lbl r = t_bid t ->
         t_price t = if buying r then pb else ps).
  Proof.
    intro E. pose proof (huang_cases S d Hq Hp) as C. rewrite E in C.
    inversion C as [Hc E1|x B1 rb B2 L1 rs L2 qs qb tm' q EB EL Lp Cr Sf Sg D E1].
    - subst tm ex. simpl. destruct empty_ok as (A1 & A2 & A3 & A4 & A5).
      split; [exact A1|]. split; [exact A2|]. split; [exact A3|]. split; [exact A4|]. split; [exact A5|].
      split; [intros ? []|]. split; [congruence|]. intros; discriminate.
    - subst tm' ex. destruct D as [(_ & -> & ->)|(NB & NL & Rs & Rb & _ & Ss & Sb & -> & T)].
      + simpl. destruct empty_ok as (A1 & A2 & A3 & A4 & A5).
        split; [exact A1|]. split; [exact A2|]. split; [exact A3|]. split; [exact A4|]. split; [exact A5|].
        split; [intros ? []|]. split; [congruence|]. intros ps pb q Ex. injection Ex as <- <- <-.
        split; [exact Lp|]. intros ? ? [].
      + assert (Ls : length qs = length L1) by (rewrite (rationed_length _ _ Rs); apply map_length).
        assert (Lb : length qb = length B1) by (rewrite (rationed_length _ _ Rb); apply map_length).
        assert (As : all_side false d (emit L1 qs (price rs))).
        { intros t Ht. apply emit_in in Ht. destruct Ht as (r & q & _ & Hr & ->). exists r.
          destruct (seller_row _ _ _ r EL) as [? ?]; [apply in_or_app; left; exact Hr|]. auto. }
        assert (Ab : all_side true d (emit B1 qb (price rb))).
        { intros t Ht. apply emit_in in Ht. destruct Ht as (r & q & _ & Hr & ->). exists r.
          destruct (buyer_row _ _ _ r EB) as [? ?]; [apply in_or_app; left; exact Hr|]. auto. }
        destruct (side_sums _ _ _ Hu As) as [As1 As2]. destruct (side_sums _ _ _ Hu Ab) as [Ab1 Ab2].
        rewrite emit_sum in As2 by exact Ls. rewrite emit_sum in Ab1 by exact Lb.
        assert (Bt : bought d (tm_trans tm) = qsum qb) by (rewrite T; unfold trades; rewrite bought_app, As1, Ab1; ring).
        assert (St : sold d (tm_trans tm) = qsum qs) by (rewrite T; unfold trades; rewrite sold_app, As2, Ab2; ring).
        assert (In1 : forall t r, In t (tm_trans tm) -> In r d -> lbl r = t_bid t ->
          (buying r = true /\ In (r, t_qty t) (combine B1 qb) /\ In r B1 /\ t_price t = price rb /\ t_source t = (-1)%Z /\ t_active t = false) \/
          (buying r = false /\ In (r, t_qty t) (combine L1 qs) /\ In r L1 /\ t_price t = price rs /\ t_source t = (-1)%Z /\ t_active t = false)).
        { intros t r Ht Hr El. rewrite T in Ht. apply in_app_or in Ht. destruct Ht as [Ht|Ht];
          apply emit_in in Ht; destruct Ht as (r' & q & H1 & H2 & ->); simpl in El.
          - destruct (seller_row _ _ _ r' EL) as [G1 G2]; [apply in_or_app; left; exact H2|].
            assert (r = r') by (apply (NoDup_map_in lbl d); auto). subst r'. right. simpl. auto 10.
          - destruct (buyer_row _ _ _ r' EB) as [G1 G2]; [apply in_or_app; left; exact H2|].
            assert (r = r') by (apply (NoDup_map_in lbl d); auto). subst r'. left. simpl. auto 10. }
        assert (Ref : refer d (tm_trans tm)).
        { intros t Ht. rewrite T in Ht. apply in_app_or in Ht. destruct Ht as [Ht|Ht].
          - destruct (As t Ht) as (r & ? & ? & ?). eauto.
          - destruct (Ab t Ht) as (r & ? & ? & ?). eauto. }
        assert (Onc : once (tm_trans tm)).
        { unfold once. rewrite T. unfold trades. rewrite map_app, !emit_bids by assumption.
          apply (trades_once _ _ _ _ _ _ EB EL). }
        assert (Bd : forall t r, In t (tm_trans tm) -> In r d -> lbl r = t_bid t -> 0 <= t_qty t /\ t_qty t <= qty r).
        { intros t r Ht Hr El. destruct (In1 t r Ht Hr El) as [(_ & H & _)|(_ & H & _)].
          - apply (rationed_combine B1 qb r _ Rb); [|exact H]. intros y Hy. apply Hq.
            apply (buyer_row _ _ _ y EB). apply in_or_app; left; exact Hy.
          - apply (rationed_combine L1 qs r _ Rs); [|exact H]. intros y Hy. apply Hq.
            apply (seller_row _ _ _ y EL). apply in_or_app; left; exact Hy. }
        split; [rewrite Bt, St; congruence|]. split; [exact Onc|]. split; [exact Ref|].
        split; [apply feasible_once; assumption|]. split; [|split; [|split]].
        * intros t r Ht Hr El. pose proof (s_desc_sorted S (buyers d)) as Sd. rewrite EB in Sd.
          pose proof (s_asc_sorted S (sellers d)) as Sa. rewrite EL in Sa.
          destruct (In1 t r Ht Hr El) as [(-> & _ & H & -> & _)|(-> & _ & H & -> & _)].
          -- exact (proj1 (sorted_app _ _ _ _ Sd) r H).
          -- exact (proj1 (sorted_app _ _ _ _ Sa) r H).
        * intros t Ht. destruct (Ref t Ht) as (r & Hr & El).
          destruct (In1 t r Ht Hr El) as [(_ & _ & _ & _ & ?)|(_ & _ & _ & _ & ?)]; assumption.
        * intros _. exists (price rs), (price rb), (qsum qb). auto.
        * intros ps pb q Ex. injection Ex as <- <- <-. split; [exact Lp|].
          intros t r Ht Hr El. destruct (In1 t r Ht Hr El) as [(-> & _ & _ & -> & _)|(-> & _ & _ & -> & _)]; reflexivity.
  Qed.

  (** who trades, when prices are distinct *)
  Lemma huang_traders tm ps pb q : prices_distinct d -> huang_auction S d = Ok (tm, XHuang ps pb q) ->
    (exists rb, In rb d /\ buying rb = true /\ price rb = pb /\ ~ In (lbl rb) (map t_bid (tm_trans tm))) /\
    (exists rs, In rs d /\ buying rs = false /\ price rs = ps /\ ~ In (lbl rs) (map t_bid (tm_trans tm))) /\
    let better_b := filter (fun r => buying r && qltb pb (price r)) d in
    let better_s := filter (fun r => negb (buying r) && qltb (price r) ps) d in
    (better_b = [] \/ better_s = [] -> tm_trans tm = []) /\
    (better_b <> [] -> better_s <> [] ->
       (forall r, In r d -> (In (lbl r) (map t_bid (tm_trans tm)) <-> In r better_b \/ In r better_s)) /\
       bought d (tm_trans tm) = qmin (demand_above d pb) (supply_below d ps)).
  Proof.
    intros [Db Ds] E. pose proof (huang_cases S d Hq Hp) as C. rewrite E in C.
    inversion C as [Hc E1|x B1 rb B2 L1 rs L2 qs qb tm' q' EB EL Lp Cr Sf Sg D E1].
    subst.
    assert (Pb : Permutation (B1 ++ rb :: B2) (filter buying d)) by (rewrite <- EB; apply s_desc_perm).
    assert (Pl : Permutation (L1 ++ rs :: L2) (filter (fun r => negb (buying r)) d)) by (rewrite <- EL; apply s_asc_perm).
    pose proof (s_desc_sorted S (buyers d)) as Sd. rewrite EB in Sd.
    pose proof (s_asc_sorted S (sellers d)) as Sa. rewrite EL in Sa.
    assert (NDb : NoDup (map price (B1 ++ rb :: B2))) by (apply (Permutation_NoDup (Permutation_map price (Permutation_sym Pb))), Db).
    assert (NDl : NoDup (map price (L1 ++ rs :: L2))) by (apply (Permutation_NoDup (Permutation_map price (Permutation_sym Pl))), Ds).
    rewrite map_app in NDb, NDl. simpl in NDb, NDl.
    pose proof (NoDup_remove_2 _ _ _ NDb) as Nrb. pose proof (NoDup_remove_2 _ _ _ NDl) as Nrs.
    assert (FB : Permutation (filter (fun r => buying r && qltb (price rb) (price r)) d) B1).
    { rewrite <- filter_filter. rewrite <- (filter_perm _ _ _ Pb), filter_app.
      rewrite filter_all, filter_none, app_nil_r; [reflexivity| |].
      - intros y [<-|Hy]; [apply qltb_ge; qlra|]. apply qltb_ge. exact (proj1 (proj2 (sorted_app _ _ _ _ Sd)) y Hy).
      - intros y Hy. apply qltb_lt. pose proof (proj1 (sorted_app _ _ _ _ Sd) y Hy) as L. simpl in L.
        assert (price y <> price rb) by (intro Z; apply Nrb; apply in_or_app; left; rewrite <- Z; apply in_map, Hy).
        destruct (Qclt_le_dec (price rb) (price y)); [assumption|]. exfalso. apply H. qlra. }
    assert (FL : Permutation (filter (fun r => negb (buying r) && qltb (price r) (price rs)) d) L1).
    { rewrite <- (filter_filter _ (fun r => negb (buying r))). rewrite <- (filter_perm _ _ _ Pl), filter_app.
      rewrite filter_all, filter_none, app_nil_r; [reflexivity| |].
      - intros y [<-|Hy]; [apply qltb_ge; qlra|]. apply qltb_ge. exact (proj1 (proj2 (sorted_app _ _ _ _ Sa)) y Hy).
      - intros y Hy. apply qltb_lt. pose proof (proj1 (sorted_app _ _ _ _ Sa) y Hy) as L. simpl in L.
        assert (price y <> price rs) by (intro Z; apply Nrs; apply in_or_app; left; rewrite <- Z; apply in_map, Hy).
        destruct (Qclt_le_dec (price y) (price rs)); [assumption|]. exfalso. apply H. qlra. }
    destruct (trades_once _ _ _ _ _ _ EB EL) as (T1 & T2 & T3).
    assert (Tb : forall i, In i (map t_bid (tm_trans tm)) -> In i (map lbl L1 ++ map lbl B1)).
    { destruct D as [(_ & -> & _)|(NB & NL & Rs & Rb & _ & _ & _ & _ & T)]; [contradiction|].
      intros i. rewrite T. unfold trades. rewrite map_app, !emit_bids; auto;
      [rewrite (rationed_length _ _ Rb) | rewrite (rationed_length _ _ Rs)]; apply map_length. }
    split; [|split].
    - exists rb. destruct (buyer_row _ _ _ rb EB) as [? ?]; [apply in_or_app; right; left; reflexivity|].
      repeat split; auto.
    - exists rs. destruct (seller_row _ _ _ rs EL) as [? ?]; [apply in_or_app; right; left; reflexivity|].
      repeat split; auto.
    - cbv zeta. split.
      + intro Z. destruct D as [(_ & -> & _)|(NB & NL & _)]; [reflexivity|]. exfalso.
        destruct Z as [Z|Z]; rewrite Z in *; [apply Permutation_nil in FB | apply Permutation_nil in FL]; congruence.
      + intros Zb Zl. destruct D as [([Z|Z] & _)|(NB & NL & Rs & Rb & _ & Ss & Sb & Eqq & T)].
        * exfalso. rewrite Z in FB. symmetry in FB. apply Permutation_nil in FB. congruence.
        * exfalso. rewrite Z in FL. symmetry in FL. apply Permutation_nil in FL. congruence.
        * assert (Ls : length qs = length L1) by (rewrite (rationed_length _ _ Rs); apply map_length).
          assert (Lb : length qb = length B1) by (rewrite (rationed_length _ _ Rb); apply map_length).
          split.
          -- intros r Hr. rewrite T. unfold trades. rewrite map_app, !emit_bids, in_app_iff by assumption.
             assert (Eq : forall X Y, Permutation Y X -> (forall y, In y X -> In y d) -> (In (lbl r) (map lbl X) <-> In r Y)).
             { intros X Y PXY Hsub. rewrite in_map_iff. split.
               - intros (y & E2 & Hy). assert (y = r) by (apply (NoDup_map_in lbl d); auto). subst.
                 apply (Permutation_in _ (Permutation_sym PXY)), Hy.
               - intro H. exists r. split; [reflexivity|]. apply (Permutation_in _ PXY), H. }
             rewrite (Eq _ _ FB), (Eq _ _ FL); [tauto| |].
             ++ intros y Hy. apply (seller_row _ _ _ y EL). apply in_or_app; left; exact Hy.
             ++ intros y Hy. apply (buyer_row _ _ _ y EB). apply in_or_app; left; exact Hy.
          -- destruct (huang_summary _ _ E) as (_ & _ & _ & _ & _ & _ & H & _).
             destruct H as (ps' & pb' & q'' & Ex & Eq).
             { rewrite T. intro Z. apply (f_equal (@length trans)) in Z. unfold trades, emit in Z.
               rewrite app_length, !map_length, !combine_length, Ls, Lb, !Nat.min_id in Z. simpl in Z.
               destruct L1; [congruence|]. simpl in Z. lia. }
             unfold demand_above, supply_below. rewrite (qsumf_perm qty _ _ FB), (qsumf_perm qty _ _ FL).
             congruence.
  Qed.

  Lemma huang_total : exists tm ex, huang_auction S d = Ok (tm, ex).
  Proof. destruct (huang_cases S d Hq Hp); eauto. Qed.
End Result.

Lemma rows_from_unique l : labels_unique (rows_from 0 l).
Proof. unfold labels_unique. rewrite rows_from_lbl. apply seq_NoDup. Qed.

Lemma huang_rational S d tm ex : qty_nonneg d -> price_nonneg d -> labels_unique d ->
  huang_auction S d = Ok (tm, ex) ->
  rational d (tm_trans tm) /\
  (tm_trans tm = [] \/ exists ps pb q, ex = XHuang ps pb q) /\
  (forall ps pb q, ex = XHuang ps pb q -> ps < pb /\
     forall t r, In t (tm_trans tm) -> In r d -> lbl r = t_bid t -> t_price t = if buying r then pb else ps).
Proof.
  intros Hq Hp Hu E. destruct (huang_summary S d Hq Hp Hu tm ex E) as (_ & _ & _ & _ & H1 & _ & H2 & H3).
  split; [exact H1|]. split; [|exact H3].
  destruct (tm_trans tm) eqn:Et; [left; reflexivity|]. right.
  destruct H2 as (ps & pb & q & -> & _); [discriminate|]. eauto.
Qed.

Definition reported_table : df :=
  rows_from 0 [mkBid (qf 1 5) (qf 33 10) 0 true 0 true; mkBid (qz 1) (qz 3) 1 true 0 true;
               mkBid (qz 2) (qz 1) 2 true 0 true; mkBid (qz 2) (qz 2) 3 false 0 true].
Lemma huang_reported_witness :
  exists (S : sorter) (d : df) tm ps pb q, qty_pos d /\ price_nonneg d /\ labels_unique d /\
    huang_auction S d = Ok (tm, XHuang ps pb q) /\ tm_trans tm = [] /\ q <> 0.
Proof.
  exists stable_sorter, reported_table.
  destruct (huang_auction stable_sorter reported_table) as [[tm [|ps pb q| | |]]|] eqn:E;
    try (exfalso; vm_compute in E; discriminate).
  exists tm, ps, pb, q. split; [|split; [|split; [|split; [reflexivity|]]]].
  - intros r H. apply qltb_lt. revert r H. apply forallb_forall. vm_compute. reflexivity.
  - intros r H. apply qleb_le. revert r H. apply forallb_forall. vm_compute. reflexivity.
  - apply rows_from_unique.
  - vm_compute in E. injection E as <- <- <- <-. split; [reflexivity|]. discriminate.
Qed.
