(** The auctions when prices may be negative. *)
From Verif Require Import QcTac Num NumFacts ModelBase ModelCurves ModelHuang ModelMuda ListFacts Spec SpecTrade
  SpecMuda SpecSign CurveFacts IntersectFacts StoreFacts UpdateFacts TradeFacts Sorter HuangFacts
  MudaSide MudaHalf MudaSolve MudaOutcome MudaFacts MudaPrice MudaErrors.

(** ** The intersection of two step functions that need not be monotone *)
Lemma intersect_any f g k :
  f <> [] -> g <> [] -> ends_sorted f -> ends_sorted g ->
  (exists x i j u w, intersect_stepwise f g k = Ok (Some x, Some i, Some j, ordinate f g (Some x) w u k) /\
     StepAt f x i u /\ StepAt g x j w /\ nlt w u) \/
  (exists xm i j u w, intersect_stepwise f g k = Ok (None, None, None, ordinate f g None w u k) /\
     (forall x, nle (Fin 0) x -> (nle x xm <-> both_defined f g x)) /\ StepAt f xm i u /\ StepAt g xm j w).
Proof.
  intros Nf Ng Hf Hg.
  destruct (x_max_spec f g Hf Hg Nf Ng) as (fm & gm & Ef & Eg & Pm & Im & Hd). simpl in *.
  set (xm := nmin fm gm) in *. set (xs := common_xs f g xm) in *.
  assert (P : forall z, In z xs -> nle (Fin 0) z).
  { intros z Hz. apply common_In in Hz; auto. destruct Hz as [[(v & H)|(v & H)] _].
    - destruct Hf as [Hp _]. apply (Hp _ H).
    - destruct Hg as [Hp _]. apply (Hp _ H). }
  assert (Dz : forall z, In z xs -> both_defined f g z).
  { intros z Hz. apply Hd; [auto|]. apply common_In in Hz; tauto. }
  assert (Ep : map (fun x => (x, get_value_stepwise x f, get_value_stepwise x g)) xs =
               map (fun x => (x, Some (fval f x), Some (fval g x))) xs).
  { apply map_ext_in. intros z Hz. destruct (Dz z Hz) as ((i & u & Hu) & (j & w & Hw)).
    destruct (fval_StepAt f z _ _ (P z Hz) Hu) as [E1 ->]. destruct (fval_StepAt g z _ _ (P z Hz) Hw) as [E2 ->].
    rewrite E1, E2. reflexivity. }
  destruct (scan_spec (fval f) (fval g) xs None) as (r & Es & Hr). rewrite <- Ep in Es.
  unfold intersect_stepwise. rewrite Ef, Eg. simpl bind. fold xm. fold xs. rewrite Es. simpl bind.
  destruct Hr as [(l1 & x & y & l2 & E & C1 & _ & ->)|[-> _]].
  - left. assert (Ix : In x xs) by (rewrite E; apply in_or_app; right; left; reflexivity).
    destruct (Dz x Ix) as ((i & u & Hu) & (j & w & Hw)).
    exists x, i, j, u, w. simpl option_map. rewrite (argmax_StepAt _ _ _ _ Hu), (argmax_StepAt _ _ _ _ Hw).
    destruct (StepAt_in _ _ _ _ Hu) as (a & _ & _ & Na). destruct (StepAt_in _ _ _ _ Hw) as (b & _ & _ & Nb).
    unfold piece_value. rewrite Na, Nb. simpl bind. split; [reflexivity|].
    split; [exact Hu|]. split; [exact Hw|].
    destruct (fval_StepAt f x _ _ (P x Ix) Hu) as [E1 _]. destruct (fval_StepAt g x _ _ (P x Ix) Hw) as [E2 _].
    rewrite <- E1, <- E2. exact C1.
  - right. destruct (Dz xm Im) as ((i & u & Hu) & (j & w & Hw)).
    exists xm, i, j, u, w.
    destruct (fval_StepAt f xm _ _ (P xm Im) Hu) as [_ E1]. destruct (fval_StepAt g xm _ _ (P xm Im) Hw) as [_ E2].
    assert (Hlast : exists t, rev xs = xm :: t).
    { pose proof (common_sorted f g Hf Hg xm) as So. fold xs in So.
      destruct (exists_last (l := xs)) as (l' & z & El); [intro N; rewrite N in Im; contradiction|].
      rewrite El, rev_app_distr. simpl. exists (rev l'). f_equal.
      assert (Iz : In z xs) by (rewrite El; apply in_or_app; right; left; reflexivity).
      apply common_In in Iz; auto. rewrite El in Im, So. apply in_app_or in Im.
      destruct Im as [Im|[Im|[]]]; [|exact Im].
      destruct (sorted_app _ _ _ _ So) as (A1 & _). specialize (A1 _ Im).
      exfalso. apply (nlt_not_le _ _ A1). tauto. }
    destruct Hlast as (t & Hlast). simpl option_map. unfold piece_value, value_at_last. rewrite Hlast.
    rewrite E1, E2. simpl bind. split; [reflexivity|]. split; [exact Hd|]. auto.
Qed.

(** ** The Huang auction *)
(** [pb] is the price of the first of the buyers that do not trade, or the closing value of the curve *)
Definition next_buy (B2 : df) (pb : Qc) : Prop := pb = match B2 with [] => 0 | rb :: _ => price rb end.

Inductive huang_any (S : sorter) (d : df) : res (transmgr * extra) -> Prop :=
| HA_none : huang_any S d (Ok (tm_init, XEmpty))
| HA_some B1 B2 L1 rs L2 qs qb tm q pb :
    s_desc S (buyers d) = B1 ++ B2 -> s_asc S (sellers d) = L1 ++ rs :: L2 ->
    next_buy B2 pb -> price rs < pb ->
    tm = tm_init /\ q = qsumf qty B1 \/
    B1 <> [] /\ L1 <> [] /\ rationed (map qty L1) qs /\ rationed (map qty B1) qb /\
      qsum qs = qmin (qsumf qty B1) (qsumf qty L1) /\ qsum qb = qmin (qsumf qty B1) (qsumf qty L1) /\
      q = qsum qb /\ tm_trans tm = trades L1 B1 qs qb (price rs) pb ->
    huang_any S d (Ok (tm, XHuang (price rs) pb q)).

Theorem huang_any_cases S d : qty_nonneg d -> huang_any S d (huang_auction S d).
Proof.
  intros Hq. unfold huang_auction.
  set (f := fst (demand_curve_from_bids S d)). set (g := fst (supply_curve_from_bids S d)).
  destruct (intersect_any f g (qf 1 2) (demand_nonempty S d) (supply_nonempty S d)
              (demand_ends S d Hq) (supply_ends S d Hq))
    as [(x & b & s & u & w & E & Sf & Sg & Lwu)|(xm & i & j & u & w & E & _)].
  2:{ rewrite E. cbn [bind]. apply HA_none. }
  rewrite E. cbn [bind].
  destruct (StepAt_in _ _ _ _ Sf) as (af & _ & _ & Nf). destruct (StepAt_in _ _ _ _ Sg) as (ag & _ & _ & Ng).
  assert (Hs : exists rs, nth_error (s_asc S (sellers d)) s = Some rs /\ w = Fin (price rs)).
  { destruct (crows_app_nth _ _ _ _ _ Ng) as [H|[_ H]]; [exact H|]. injection H as -> ->.
    destruct u; discriminate. }
  destruct Hs as (rs & Ns & ->).
  assert (Hb : exists pb, next_buy (skipn b (s_desc S (buyers d))) pb /\ u = Fin pb /\ (b <= length (s_desc S (buyers d)))%nat).
  { destruct (crows_app_nth _ _ _ _ _ Nf) as [(rb & H & ->)|[-> H]].
    - exists (price rb). pose proof (nth_error_split' _ _ _ H) as EB. split; [|split; [reflexivity|]].
      + unfold next_buy. rewrite EB at 1. rewrite skipn_app, firstn_length_le by (apply Nat.lt_le_incl, nth_error_Some; congruence).
        rewrite Nat.sub_diag. rewrite skipn_all2 by (rewrite firstn_length; lia). reflexivity.
      + apply Nat.lt_le_incl, nth_error_Some; congruence.
    - injection H as -> ->. exists 0. rewrite skipn_all. split; [reflexivity|]. split; [reflexivity|lia]. }
  destruct Hb as (pb & Nb & -> & Lb). apply nlt_Fin in Lwu.
  rewrite Ng, Nf.
  pose proof (eq_sym (firstn_skipn b (s_desc S (buyers d)))) as EB. pose proof (nth_error_split' _ _ _ Ns) as EL.
  assert (LB : length (firstn b (s_desc S (buyers d))) = b) by (apply firstn_length_le; exact Lb).
  assert (LL : length (firstn s (s_asc S (sellers d))) = s).
  { apply firstn_length_le. apply Nat.lt_le_incl. apply nth_error_Some. congruence. }
  set (B1 := firstn b (s_desc S (buyers d))) in *. set (L1 := firstn s (s_asc S (sellers d))) in *.
  assert (QB : forall y, In y B1 -> 0 <= qty y).
  { intros y Hy. apply In_firstn in Hy. apply (Permutation_in _ (s_desc_perm S _)) in Hy. apply filter_In in Hy. apply Hq; tauto. }
  assert (QL : forall y, In y L1 -> 0 <= qty y).
  { intros y Hy. apply In_firstn in Hy. apply (Permutation_in _ (s_asc_perm S _)) in Hy. apply filter_In in Hy. apply Hq; tauto. }
  assert (SB : 0 <= qsumf qty B1) by (apply qsumf_nonneg; exact QB).
  assert (SL : 0 <= qsumf qty L1) by (apply qsumf_nonneg; exact QL).
  destruct (Nat.ltb 0 b && Nat.ltb 0 s) eqn:Pos.
  2:{ eapply HA_some with (B1 := B1) (L1 := L1) (qs := []) (qb := []); try eassumption. left. split; reflexivity. }
  apply andb_true_iff in Pos. destruct Pos as [Pb Ps]. apply Nat.ltb_lt in Pb, Ps.
  assert (NB : B1 <> []) by (intro Z; rewrite Z in LB; simpl in LB; lia).
  assert (NL : L1 <> []) by (intro Z; rewrite Z in LL; simpl in LL; lia).
  change (qsum (map qty B1)) with (qsumf qty B1). change (qsum (map qty L1)) with (qsumf qty L1).
  destruct (qlt_spec 0 (qsumf qty L1 - qsumf qty B1)) as [G|G].
  - destruct (update_quantity_spec (map qty L1) (qsumf qty L1 - qsumf qty B1)) as (t & T0 & EU & SU).
    + destruct L1; [congruence | discriminate].
    + qlra.
    + change (qsum (map qty L1)) with (qsumf qty L1). qlra.
    + rewrite EU. cbn [bind]. eapply HA_some with (B1 := B1) (L1 := L1); try eassumption.
      right. split; [exact NB|]. split; [exact NL|].
      split; [exists t; split; [exact T0 | reflexivity]|].
      split; [apply rationed_refl; intros z Hz; apply in_map_iff in Hz; destruct Hz as (y & <- & Hy); apply QB, Hy|].
      change (qsum (map qty L1)) with (qsumf qty L1) in SU. rewrite SU.
      change (qsum (map qty B1)) with (qsumf qty B1).
      destruct (qmin_case (qsumf qty B1) (qsumf qty L1)) as [[Em ?]|[Em ?]]; rewrite Em.
      * split; [ring|]. split; [reflexivity|]. split; [reflexivity|]. rewrite !add_all_trans. reflexivity.
      * exfalso; qlra.
  - destruct (update_quantity_spec (map qty B1) (- (qsumf qty L1 - qsumf qty B1))) as (t & T0 & EU & SU).
    + destruct B1; [congruence | discriminate].
    + qlra.
    + change (qsum (map qty B1)) with (qsumf qty B1). qlra.
    + rewrite EU. cbn [bind]. eapply HA_some with (B1 := B1) (L1 := L1); try eassumption.
      right. split; [exact NB|]. split; [exact NL|].
      split; [apply rationed_refl; intros z Hz; apply in_map_iff in Hz; destruct Hz as (y & <- & Hy); apply QL, Hy|].
      split; [exists t; split; [exact T0 | reflexivity]|].
      change (qsum (map qty B1)) with (qsumf qty B1) in SU. rewrite SU.
      change (qsum (map qty L1)) with (qsumf qty L1).
      destruct (qmin_case (qsumf qty B1) (qsumf qty L1)) as [[Em ?]|[Em ?]]; rewrite Em.
      * split; [qlra|]. split; [qlra|]. split; [reflexivity|]. rewrite !add_all_trans. reflexivity.
      * split; [reflexivity|]. split; [ring|]. split; [reflexivity|]. rewrite !add_all_trans. reflexivity.
Qed.

Lemma huang_any_total S d : qty_nonneg d -> exists tm ex, huang_auction S d = Ok (tm, ex).
Proof. intro Hq. destruct (huang_any_cases S d Hq); eauto. Qed.

Section Any.
  Variables (S : sorter) (d : df).
  Hypothesis Hq : qty_nonneg d.
  Hypothesis Hu : labels_unique d.

  Lemma brow B1 B2 r : s_desc S (buyers d) = B1 ++ B2 -> In r B1 -> In r d /\ buying r = true.
  Proof.
    intros E H. assert (I : In r (s_desc S (buyers d))) by (rewrite E; apply in_or_app; left; exact H).
    apply (Permutation_in _ (s_desc_perm S _)) in I. apply filter_In in I. tauto.
  Qed.
  Lemma srow L1 L2 r : s_asc S (sellers d) = L1 ++ L2 -> In r L1 -> In r d /\ buying r = false.
  Proof.
    intros E H. assert (I : In r (s_asc S (sellers d))) by (rewrite E; apply in_or_app; left; exact H).
    apply (Permutation_in _ (s_asc_perm S _)) in I. apply filter_In in I. destruct I as [I1 I2]. apply negb_true_iff in I2. tauto.
  Qed.
  Lemma NoDup_app_part {A} (a b : list A) : NoDup (a ++ b) -> NoDup a.
  Proof.
    induction a as [|x a IH]; simpl; intro H; constructor; inversion_clear H as [|? ? N H']; auto.
    intro I. apply N. apply in_or_app; auto.
  Qed.
  Lemma any_once B1 B2 L1 L2 : s_desc S (buyers d) = B1 ++ B2 -> s_asc S (sellers d) = L1 ++ L2 ->
    NoDup (map lbl L1 ++ map lbl B1).
  Proof.
    intros EB EL.
    assert (P : Permutation d ((L1 ++ B1) ++ (L2 ++ B2))).
    { transitivity ((L1 ++ L2) ++ B1 ++ B2).
      - rewrite <- EB, <- EL. rewrite (filter_negb_perm buying d) at 1. rewrite Permutation_app_comm.
        apply Permutation_app; symmetry; [apply s_asc_perm | apply s_desc_perm].
      - rewrite <- !app_assoc. apply Permutation_app_head. rewrite !app_assoc. apply Permutation_app_tail. apply Permutation_app_comm. }
    pose proof (Permutation_NoDup (Permutation_map lbl P) Hu) as H. rewrite map_app in H.
    apply NoDup_app_part in H. rewrite map_app in H. exact H.
  Qed.

  Lemma huang_any_summary tm ex : huang_auction S d = Ok (tm, ex) ->
    bought d (tm_trans tm) = sold d (tm_trans tm) /\ once (tm_trans tm) /\ refer d (tm_trans tm) /\
    feasible d (tm_trans tm) /\ nearly_rational d (tm_trans tm) /\
    (tm_trans tm <> [] -> exists ps pb q, ex = XHuang ps pb q /\ q = bought d (tm_trans tm)) /\
    (forall ps pb q, ex = XHuang ps pb q -> ps < pb /\
       (forall t r, In t (tm_trans tm) -> In r d -> lbl r = t_bid t -> t_price t = if buying r then pb else ps) /\
       (exists rs, In rs d /\ buying rs = false /\ price rs = ps) /\
       (pb = 0 \/ exists rb, In rb d /\ buying rb = true /\ price rb = pb)).
  Proof.
    intro E. pose proof (huang_any_cases S d Hq) as C. rewrite E in C.
    assert (E0 : bought d [] = sold d [] /\ once [] /\ refer d [] /\ feasible d [] /\ nearly_rational d []).
    { destruct (empty_ok d Hq) as (A1 & A2 & A3 & A4 & _). repeat (split; [assumption|]). intros ? ? []. }
    inversion C as [E1|B1 B2 L1 rs L2 qs qb tm' q pb EB EL Nb Lp D E1].
    - subst tm ex. simpl. destruct E0 as (A1 & A2 & A3 & A4 & A5).
      repeat (split; [assumption|]). split; [congruence|]. intros; discriminate.
    - subst tm' ex.
      assert (Xs : exists r, In r d /\ buying r = false /\ price r = price rs).
      { exists rs. assert (I : In rs (s_asc S (sellers d))) by (rewrite EL; apply in_or_app; right; left; reflexivity).
        apply (Permutation_in _ (s_asc_perm S _)) in I. apply filter_In in I. destruct I as [I1 I2]. apply negb_true_iff in I2. auto. }
      assert (Xb : pb = 0 \/ exists rb, In rb d /\ buying rb = true /\ price rb = pb).
      { destruct B2 as [|rb B2]; [left; exact Nb|]. right. exists rb.
        assert (I : In rb (s_desc S (buyers d))) by (rewrite EB; apply in_or_app; right; left; reflexivity).
        apply (Permutation_in _ (s_desc_perm S _)) in I. apply filter_In in I. unfold next_buy in Nb. subst pb. tauto. }
      destruct D as [(-> & ->)|(NB & NL & Rs & Rb & Ss & Sb & -> & T)].
      + simpl. destruct E0 as (A1 & A2 & A3 & A4 & A5).
        repeat (split; [assumption|]). split; [congruence|]. intros ps pb' q Ex. injection Ex as <- <- <-.
        split; [exact Lp|]. split; [intros ? ? []|]. auto.
      + assert (Ls : length qs = length L1) by (rewrite (rationed_length _ _ Rs); apply map_length).
        assert (Lb : length qb = length B1) by (rewrite (rationed_length _ _ Rb); apply map_length).
        assert (As : all_side false d (emit L1 qs (price rs))).
        { intros t Ht. apply emit_in in Ht. destruct Ht as (r & q & _ & Hr & ->). exists r.
          destruct (srow _ _ r EL Hr) as [? ?]. auto. }
        assert (Ab : all_side true d (emit B1 qb pb)).
        { intros t Ht. apply emit_in in Ht. destruct Ht as (r & q & _ & Hr & ->). exists r.
          destruct (brow _ _ r EB Hr) as [? ?]. auto. }
        destruct (side_sums _ _ _ Hu As) as [As1 As2]. destruct (side_sums _ _ _ Hu Ab) as [Ab1 Ab2].
        rewrite emit_sum in As2 by exact Ls. rewrite emit_sum in Ab1 by exact Lb.
        assert (Bt : bought d (tm_trans tm) = qsum qb) by (rewrite T; unfold trades; rewrite bought_app, As1, Ab1; ring).
        assert (St : sold d (tm_trans tm) = qsum qs) by (rewrite T; unfold trades; rewrite sold_app, As2, Ab2; ring).
        assert (In1 : forall t r, In t (tm_trans tm) -> In r d -> lbl r = t_bid t ->
          (buying r = true /\ In (r, t_qty t) (combine B1 qb) /\ In r B1 /\ t_price t = pb) \/
          (buying r = false /\ In (r, t_qty t) (combine L1 qs) /\ In r L1 /\ t_price t = price rs)).
        { intros t r Ht Hr El. rewrite T in Ht. apply in_app_or in Ht. destruct Ht as [Ht|Ht];
          apply emit_in in Ht; destruct Ht as (r' & q & H1 & H2 & ->); simpl in El.
          - destruct (srow _ _ r' EL H2) as [G1 G2].
            assert (r = r') by (apply (NoDup_map_in lbl d); auto). subst r'. right. simpl. auto 10.
          - destruct (brow _ _ r' EB H2) as [G1 G2].
            assert (r = r') by (apply (NoDup_map_in lbl d); auto). subst r'. left. simpl. auto 10. }
        assert (Ref : refer d (tm_trans tm)).
        { intros t Ht. rewrite T in Ht. apply in_app_or in Ht. destruct Ht as [Ht|Ht].
          - destruct (As t Ht) as (r & ? & ? & ?). eauto.
          - destruct (Ab t Ht) as (r & ? & ? & ?). eauto. }
        assert (Onc : once (tm_trans tm)).
        { unfold once. rewrite T. unfold trades. rewrite map_app, !emit_bids by assumption.
          apply (any_once _ _ _ _ EB EL). }
        assert (Bd : forall t r, In t (tm_trans tm) -> In r d -> lbl r = t_bid t -> 0 <= t_qty t /\ t_qty t <= qty r).
        { intros t r Ht Hr El. destruct (In1 t r Ht Hr El) as [(_ & H & _)|(_ & H & _)].
          - apply (rationed_combine B1 qb r _ Rb); [|exact H]. intros y Hy. apply Hq. apply (brow _ _ y EB Hy).
          - apply (rationed_combine L1 qs r _ Rs); [|exact H]. intros y Hy. apply Hq. apply (srow _ _ y EL Hy). }
        split; [rewrite Bt, St; congruence|]. split; [exact Onc|]. split; [exact Ref|].
        split; [apply feasible_once; assumption|]. split; [|split].
        * intros t r Ht Hr El. pose proof (s_desc_sorted S (buyers d)) as Sd. rewrite EB in Sd.
          pose proof (s_asc_sorted S (sellers d)) as Sa. rewrite EL in Sa.
          destruct (In1 t r Ht Hr El) as [(-> & _ & H & ->)|(-> & _ & H & ->)].
          -- unfold next_buy in Nb. destruct B2 as [|rb B2].
             ++ subst pb. destruct (Qclt_le_dec (price r) 0) as [L|L]; [right; auto | left; exact L].
             ++ subst pb. left. exact (proj1 (sorted_app _ _ _ _ Sd) r H).
          -- exact (proj1 (sorted_app _ _ _ _ Sa) r H).
        * intros _. exists (price rs), pb, (qsum qb). auto.
        * intros ps pb' q Ex. injection Ex as <- <- <-. split; [exact Lp|]. split; [|auto].
          intros t r Ht Hr El. destruct (In1 t r Ht Hr El) as [(-> & _ & _ & ->)|(-> & _ & _ & ->)]; reflexivity.
  Qed.

  (** nobody loses if the bids of one side are not negative *)
  Lemma huang_any_rational tm ex : huang_auction S d = Ok (tm, ex) ->
    (forall r, In r d -> buying r = true -> 0 <= price r) \/ (forall r, In r d -> buying r = false -> 0 <= price r) ->
    rational d (tm_trans tm).
  Proof.
    intros E H. destruct (huang_any_summary _ _ E) as (_ & _ & _ & _ & R & X & Y). intros t r Ht Hr El.
    specialize (R t r Ht Hr El). destruct (buying r) eqn:Bq; [|exact R]. destruct R as [R|[R1 R2]]; [exact R|]. exfalso.
    destruct H as [H|H].
    - specialize (H r Hr Bq). qlra.
    - destruct X as (ps & pb & q & Ex & _); [intro Z; rewrite Z in Ht; contradiction|].
      destruct (Y ps pb q Ex) as (L & Pr & (rs & S1 & S2 & S3) & _).
      specialize (H rs S1 S2). specialize (Pr t r Ht Hr El). rewrite Bq in Pr. qlra.
  Qed.

  (** the buyers pay at least what the sellers receive *)
  Lemma huang_any_budget tm ex : huang_auction S d = Ok (tm, ex) ->
    qsumf (fun t => t_qty t * t_price t) (filter (on_side false d) (tm_trans tm)) <=
    qsumf (fun t => t_qty t * t_price t) (filter (on_side true d) (tm_trans tm)).
  Proof.
    intro E. destruct (huang_any_summary _ _ E) as (Bal & _ & Ref & (Fq & _) & _ & X & Y).
    destruct (tm_trans tm) as [|t0 tl] eqn:Et; [apply Qcle_refl|]. rewrite <- Et in *.
    destruct X as (ps & pb & q & Ex & _); [rewrite Et; discriminate|]. destruct (Y ps pb q Ex) as (L & Pr & _).
    assert (Val : forall s p, (forall t r, In t (tm_trans tm) -> In r d -> lbl r = t_bid t -> buying r = s -> t_price t = p) ->
      qsumf (fun t => t_qty t * t_price t) (filter (on_side s d) (tm_trans tm)) = qsumf t_qty (filter (on_side s d) (tm_trans tm)) * p).
    { intros s p H. revert H. generalize (tm_trans tm) as l. induction l as [|t l IH]; intro H; [unfold qsumf; simpl; ring|].
      assert (IH' := IH (fun t' r I => H t' r (or_intror I))). cbn [filter].
      destruct (on_side s d t) eqn:Os; [|exact IH']. rewrite !qsumf_cons, IH'.
      unfold on_side in Os. apply existsb_exists in Os. destruct Os as (r & R1 & R2). apply andb_true_iff in R2. destruct R2 as [R2 R3].
      apply Nat.eqb_eq in R2. apply eqb_prop in R3. rewrite (H t r (or_introl eq_refl) R1 R2 R3). ring. }
    rewrite (Val false ps), (Val true pb).
    - fold (bought d (tm_trans tm)) (sold d (tm_trans tm)). rewrite <- Bal.
      assert (B0 : 0 <= bought d (tm_trans tm)) by (apply qsumf_nonneg; intros t Ht; apply filter_In in Ht; apply Fq, Ht). qnra.
    - intros t r H1 H2 H3 H4. rewrite (Pr t r H1 H2 H3), H4. reflexivity.
    - intros t r H1 H2 H3 H4. rewrite (Pr t r H1 H2 H3), H4. reflexivity.
  Qed.
End Any.

(** ** MUDA *)
Section Price.
  Variables (S : sorter) (d : df).
  Hypothesis Hq : qty_nonneg d.
  Notation f := (fst (demand_curve_from_bids S d)).
  Notation g := (fst (supply_curve_from_bids S d)).
  Lemma price_any : find_competitive_price S d = Ok PInf \/
    exists p rs, find_competitive_price S d = Ok (Fin p) /\ In rs d /\ buying rs = false /\ price rs <= p /\
      (p <= 0 \/ exists rb, In rb d /\ buying rb = true /\ p <= price rb).
  Proof.
    unfold find_competitive_price.
    destruct (intersect_any f g (qf 1 2) (demand_nonempty S d) (supply_nonempty S d) (demand_ends S d Hq) (supply_ends S d Hq))
      as [(x & i & j & u & w & E & Su & Sw & L)|(xm & i & j & u & w & E & Hd & Su & Sw)].
    - right. rewrite E. cbn [bind].
      destruct (g_vals S d _ _ _ Sw) as [->|(rs & S1 & S2 & ->)]; [destruct u; discriminate|].
      assert (Fu : exists u', u = Fin u' /\ (u' = 0 \/ exists rb, In rb d /\ buying rb = true /\ u' = price rb)).
      { destruct (f_vals S d _ _ _ Su) as [->|(r & R1 & R2 & ->)]; [exists 0; auto|]. exists (price r). split; [reflexivity|]. right. eauto. }
      destruct Fu as (u' & -> & Hu'). apply nlt_Fin in L.
      assert (O : exists p, ordinate f g (Some x) (Fin (price rs)) (Fin u') (qf 1 2) = Fin p /\ price rs <= p /\ p <= u').
      { unfold ordinate.
        destruct (convex_between (qf 1 2) u' (price rs)) as [V1 V2]; [vm_compute; discriminate | vm_compute; discriminate | qlra |].
        destruct (mem_col (Some x) f), (mem_col (Some x) g); simpl;
          first [exists (price rs * qf 1 2 + (1 - qf 1 2) * u'); split; [reflexivity|]; split; assumption
                | exists (price rs); split; [reflexivity|]; split; qlra | exists u'; split; [reflexivity|]; split; qlra]. }
      destruct O as (p & -> & P1 & P2). exists p, rs. split; [reflexivity|]. split; [exact S1|]. split; [exact S2|]. split; [exact P1|].
      destruct Hu' as [->|(rb & B1 & B2 & ->)]; [left; exact P2 | right; eauto].
    - left. rewrite E. cbn [bind]. destruct (f_last S d) as (i' & F). destruct (g_last S d) as (j' & G).
      assert (X : xm = PInf).
      { assert (Y : nle PInf xm) by (apply Hd; [reflexivity | split; eauto]). destruct xm; try discriminate; reflexivity. }
      subst xm. destruct (StepAt_fun _ _ _ _ _ _ F Su) as [_ <-]. destruct (StepAt_fun _ _ _ _ _ _ G Sw) as [_ <-]. reflexivity.
  Qed.
  Lemma price_any_total : exists p, find_competitive_price S d = Ok p.
  Proof. destruct price_any as [E|(p & rs & E & _)]; eauto. Qed.
End Price.

Section Muda.
  Variables (S : sorter) (d : df) (fl : list bool).
  Hypothesis Hq : qty_nonneg d.
  Hypothesis Hu : labels_unique d.
  Lemma body_any_err e : muda_body S d fl = Err e -> e = IndexError.
  Proof.
    unfold muda_body. destruct (price_any_total S _ (half_qty (left_of d fl) d Hq)) as (pl & ->).
    destruct (price_any_total S _ (half_qty (right_of d fl) d Hq)) as (pr & ->). cbn [bind].
    destruct (solve_market_side S (rows_in (left_of d fl) d) pr (zero_fees d)) as [[tl f1]|e1] eqn:E1; cbn [bind].
    2: { intro H. injection H as <-. exact (side_err S d Hq _ _ _ _ E1). }
    destruct (solve_market_side S (rows_in (right_of d fl) d) pl f1) as [[tr f2]|e2] eqn:E2; cbn [bind]; [discriminate|].
    intro H. injection H as <-. exact (side_err S d Hq _ _ _ _ E2).
  Qed.
  Lemma muda_any_not_implemented : muda S d fl = Err NotImplementedError <-> repeated_price d.
  Proof.
    rewrite muda_eq by exact Hu. unfold check_equal_price. rewrite <- (check_spec d Hu). destruct (_ || _); [tauto|].
    split; [|discriminate]. intro H. apply body_any_err in H. discriminate.
  Qed.
  Lemma muda_any_err e : muda S d fl = Err e -> e = NotImplementedError \/ e = IndexError.
  Proof.
    rewrite muda_eq by exact Hu. unfold check_equal_price. destruct (_ || _); [intro H; left; congruence|]. intro H. right. exact (body_any_err e H).
  Qed.
  Lemma muda_any_total : ~ repeated_price d ->
    (forall r, In r d -> (0 <= user r)%Z /\ (user r < Z.of_nat (length (nodup Z.eq_dec (map user d))))%Z) ->
    exists tm ex, muda S d fl = Ok (tm, ex).
  Proof.
    intros Nr Hn. rewrite muda_eq by exact Hu. unfold check_equal_price. destruct (_ || _) eqn:E; [exfalso; apply Nr, (check_spec d Hu), E|].
    assert (El : length (uniqueZ (map user d)) = length (nodup Z.eq_dec (map user d))).
    { apply Permutation_length. apply NoDup_Permutation; [apply uniqueZ_NoDup | apply NoDup_nodup|]. intro x. rewrite uniqueZ_In, nodup_In. tauto. }
    rewrite <- El in Hn.
    assert (Lz : length (zero_fees d) = length (uniqueZ (map user d))) by apply repeat_length.
    unfold muda_body. destruct (price_any_total S _ (half_qty (left_of d fl) d Hq)) as (pl & ->).
    destruct (price_any_total S _ (half_qty (right_of d fl) d Hq)) as (pr & ->). cbn [bind].
    destruct (side_total_ok S d Hq Hu (left_of d fl) pr (zero_fees d)) as (tl & f1 & E1); [rewrite Lz; exact Hn|].
    pose proof (side_len S d Hq Hu _ _ _ _ _ (fun r Hr => proj1 (Hn r Hr)) E1) as L1. rewrite E1. cbn [bind].
    destruct (side_total_ok S d Hq Hu (right_of d fl) pl f1) as (tr & f2 & E2); [rewrite L1, Lz; exact Hn|]. rewrite E2. cbn [bind]. eauto.
  Qed.
End Muda.
