(** [solve_market_side_with_exogenous_price]: what is traded and what is charged. *)
From Verif Require Import QcTac Num ModelBase ModelCurves ModelHuang ModelMuda ListFacts StoreFacts
  FillFacts Spec SpecTrade SpecMuda TradeFacts MudaSide MudaHalf.

Lemma other_bool (b c : bool) : b <> c -> b = negb c.
Proof. destruct b, c; simpl; intro H; try reflexivity; contradiction H; reflexivity. Qed.

Section Half.
  Variables (S : sorter) (d : df) (p : Qc).
  Hypotheses (Hq : qty_nonneg d) (Hu : labels_unique d).

  Definition Ls (b : bool) : df :=
    if b then s_desc S (filter (fun r => nleb (Fin p) (Fin (price r))) (buyers d))
    else s_asc S (filter (fun r => nleb (Fin (price r)) (Fin p)) (sellers d)).

  Lemma side_true : side_of true d = buyers d.
  Proof. apply filter_ext. intro r. destruct (buying r); reflexivity. Qed.
  Lemma side_false : side_of false d = sellers d.
  Proof. apply filter_ext. intro r. destruct (buying r); reflexivity. Qed.

  Lemma Ls_perm b : Permutation (Ls b) (filter (fun r => qleb 0 (gain p r)) (side_of b d)).
  Proof.
    unfold Ls. destruct b; (etransitivity; [apply s_desc_perm || apply s_asc_perm|]);
    [rewrite side_true | rewrite side_false];
    (rewrite (filter_ext_in' _ (fun r => qleb 0 (gain p r))); [reflexivity|]); intros r Hr; apply filter_In in Hr; destruct Hr as [_ Hr];
    unfold gain; simpl nleb.
    - rewrite Hr. destruct (qle_spec p (price r)), (qle_spec 0 (price r - p)); try reflexivity; exfalso; qlra.
    - apply negb_true_iff in Hr. rewrite Hr. destruct (qle_spec (price r) p), (qle_spec 0 (p - price r)); try reflexivity; exfalso; qlra.
  Qed.
  Lemma Ls_in b r : In r (Ls b) <-> In r d /\ buying r = b /\ 0 <= gain p r.
  Proof.
    split.
    - intro H. apply (Permutation_in _ (Ls_perm b)), filter_In in H. destruct H as [H1 H2]. apply filter_In in H1. destruct H1 as [H1 H3].
      apply eqb_prop in H3. split; [exact H1|]. split; [exact H3|]. exact (proj1 (qleb_le _ _) H2).
    - intros (H1 & H2 & H3). apply (Permutation_in _ (Permutation_sym (Ls_perm b))), filter_In. split; [|apply qleb_le, H3].
      apply filter_In. split; [exact H1|]. rewrite H2. apply eqb_reflx.
  Qed.
  Lemma Ls_sorted b : StronglySorted (fun a c => gain p c <= gain p a) (Ls b).
  Proof.
    destruct b.
    - eapply sorted_impl_in; [apply s_desc_sorted|]. intros x y Hx Hy H. apply (Ls_in true) in Hx, Hy.
      destruct Hx as (_ & Ex & _), Hy as (_ & Ey & _). cbv beta in *. unfold gain. rewrite Ex, Ey. qlra.
    - eapply sorted_impl_in; [apply s_asc_sorted|]. intros x y Hx Hy H. apply (Ls_in false) in Hx, Hy.
      destruct Hx as (_ & Ex & _), Hy as (_ & Ey & _). cbv beta in *. unfold gain. rewrite Ex, Ey. qlra.
  Qed.
  Lemma Ls_unique b : NoDup (map lbl (Ls b)).
  Proof. apply (NoDup_perm_map lbl _ _ (Permutation_sym (Ls_perm b))). do 2 apply NoDup_filter_map. exact Hu. Qed.
  Lemma Ls_sum b : qsumf qty (Ls b) = side_qty b d p.
  Proof.
    rewrite (qsumf_perm _ _ _ (Ls_perm b)). destruct b; unfold side_qty, demand_at, supply_at, side_of; rewrite filter_filter;
    f_equal; apply filter_ext; intro r; unfold gain; destruct (buying r); simpl; try reflexivity.
    - destruct (qle_spec p (price r)), (qle_spec 0 (price r - p)); try reflexivity; exfalso; qlra.
    - destruct (qle_spec (price r) p), (qle_spec 0 (p - price r)); try reflexivity; exfalso; qlra.
  Qed.
  Lemma Ls_qty b r : In r (Ls b) -> 0 <= qty r.
  Proof. intro H. apply Hq. apply Ls_in in H. apply H. Qed.
  Lemma side_qty_nonneg b : 0 <= side_qty b d p.
  Proof. rewrite <- Ls_sum. apply qsumf_nonneg. intros r Hr. apply (Ls_qty b), Hr. Qed.

  Definition lb : bool := long_side d p.
  Definition Q : Qc := qmin (demand_at d p) (supply_at d p).
  Lemma Q_short : Q = side_qty (negb lb) d p.
  Proof.
    unfold Q, lb, long_side, side_qty. destruct (qlt_spec (demand_at d p) (supply_at d p)) as [L|L]; simpl;
    destruct (qmin_case (demand_at d p) (supply_at d p)) as [[-> H]|[-> H]]; qlra.
  Qed.
  Lemma Q_le b : Q <= side_qty b d p.
  Proof. unfold Q, side_qty. destruct b; [apply qmin_l | apply qmin_r]. Qed.
  Lemma Q_nonneg : 0 <= Q.
  Proof. rewrite Q_short. apply side_qty_nonneg. Qed.

  Definition trade (fees : list Qc) : res (transmgr * list Qc) :=
    '(ls, li) <- get_trading_bids (Ls lb) Q ;;
    '(ss, si) <- get_trading_bids (Ls (negb lb)) Q ;;
    let tm := add_all (add_all tm_init (map (mk p) (firstn (Datatypes.S si) ss))) (map (mk p) (firstn (Datatypes.S li) ls)) in
    fees' <- charge_users ls li Q p (uniqueZ (map user (firstn (Datatypes.S li) ls))) fees ;;
    Ok (tm, fees').
  Lemma solve_eq fees : solve_market_side S d (Fin p) fees = if qltb 0 Q then trade fees else Ok (tm_init, fees).
  Proof.
    unfold solve_market_side.
    assert (E1 : qsum (map qty (Ls true)) = demand_at d p) by apply (Ls_sum true).
    assert (E2 : qsum (map qty (Ls false)) = supply_at d p) by apply (Ls_sum false).
    pose proof (side_qty_nonneg true) as N1. pose proof (side_qty_nonneg false) as N2. simpl in N1, N2.
    assert (Z1 : buyers d = [] -> demand_at d p = 0) by (intro E; unfold demand_at; rewrite <- (filter_filter _ buying); fold (buyers d); rewrite E; reflexivity).
    assert (Z2 : sellers d = [] -> supply_at d p = 0) by (intro E; unfold supply_at; rewrite <- (filter_filter _ (fun r => negb (buying r))); fold (sellers d); rewrite E; reflexivity).
    assert (ZZ : Q = 0 -> qltb 0 Q = false) by (intros ->; apply qltb_ge; qlra).
    destruct (buyers d) as [|b0 bs] eqn:Eb; [|destruct (sellers d) as [|s0 ss] eqn:Es].
    - rewrite ZZ; [reflexivity|]. unfold Q. rewrite Z1 by reflexivity. destruct (qmin_case 0 (supply_at d p)) as [[-> ?]|[-> ?]]; qlra.
    - rewrite ZZ; [reflexivity|]. unfold Q. rewrite Z2 by reflexivity. destruct (qmin_case (demand_at d p) 0) as [[-> ?]|[-> ?]]; qlra.
    - rewrite <- Eb, <- Es. fold (Ls true) (Ls false). cbv zeta. rewrite E1, E2.
      unfold trade, lb, long_side, Q.
      destruct (qlt_spec (demand_at d p) (supply_at d p)) as [L|L]; simpl negb; cbv iota.
      + destruct (qmin_case (demand_at d p) (supply_at d p)) as [[-> ?]|[-> ?]]; [reflexivity|exfalso; qlra].
      + replace (qmin (demand_at d p) (supply_at d p)) with (supply_at d p); [reflexivity|].
        destruct (qmin_case (demand_at d p) (supply_at d p)) as [[-> ?]|[-> ?]]; qlra.
  Qed.

  (** the cut of a side *)
  Definition Cut (b : bool) (pre : df) (r : row) (post : df) (q : Qc) : Prop :=
    Ls b = pre ++ r :: post /\ qsumf qty pre + q = Q /\ 0 <= q /\ q <= qty r.
  Definition won (pre : df) (r : row) (q : Qc) : df := pre ++ [with_qty r q].

  Lemma won_in b pre r post q y : Cut b pre r post q -> In y (won pre r q) ->
    exists x, In x d /\ buying x = b /\ 0 <= gain p x /\ lbl x = lbl y /\ user x = user y /\ price x = price y /\ buying y = b /\
      gain p x = gain p y /\ 0 <= qty y /\ qty y <= qty x /\ In x (Ls b) /\ (In x pre /\ y = x \/ x = r /\ qty y = q).
  Proof.
    intros (E & Es & H1 & H2) H. apply in_app_or in H. destruct H as [H|[<-|[]]].
    - assert (HL : In y (Ls b)) by (rewrite E; apply in_or_app; left; exact H).
      exists y. pose proof (proj1 (Ls_in b y) HL) as (A & B & C). pose proof (Ls_qty b y HL).
      split; [exact A|]. split; [exact B|]. split; [exact C|]. do 3 (split; [reflexivity|]). split; [exact B|]. split; [reflexivity|].
      split; [assumption|]. split; [apply Qcle_refl|]. split; [exact HL|]. left; auto.
    - assert (HL : In r (Ls b)) by (rewrite E; apply in_or_app; right; left; reflexivity).
      exists r. pose proof (proj1 (Ls_in b r) HL) as (A & B & C).
      split; [exact A|]. split; [exact B|]. split; [exact C|]. do 3 (split; [reflexivity|]). split; [exact B|]. split; [reflexivity|].
      split; [exact H1|]. split; [exact H2|]. split; [exact HL|]. right; auto.
  Qed.
  Lemma won_lbl b pre r post q : Cut b pre r post q -> NoDup (map lbl (won pre r q)).
  Proof.
    intros (E & _). pose proof (Ls_unique b) as H. rewrite E in H. unfold won.
    replace (map lbl (pre ++ [with_qty r q])) with (map lbl (pre ++ [r])) by (rewrite !map_app; reflexivity).
    replace (pre ++ r :: post) with ((pre ++ [r]) ++ post) in H by (rewrite <- app_assoc; reflexivity).
    rewrite map_app in H. apply NoDup_app_l in H. exact H.
  Qed.
  Lemma won_sum pre r q : qsumf qty (won pre r q) = qsumf qty pre + q.
  Proof. unfold won. rewrite qsumf_app, qsumf_cons, qsumf_nil. simpl. ring. Qed.

  Lemma cut_fill b pre r post q : Cut b pre r post q ->
    qsumf (fun x => gain p x * qty x) (won pre r q) = fillsum qty (gain p) (side_qty (negb b) d p) (Ls b).
  Proof.
    intros (E & Es & H1 & H2). unfold won. rewrite qsumf_app, qsumf_cons, qsumf_nil.
    assert (F : fillsum qty (gain p) Q (Ls b) = qsumf (fun x => gain p x * qty x) pre + gain p r * q).
    { rewrite E. rewrite fill_stop.
      - replace (Q - qsumf qty pre) with q by (rewrite <- Es; ring). reflexivity.
      - intros x Hx. apply (Ls_qty b). rewrite E. exact Hx.
      - qlra.
      - qlra. }
    change (gain p (with_qty r q) * qty (with_qty r q)) with (gain p r * q).
    rewrite Qcplus_0_r, <- F. destruct (Bool.bool_dec b lb) as [Eb|Eb].
    - rewrite Eb, <- Q_short. reflexivity.
    - assert (Eq : Q = side_qty b d p) by (rewrite Q_short, <- (other_bool _ _ Eb); reflexivity).
      rewrite !fill_all; try (intros x Hx; apply (Ls_qty b), Hx); try reflexivity; rewrite Ls_sum.
      + rewrite <- Eq. apply Q_le.
      + rewrite Eq. apply Qcle_refl.
  Qed.

  (** the transactions of the half *)
  Section Trades.
    Variables (preS : df) (rS : row) (postS : df) (qS : Qc) (preL : df) (rL : row) (postL : df) (qL : Qc).
    Hypotheses (CS : Cut (negb lb) preS rS postS qS) (CL : Cut lb preL rL postL qL).
    Let wS := won preS rS qS.
    Let wL := won preL rL qL.
    Let tl := map (mk p) wS ++ map (mk p) wL.

    Lemma tl_split b : exists pre r post q, Cut b pre r post q /\
      (b = lb /\ won pre r q = wL \/ b = negb lb /\ won pre r q = wS).
    Proof.
      destruct (Bool.bool_dec b lb) as [->|Hb].
      - exists preL, rL, postL, qL. split; [exact CL | left; auto].
      - rewrite (other_bool _ _ Hb). exists preS, rS, postS, qS. split; [exact CS | right; auto].
    Qed.
    Lemma tl_in t : In t tl -> exists b pre r post q y, Cut b pre r post q /\ In y (won pre r q) /\ t = mk p y /\
      (b = lb /\ won pre r q = wL \/ b = negb lb /\ won pre r q = wS).
    Proof.
      intro H. apply in_app_or in H. destruct H as [H|H]; apply in_map_iff in H; destruct H as (y & <- & Hy).
      - exists (negb lb), preS, rS, postS, qS, y. auto 6.
      - exists lb, preL, rL, postL, qL, y. auto 6.
    Qed.
    Lemma tl_row t : In t tl -> exists x, In x d /\ lbl x = t_bid t /\ 0 <= gain p x /\ 0 <= t_qty t /\ t_qty t <= qty x /\
      t_price t = p /\ t_source t = (-1)%Z /\ t_active t = false.
    Proof.
      intro H. destruct (tl_in t H) as (b & pre & r & post & q & y & HC & Hy & -> & _).
      destruct (won_in b pre r post q y HC Hy) as (x & H1 & H2 & H3 & H4 & H5 & H6 & H7 & H8 & H9 & H10 & _).
      exists x. repeat split; auto.
    Qed.
    Lemma tl_refer : refer d tl.
    Proof. intros t H. destruct (tl_row t H) as (x & H1 & H2 & _). eauto. Qed.
    Lemma tl_once : once tl.
    Proof.
      unfold once, tl. rewrite map_app, !map_map. simpl.
      apply NoDup_app_intro; [apply (won_lbl _ _ _ _ _ CS) | apply (won_lbl _ _ _ _ _ CL)|].
      intros i Hi Hj. apply in_map_iff in Hi, Hj. destruct Hi as (y & Ey & Hy), Hj as (z & Ez & Hz).
      destruct (won_in _ _ _ _ _ y CS Hy) as (x & X1 & X2 & _ & X4 & _). destruct (won_in _ _ _ _ _ z CL Hz) as (x' & Y1 & Y2 & _ & Y4 & _).
      assert (x = x') by (apply (NoDup_map_in lbl d); auto; congruence). subst x'. rewrite X2 in Y2. destruct lb; discriminate.
    Qed.
    Lemma tl_feasible : feasible d tl.
    Proof.
      apply feasible_once; [exact Hu | exact Hq | exact tl_once | | exact tl_refer].
      intros t r Ht Hr E. destruct (tl_row t Ht) as (x & H1 & H2 & _ & H3 & H4 & _).
      assert (x = r) by (apply (NoDup_map_in lbl d); auto; congruence). subst x. auto.
    Qed.
    Lemma tl_rational : rational d tl.
    Proof.
      intros t r Ht Hr E. destruct (tl_row t Ht) as (x & H1 & H2 & H3 & _ & _ & H4 & _).
      assert (x = r) by (apply (NoDup_map_in lbl d); auto; congruence). subst x. rewrite H4. unfold gain in H3. destruct (buying r); qlra.
    Qed.
    Lemma tl_sums : bought d tl = Q /\ sold d tl = Q.
    Proof.
      unfold tl. rewrite bought_app, sold_app.
      assert (A : forall b pre r post q, Cut b pre r post q -> all_side b d (map (mk p) (won pre r q))).
      { intros b pre r post q HC t Ht. apply in_map_iff in Ht. destruct Ht as (y & <- & Hy).
        destruct (won_in b pre r post q y HC Hy) as (x & H1 & H2 & H3 & H4 & _). exists x. auto. }
      assert (T : forall b pre r post q, Cut b pre r post q -> qsumf t_qty (map (mk p) (won pre r q)) = Q).
      { intros b pre r post q HC. rewrite qsumf_map. simpl. change (qsumf (fun x => qty x) (won pre r q)) with (qsumf qty (won pre r q)). rewrite won_sum. apply HC. }
      destruct (side_sums _ d _ Hu (A _ _ _ _ _ CS)) as [E1 E2]. destruct (side_sums _ d _ Hu (A _ _ _ _ _ CL)) as [E3 E4].
      rewrite (T _ _ _ _ _ CS) in E1, E2. rewrite (T _ _ _ _ _ CL) in E3, E4.
      fold wS in E1, E2. fold wL in E3, E4. rewrite E1, E2, E3, E4. destruct lb; simpl; split; ring.
    Qed.
    (** sums over rows of one side *)
    Lemma tl_bridge b (f : row -> Qc) : (forall r q, f (with_qty r q) = f r) ->
      forall pre r post q, Cut b pre r post q -> (b = lb /\ won pre r q = wL \/ b = negb lb /\ won pre r q = wS) ->
      qsumf (fun x => f x * traded_by (lbl x) tl) (side_of b d) = qsumf (fun y => f y * qty y) (won pre r q).
    Proof.
      intros Hf pre r post q HC Hw.
      set (f' := fun x => if Bool.eqb (buying x) b then f x else 0).
      assert (E : qsumf (fun x => f x * traded_by (lbl x) tl) (side_of b d) = qsumf (fun x => f' x * traded_by (lbl x) tl) d).
      { unfold side_of. rewrite qsumf_filter. apply qsumf_ext. intros x _. unfold f'. destruct (Bool.eqb (buying x) b); ring. }
      rewrite E. unfold tl. rewrite (qsumf_ext _ (fun x => f' x * traded_by (lbl x) (map (mk p) wS) + f' x * traded_by (lbl x) (map (mk p) wL)))
        by (intros x _; rewrite traded_by_app; ring).
      rewrite qsumf_plus.
      assert (Br : forall c pre r post q, Cut c pre r post q -> qsumf (fun x => f' x * traded_by (lbl x) (map (mk p) (won pre r q))) d = qsumf (fun y => f' y * qty y) (won pre r q)).
      { intros c pre' r' post' q' HC'. apply bridge; [exact Hu|]. intros y Hy.
        destruct (won_in c pre' r' post' q' y HC' Hy) as (x & H1 & H2 & _ & H4 & _ & _ & H7 & _ & _ & _ & _ & H12). exists x. split; [exact H1|]. split; [exact H4|].
        unfold f'. rewrite H2, H7. destruct (Bool.eqb c b); [|reflexivity]. destruct H12 as [[_ ->]|[-> _]]; [reflexivity|].
        apply in_app_or in Hy. destruct Hy as [Hy|[<-|[]]]; [|symmetry; apply Hf].
        assert (y = r'); [|subst; reflexivity]. apply (NoDup_map_in lbl d); auto. apply (Ls_in c). destruct HC' as [-> _]. apply in_or_app; left; exact Hy. }
      unfold wS at 1, wL at 1. rewrite (Br _ _ _ _ _ CS), (Br _ _ _ _ _ CL). fold wS wL.
      assert (V : forall c pre r post q, Cut c pre r post q -> qsumf (fun y => f' y * qty y) (won pre r q) = if Bool.eqb c b then qsumf (fun y => f y * qty y) (won pre r q) else 0).
      { intros c pre' r' post' q' HC'. destruct (Bool.eqb c b) eqn:Ec.
        - apply qsumf_ext. intros y Hy. destruct (won_in c pre' r' post' q' y HC' Hy) as (x & _ & _ & _ & _ & _ & _ & H7 & _). unfold f'. rewrite H7, Ec. reflexivity.
        - apply qsumf_zero. intros y Hy. destruct (won_in c pre' r' post' q' y HC' Hy) as (x & _ & _ & _ & _ & _ & _ & H7 & _). unfold f'. rewrite H7, Ec. ring. }
      unfold wS at 1, wL at 1. rewrite (V _ _ _ _ _ CS), (V _ _ _ _ _ CL). fold wS wL.
      destruct Hw as [[-> ->]|[-> ->]]; rewrite eqb_reflx.
      - replace (Bool.eqb (negb lb) lb) with false by (destruct lb; reflexivity). ring.
      - replace (Bool.eqb lb (negb lb)) with false by (destruct lb; reflexivity). ring.
    Qed.
    Lemma tl_best b : best_gain (side_of b d) p (side_qty (negb b) d p) (fill_gain (side_of b d) p (fun i => traded_by i tl)).
    Proof.
      destruct (tl_split b) as (pre & r & post & q & HC & Hw).
      unfold fill_gain. rewrite (tl_bridge b (gain p) (fun _ _ => eq_refl) pre r post q HC Hw), (cut_fill b pre r post q HC).
      apply best_fill; [intros x Hx; apply Hq; unfold side_of in Hx; apply filter_In in Hx; apply Hx | apply NoDup_filter_map, Hu | apply side_qty_nonneg | apply Ls_perm | apply Ls_sorted].
    Qed.
    (** priority *)
    Lemma tl_priority r1 r2 : In r1 d -> In r2 d -> buying r1 = buying r2 -> gain p r2 < gain p r1 ->
      traded_by (lbl r1) tl < qty r1 -> traded_by (lbl r2) tl = 0.
    Proof.
      intros H1 H2 Hb Hg Hlt. destruct (in_dec Nat.eq_dec (lbl r2) (map t_bid tl)) as [Hi|Hi]; [|apply traded_by_absent, Hi].
      exfalso. apply in_map_iff in Hi. destruct Hi as (t & Et & Ht). destruct (tl_in t Ht) as (b & pre & r & post & q & y & HC & Hy & Ety & Hw).
      destruct (won_in b pre r post q y HC Hy) as (x & X1 & X2 & X3 & X4 & _ & _ & _ & _ & _ & _ & X5 & X6).
      assert (x = r2) by (apply (NoDup_map_in lbl d); auto; rewrite X4; rewrite Ety in Et; exact Et). subst x.
      assert (L1 : In r1 (Ls b)) by (apply Ls_in; split; [exact H1|]; split; [congruence|]; qlra).
      assert (P1 : In r1 pre).
      { pose proof (Ls_sorted b) as Hs. destruct HC as [E _]. rewrite E in L1, Hs. apply in_app_or in L1. destruct L1 as [L1|L1]; [exact L1|]. exfalso.
        destruct (sorted_app _ _ _ _ Hs) as (A1 & A2 & _ & _ & A5).
        destruct X6 as [[X6 _]|[X6 _]].
        - destruct L1 as [<-|L1]; [specialize (A1 _ X6); qlra | specialize (A5 _ _ X6 L1); qlra].
        - subst r. destruct L1 as [<-|L1]; [qlra | specialize (A2 _ L1); qlra]. }
      assert (T : In (mk p r1) tl).
      { assert (In (mk p r1) (map (mk p) (won pre r q))) by (apply in_map; unfold won; apply in_or_app; left; exact P1).
        unfold tl. apply in_or_app. destruct Hw as [[_ <-]|[_ <-]]; auto. }
      pose proof (traded_by_once tl _ tl_once T) as F. simpl in F. rewrite F in Hlt. qlra.
    Qed.
    (** who takes part on the long side *)
    Lemma tl_users u : In u (uniqueZ (map user wL)) <-> trades_on lb d tl u.
    Proof.
      rewrite uniqueZ_In, in_map_iff. split.
      - intros (y & <- & Hy). destruct (won_in _ _ _ _ _ y CL Hy) as (x & H1 & H2 & _ & H4 & H5 & _). exists (mk p y), x.
        split; [unfold tl; apply in_or_app; right; apply in_map, Hy|]. auto.
      - intros (t & r & Ht & Hr & E1 & E2 & E3). destruct (tl_in t Ht) as (b & pre & r' & post & q & y & HC & Hy & -> & Hw).
        destruct (won_in b pre r' post q y HC Hy) as (x & X1 & X2 & _ & X4 & X5 & _). simpl in E1.
        assert (x = r) by (apply (NoDup_map_in lbl d); auto; congruence). subst x. exists y. split; [congruence|].
        destruct Hw as [[_ <-]|[Eb _]]; [exact Hy|]. exfalso. rewrite Eb in X2. rewrite X2 in E2. destruct lb; discriminate.
    Qed.
    (** the fee *)
    Lemma tl_fee u : 0 < Q ->
      let fee := compute_fee (indexed (wL ++ leftover rL qL postL)) (length preL) u Q p in
      best_gain (not_by u (side_of lb d)) p (side_qty (negb lb) d p)
        (fill_gain (not_by u (side_of lb d)) p (fun i => traded_by i tl) + fee) /\ 0 <= fee.
    Proof.
      intros HQ fee. assert (HC := CL). destruct HC as (E & Es & H1 & H2).
      destruct (fee_vcg lb preL rL postL qL u Q p) as [F1 F2]; auto.
      { intros x Hx. rewrite <- E in Hx. pose proof (Ls_qty _ _ Hx). apply Ls_in in Hx. tauto. }
      change (preL ++ [with_qty rL qL]) with wL in F1, F2. fold fee in F1, F2.
      split; [|exact F2].
      set (g := fun r => if Z.eqb (user r) u then 0 else gain p r).
      assert (G : fill_gain (not_by u (side_of lb d)) p (fun i => traded_by i tl) = qsumf (fun x => gain p x * qty x) (not_by u wL)).
      { unfold fill_gain, not_by. rewrite !qsumf_filter.
        transitivity (qsumf (fun x => g x * traded_by (lbl x) tl) (side_of lb d)).
        - apply qsumf_ext. intros x _. unfold g. destruct (Z.eqb (user x) u); simpl; ring.
        - rewrite (tl_bridge lb g (fun _ _ => eq_refl) preL rL postL qL CL (or_introl (conj eq_refl eq_refl))).
          apply qsumf_ext. intros x _. unfold g. destruct (Z.eqb (user x) u); simpl; ring. }
      rewrite G. rewrite F1. replace (qsumf (fun x => gain p x * qty x) (not_by u wL) + _) with (fillsum qty (gain p) Q (not_by u (preL ++ rL :: postL))).
      2:{ ring. }
      rewrite <- E, <- Q_short. apply best_fill.
      - intros x Hx. apply Hq. unfold not_by, side_of in Hx. do 2 (apply filter_In in Hx; destruct Hx as [Hx _]). exact Hx.
      - unfold not_by, side_of. do 2 apply NoDup_filter_map. exact Hu.
      - apply Q_nonneg.
      - unfold not_by. etransitivity; [apply filter_perm, Ls_perm|]. rewrite !filter_filter. rewrite (filter_ext _ (fun x => negb (Z.eqb (user x) u) && qleb 0 (gain p x))); [reflexivity|]. intro x. apply andb_comm.
      - apply sorted_filter, Ls_sorted.
    Qed.
  End Trades.

  Lemma solve_trade fees : 0 < Q ->
    exists preS rS postS qS preL rL postL qL, Cut (negb lb) preS rS postS qS /\ Cut lb preL rL postL qL /\
    trade fees = (fees' <- charge_users (won preL rL qL ++ leftover rL qL postL) (length preL) Q p (uniqueZ (map user (won preL rL qL))) fees ;;
      Ok (add_all (add_all tm_init (map (mk p) (won preS rS qS))) (map (mk p) (won preL rL qL)), fees')).
  Proof.
    intro HQ. unfold trade.
    destruct (trading_cut (Ls lb) Q (Ls_qty lb) HQ) as (preL & rL & postL & qL & L1 & L2 & L3 & L4 & L5); [rewrite Ls_sum; apply Q_le|].
    destruct (trading_cut (Ls (negb lb)) Q (Ls_qty (negb lb)) HQ) as (preS & rS & postS & qS & S1 & S2 & S3 & S4 & S5); [rewrite Ls_sum; apply Q_le|].
    exists preS, rS, postS, qS, preL, rL, postL, qL. split; [unfold Cut; auto|]. split; [unfold Cut; auto|].
    rewrite L5, S5. cbn [bind]. cbv zeta. rewrite !firstn_win. reflexivity.
  Qed.
End Half.
