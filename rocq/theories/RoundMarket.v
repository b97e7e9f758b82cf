(** Facts about [Market.run("huang")] in rounded arithmetic: merge, clear, split. *)
From Verif Require Import QcTac Num NumFacts ModelBase ModelCurves ModelHuang ModelMerge ModelMarket ModelRound ModelRoundMarket ListFacts StoreFacts
  Spec SpecTrade SpecRound SpecRoundMarket UpdateFacts TradeFacts HuangFacts MergeFacts RoundFacts RoundHuang RoundError RoundMerge P2PTrades.

(** outcome of clearing the merged table *)
Lemma huang_r_strict R A S d tm ex : qty_nonneg d -> price_nonneg d -> machine_qty R d -> labels_unique d -> prices_distinct d ->
  mech_run0 (huang_auction_r R A S) d = Ok (tm, ex) ->
  once (tm_trans tm) /\ refer d (tm_trans tm) /\ feasible d (tm_trans tm) /\
  (forall t, In t (tm_trans tm) -> t_source t = (-1)%Z /\ t_active t = false) /\
  (tm_trans tm = [] \/ exists ps pb q rs rb, ex = XHuang ps pb q /\ ps < pb /\
     In rs d /\ buying rs = false /\ ps = price rs /\ In rb d /\ buying rb = true /\ pb = price rb /\
     forall t r, In t (tm_trans tm) -> In r d -> lbl r = t_bid t ->
       if buying r then t_price t = pb /\ pb < price r else t_price t = ps /\ price r < ps).
Proof.
  intros Hq Hp Hm Hu Hd. unfold mech_run0.
  destruct (Nat.eqb _ 0 || Nat.eqb _ _).
  - intro E. injection E as <- <-. destruct (empty_ok d Hq) as (A1 & B1 & C1 & D1 & _).
    split; [exact B1|]. split; [exact C1|]. split; [exact D1|]. split; [intros ? []|]. left; reflexivity.
  - intro E. destruct (huang_r_summary R A S d Hq Hp Hm Hu tm ex E) as (A1 & A2 & A3 & A4 & A5 & A6 & A7).
    split; [exact A1|]. split; [exact A2|]. split; [exact A3|]. split; [exact A5|].
    pose proof (huang_r_cases R A S d Hq Hp Hm) as C. rewrite E in C.
    inversion C as [E1|B1 rb B2 L1 rs L2 qs qb tm' q EB EL Lp D E1|].
    + left. reflexivity.
    + subst tm' ex. destruct D as [(_ & ->)|(NB & NL & Rs & Rb & _ & -> & T)]; [left; reflexivity|]. right.
      destruct (A7 _ _ _ eq_refl) as [_ Pr].
      destruct (buyer_row S d _ _ _ rb EB) as [Irb Brb]; [apply in_or_app; right; left; reflexivity|].
      destruct (seller_row S d _ _ _ rs EL) as [Irs Brs]; [apply in_or_app; right; left; reflexivity|].
      exists (price rs), (price rb), (A qb), rs, rb. split; [reflexivity|]. split; [exact Lp|]. split; [exact Irs|]. split; [exact Brs|]. split; [reflexivity|].
      split; [exact Irb|]. split; [exact Brb|]. split; [reflexivity|]. intros t r Ht Hr El. specialize (Pr t r Ht Hr El).
      pose proof (s_desc_sorted S (buyers d)) as Sd. rewrite EB in Sd. pose proof (s_asc_sorted S (sellers d)) as Sa. rewrite EL in Sa.
      assert (I : buying r = true /\ In r B1 \/ buying r = false /\ In r L1).
      { rewrite T in Ht. apply in_app_or in Ht. destruct Ht as [Ht|Ht]; apply emit_in in Ht; destruct Ht as (r' & z & _ & Hr' & ->); simpl in El.
        - destruct (seller_row S d _ _ _ r' EL) as [G1 G2]; [apply in_or_app; left; exact Hr'|].
          assert (r = r') by (apply (NoDup_map_in lbl d); auto). subst r'. right. auto.
        - destruct (buyer_row S d _ _ _ r' EB) as [G1 G2]; [apply in_or_app; left; exact Hr'|].
          assert (r = r') by (apply (NoDup_map_in lbl d); auto). subst r'. left. auto. }
      destruct Hd as [Db Ds]. destruct I as [[Br I]|[Br I]]; rewrite Br in *; (split; [exact Pr|]).
      * pose proof (proj1 (sorted_app _ _ _ _ Sd) r I) as L. simpl in L.
        destruct (Qclt_le_dec (price rb) (price r)) as [K|K]; [exact K|]. exfalso.
        assert (Eb : price r = price rb) by (apply Qcle_antisym; assumption).
        assert (r = rb).
        { apply (NoDup_map_in price (filter buying d)); auto; apply filter_In; auto. }
        subst r. pose proof (NoDup_map_in lbl) as _.
        assert (N : NoDup (map lbl (s_desc S (buyers d)))).
        { apply (Permutation_NoDup (l := map lbl (buyers d))); [apply Permutation_map, Permutation_sym, s_desc_perm | apply NoDup_filter_map, Hu]. }
        rewrite EB, map_app in N. simpl in N. apply NoDup_remove_2 in N. apply N, in_or_app. left. apply in_map, I.
      * pose proof (proj1 (sorted_app _ _ _ _ Sa) r I) as L. simpl in L.
        destruct (Qclt_le_dec (price r) (price rs)) as [K|K]; [exact K|]. exfalso.
        assert (Eb : price r = price rs) by (apply Qcle_antisym; assumption).
        assert (r = rs).
        { apply (NoDup_map_in price (filter (fun r => negb (buying r)) d)); auto; apply filter_In; split; auto; [rewrite Br | rewrite Brs]; reflexivity. }
        subst r.
        assert (N : NoDup (map lbl (s_asc S (sellers d)))).
        { apply (Permutation_NoDup (l := map lbl (sellers d))); [apply Permutation_map, Permutation_sym, s_asc_perm | apply NoDup_filter_map, Hu]. }
        rewrite EL, map_app in N. simpl in N. apply NoDup_remove_2 in N. apply N, in_or_app. left. apply in_map, I.
Qed.

Section ComposeR.
  Variables (R : rounding) (A G : adder R).
  Variables (d : df) (prec : Z) (c0 c2 : Z) (mb ms : list (row * list nat)) (tl : list trans) (ls : list (list trans)).
  Let md := map fst (mb ++ ms).
  Let mp := map snd (mb ++ ms).
  Hypothesis M : merge_r R G prec d c0 mb ms c2.
  Hypothesis Hu : labels_unique d.
  Hypothesis Hq : qty_pos d.
  Hypothesis Hm : machine_qty R d.
  Hypothesis Href : refer md tl.
  Hypothesis Hls : Forall2 (fun t l => exists rows, nth_error mp (t_bid t) = Some rows /\ Split_r R A d rows t l) tl ls.

  Lemma group_qty r z : In z (map qty (group_of_r R prec d r)) -> 0 <= z /\ machine R z.
  Proof.
    intro Hz. apply in_map_iff in Hz. destruct Hz as (x & <- & Hx). apply filter_In in Hx.
    split; [apply Qclt_le_weak, Hq | apply Hm]; tauto.
  Qed.
  Lemma group_in r x : In x (group_of_r R prec d r) -> In x d /\ buying x = buying r /\ np_round_r R prec (price x) = price r.
  Proof.
    intro Hx. apply filter_In in Hx. destruct Hx as [H1 H2]. apply andb_true_iff in H2. destruct H2 as [H2 H3].
    apply eqb_prop in H2. apply qeqb_eq in H3. auto.
  Qed.
  (** a sum of the quantities of a group is positive *)
  Lemma group_sum_pos (X : adder R) r : In r md -> 0 < X (map qty (group_of_r R prec d r)).
  Proof.
    intro Hr. destruct (mergr_row _ _ _ _ _ _ _ _ M r Hr) as (rows & E1 & E2).
    destruct (mergr_nth _ _ _ _ _ _ _ _ M _ _ _ E2 E1) as (_ & N & _ & _).
    pose proof (sums_ge R _ _ (asum_ok R X (map qty (group_of_r R prec d r))) (group_qty r)) as L.
    destruct (group_of_r R prec d r) as [|x g] eqn:Eg; [congruence|].
    assert (Ix : In x (group_of_r R prec d r)) by (rewrite Eg; left; reflexivity).
    destruct (group_in r x Ix) as [Hx _]. specialize (Hq x Hx). specialize (L (qty x) (or_introl eq_refl)). qlra.
  Qed.
  Definition share (t : trans) (r x : row) : trans :=
    mkTrans (lbl x) (R (t_qty t * R (qty x / A (map qty (group_of_r R prec d r))))) (t_price t) (t_source t) (t_active t).

  (** one merged transaction and its parts *)
  Lemma part_r t l : In t tl -> (exists rows, nth_error mp (t_bid t) = Some rows /\ Split_r R A d rows t l) ->
    exists r, In r md /\ lbl r = t_bid t /\ qty r = G (map qty (group_of_r R prec d r)) /\ l = map (share t r) (group_of_r R prec d r).
  Proof.
    intros Ht (rows & E & rs & H1 & H2 & H3). destruct (Href t Ht) as (r & Hr & El).
    destruct (mergr_row _ _ _ _ _ _ _ _ M r Hr) as (rows' & E1 & E2). fold mp in E1. rewrite El, E in E1. injection E1 as <-.
    assert (E3 : nth_error (map snd (mb ++ ms)) (lbl r) = Some rows) by (rewrite El; exact E).
    destruct (mergr_nth _ _ _ _ _ _ _ _ M _ _ _ E2 E3) as (_ & N & Eq & Er).
    assert (Hg : rs = group_of_r R prec d r).
    { assert (F : forall l1 l2, (forall x, In x l1 -> In x d) -> (forall x, In x l2 -> In x d) -> map lbl l1 = map lbl l2 -> l1 = l2).
      { induction l1 as [|a l1 IH]; intros [|b l2] G1 G2 G3; try discriminate; [reflexivity|]. simpl in G3. injection G3 as G3 G4.
        f_equal; [apply (NoDup_map_in lbl d); auto; [apply G1 | apply G2]; left; reflexivity|].
        apply IH; auto; intros; [apply G1 | apply G2]; right; assumption. }
      apply F; [exact H2| |congruence]. intros x Hx. apply filter_In in Hx. tauto. }
    exists r. subst rs. auto.
  Qed.
  Lemma parts_in_r t' : In t' (concat ls) -> exists t r x, In t tl /\ In r md /\ lbl r = t_bid t /\
    qty r = G (map qty (group_of_r R prec d r)) /\ In x (group_of_r R prec d r) /\ t' = share t r x.
  Proof.
    intro H. apply in_concat in H. destruct H as (l & Hl & Ht').
    destruct (Forall2_in_r _ _ _ _ Hls Hl) as (t & Ht & P). destruct (part_r t l Ht P) as (r & Hr & El & Eq & ->).
    apply in_map_iff in Ht'. destruct Ht' as (x & <- & Hx). exists t, r, x. auto 10.
  Qed.
  Lemma group_disjoint_r r1 r2 x : In r1 md -> In r2 md -> In x (group_of_r R prec d r1) -> In x (group_of_r R prec d r2) -> r1 = r2.
  Proof.
    intros H1 H2 G1 G2. destruct (group_in _ _ G1) as (_ & A1 & B1). destruct (group_in _ _ G2) as (_ & A2 & B2).
    destruct (mergr_distinct _ _ _ _ _ _ _ _ M) as [Db Ds]. fold md in Db, Ds.
    destruct (buying x) eqn:Bx.
    - apply (NoDup_map_in price _ _ _ Db); try (apply filter_In; split); auto. congruence.
    - apply (NoDup_map_in price _ _ _ Ds); try (apply filter_In; split); auto.
      + rewrite <- A1; reflexivity.
      + rewrite <- A2; reflexivity.
      + congruence.
  Qed.
  Lemma parts_once_r : once tl -> once (concat ls).
  Proof.
    unfold once. intro Ho.
    assert (Q : forall tl' ls', Forall2 (fun t l => exists rows, nth_error mp (t_bid t) = Some rows /\ Split_r R A d rows t l) tl' ls' ->
      (forall t, In t tl' -> In t tl) -> NoDup (map t_bid tl') -> NoDup (map t_bid (concat ls')) /\
      (forall i, In i (map t_bid (concat ls')) -> exists t r x, In t tl' /\ In r md /\ lbl r = t_bid t /\ In x (group_of_r R prec d r) /\ i = lbl x)).
    { induction 1 as [|t l tl' ls' Htl F IH]; intros Hin Hn; [split; [constructor | contradiction]|].
      simpl in Hn. inversion_clear Hn as [|? ? Hn1 Hn2].
      destruct IH as [I1 I2]; [intros; apply Hin; right; assumption | exact Hn2|].
      destruct (part_r t l (Hin t (or_introl eq_refl)) Htl) as (r & Hr & El & _ & Ell).
      assert (Eb : map t_bid l = map lbl (group_of_r R prec d r)) by (rewrite Ell, map_map; reflexivity).
      simpl. rewrite map_app, Eb. split.
      - apply NoDup_app.
        + apply NoDup_filter_map, Hu.
        + exact I1.
        + intros i Hi1 Hi2. apply in_map_iff in Hi1. destruct Hi1 as (x & <- & Hx).
          destruct (I2 _ Hi2) as (t2 & r2 & x2 & Ht2 & Hr2 & El2 & Hx2 & E2).
          assert (x = x2). { apply (NoDup_map_in lbl d); auto; [apply filter_In in Hx | apply filter_In in Hx2]; tauto. }
          subst x2. pose proof (group_disjoint_r r r2 x Hr Hr2 Hx Hx2). subst r2.
          apply Hn1. rewrite <- El, El2. apply in_map, Ht2.
      - intros i Hi. apply in_app_or in Hi. destruct Hi as [Hi|Hi].
        + apply in_map_iff in Hi. destruct Hi as (x & <- & Hx). exists t, r, x. simpl; auto 10.
        + destruct (I2 i Hi) as (t2 & r2 & x2 & ? & ? & ? & ? & ?). exists t2, r2, x2. simpl; auto 10. }
    apply (Q tl ls Hls); auto.
  Qed.
  Lemma parts_refer_r : refer d (concat ls).
  Proof.
    intros t' Ht'. destruct (parts_in_r t' Ht') as (t & r & x & _ & Hr & _ & _ & Hx & ->). exists x.
    split; [apply (group_in r x Hx) | reflexivity].
  Qed.
End ComposeR.

(** ** Error bounds *)
Section ErrorR.
  Variables (R : rounding) (u : Qc).
  Hypothesis Hrel : rel_error R u.
  Notation B n := ((1 + u) ^ n).

  (** one share: two roundings *)
  Lemma share_near q T tq : 0 <= q -> 0 < T -> 0 <= tq ->
    near (R (tq * R (q / T))) (tq * (q / T)) (tq * (q / T) * (B 2 - 1)).
  Proof.
    pose proof (u_nonneg R u Hrel) as U. intros Q0 T0 Tq.
    assert (F0 : 0 <= q / T) by (unfold Qcdiv; apply qmult_nonneg; [exact Q0 | apply Qclt_le_weak, AllocFacts.qinv_pos, T0]).
    set (f := q / T) in *. clearbody f.
    destruct (rnd_near_pos R u Hrel f F0) as [N1 N2].
    assert (W0 : 0 <= R f) by (apply rnd_nonneg; exact F0). set (w := R f) in *. clearbody w.
    destruct (rnd_near_pos R u Hrel (tq * w) ltac:(apply qmult_nonneg; assumption)) as [M1 M2].
    set (s := R (tq * w)) in *. clearbody s.
    pose proof (qmult_le_l _ _ _ Tq N1) as K1. pose proof (qmult_le_l _ _ _ Tq N2) as K2.
    replace (tq * (f + u * f)) with (tq * f + u * (tq * f)) in K1 by ring.
    replace (tq * (w + u * f)) with (tq * w + u * (tq * f)) in K2 by ring.
    assert (K3 : u * (tq * w) <= u * (tq * f + u * (tq * f))) by (apply qmult_le_l; assumption).
    replace (tq * f * (B 2 - 1)) with (u * (tq * f) + u * (tq * f + u * (tq * f))) by (simpl; ring).
    split; qlra.
  Qed.
  Lemma share_le q T tq : 0 <= q -> 0 < T -> 0 <= tq -> R (tq * R (q / T)) * T <= tq * q * B 2.
  Proof.
    intros Q0 T0 Tq. destruct (share_near q T tq Q0 T0 Tq) as [H _].
    pose proof (qmult_le_r T _ _ (Qclt_le_weak _ _ T0) H) as K.
    replace ((tq * (q / T) + tq * (q / T) * (B 2 - 1)) * T) with (tq * q * B 2) in K; [exact K|].
    field. intro Z. rewrite Z in T0. qlra.
  Qed.

  (** the shares of one transaction *)
  Variable A : adder R.
  Lemma shares_near (rs : df) tq : rs <> [] -> (forall x, In x rs -> 0 < qty x /\ machine R (qty x)) -> 0 <= tq ->
    B (length rs) <= qf 3 2 ->
    near (qsumf (fun x => R (tq * R (qty x / A (map qty rs)))) rs) tq (qnat (3 * length rs + 5) * u * tq).
  Proof.
    pose proof (u_nonneg R u Hrel) as U. intros Hne Hr Tq HB.
    set (T := A (map qty rs)). set (Q := qsumf qty rs). set (k := length rs) in *.
    assert (Pm : forall z, In z (map qty rs) -> 0 <= z /\ machine R z).
    { intros z Hz. apply in_map_iff in Hz. destruct Hz as (x & <- & Hx). destruct (Hr x Hx). split; [qlra | assumption]. }
    assert (Q0 : 0 < Q).
    { unfold Q. destruct rs as [|x rs']; [congruence|]. rewrite qsumf_cons. destruct (Hr x (or_introl eq_refl)) as [P _].
      assert (0 <= qsumf qty rs') by (apply qsumf_nonneg; intros y Hy; destruct (Hr y (or_intror Hy)); qlra). qlra. }
    assert (K1 : (1 <= k)%nat) by (unfold k; destruct rs; [congruence | simpl; lia]).
    destruct (sums_err R u Hrel _ _ (asum_ok R A (map qty rs)) Pm) as [T1 T2].
    change (qsum (map qty rs)) with Q in T1, T2. change (asum R A (map qty rs)) with T in T1, T2. rewrite map_length in T1, T2. fold k in T1, T2.
    pose proof (B_mono R u Hrel (k - 1) k ltac:(lia)) as Bm. pose proof (B_mono R u Hrel 1 k K1) as B1. simpl in B1. rewrite Qcmult_1_r in B1.
    pose proof (B_lin R u Hrel k) as BL. pose proof (B_ge1 R u Hrel (k - 1)) as Bg.
    assert (D : qf 3 2 = 1 + qf 1 2) by (apply Qc_is_canon; reflexivity).
    assert (Hh : qf 1 2 + qf 1 2 = 1) by (apply Qc_is_canon; reflexivity).
    assert (Dq : (B (k - 1) - 1) * Q <= qf 1 2 * Q) by (apply qmult_le_r; qlra).
    assert (TQ : Q <= T + T) by (assert (qf 1 2 * Q + qf 1 2 * Q = Q) by (replace (qf 1 2 * Q + qf 1 2 * Q) with ((qf 1 2 + qf 1 2) * Q) by ring; rewrite Hh; ring); qlra).
    assert (T0 : 0 < T) by qlra.
    assert (TN : T <> 0) by (intro Z; rewrite Z in T0; qlra).
    (* the sum of the shares against tq Q / T *)
    assert (S1 : near (qsumf (fun x => R (tq * R (qty x / T))) rs) (qsumf (fun x => tq * (qty x / T)) rs) (qsumf (fun x => tq * (qty x / T) * (B 2 - 1)) rs)).
    { clear - Hr Tq T0 Hrel. clearbody T. induction rs as [|x rs IH]; [rewrite !qsumf_nil; split; qlra|]. rewrite !qsumf_cons. apply near_plus.
      - destruct (Hr x (or_introl eq_refl)) as [P _]. apply share_near; [qlra | exact T0 | exact Tq].
      - apply IH. intros; apply Hr; right; assumption. }
    assert (E1 : qsumf (fun x => tq * (qty x / T)) rs = tq * (Q / T)).
    { rewrite qsumf_scale. f_equal. unfold Qcdiv. rewrite qsumf_scale_r. reflexivity. }
    rewrite qsumf_scale_r, E1 in S1.
    set (g := Q / T) in *. assert (Eg : g * T = Q) by (unfold g; field; exact TN).
    assert (G0 : 0 <= g) by (unfold g, Qcdiv; apply qmult_nonneg; [qlra | apply Qclt_le_weak, AllocFacts.qinv_pos, T0]).
    assert (G2 : g <= 1 + 1).
    { apply (Qcmult_lt_0_le_reg_r _ _ T T0). rewrite Eg. replace ((1 + 1) * T) with (T + T) by ring. exact TQ. }
    set (e := B (k - 1) - 1) in *.
    assert (N1 : near g 1 (e * g)).
    { split; apply (Qcmult_lt_0_le_reg_r _ _ T T0).
      - replace ((1 + e * g) * T) with (T + e * (g * T)) by ring. rewrite Eg. exact T2.
      - replace ((g + e * g) * T) with (g * T + e * (g * T)) by ring. rewrite Eg, Qcmult_1_l. exact T1. }
    clearbody g. clear T1 T2 TQ Dq Eg.
    assert (U2 : u <= qf 1 2) by qlra.
    assert (UU : u * u <= u * qf 1 2) by (apply qmult_le_l; assumption).
    assert (B2 : B 2 - 1 = u + u + u * u) by (simpl; ring).
    assert (Kp : 0 <= qnat k) by (pose proof (qnat_pos k K1); qlra).
    assert (Le : e <= qnat k * (u * qf 3 2)).
    { assert (e <= B k - 1) by (unfold e; qlra). assert (qnat k * (u * B k) <= qnat k * (u * qf 3 2)) by (apply qmult_le_l; [exact Kp | apply qmult_le_l; assumption]). qlra. }
    assert (E0 : 0 <= e) by (unfold e; qlra). clearbody e.
    assert (X1 : g * (B 2 - 1) <= (1 + 1) * (u + u + u * qf 1 2)).
    { rewrite B2. assert (g * (u + u + u * u) <= (1 + 1) * (u + u + u * u)).
      { apply qmult_le_r; [|exact G2]. assert (0 <= u * u) by (apply qmult_nonneg; assumption). qlra. }
      assert ((1 + 1) * (u + u + u * u) <= (1 + 1) * (u + u + u * qf 1 2)) by (apply qmult_le_l; qlra). qlra. }
    assert (X2 : e * g <= qnat k * (u * qf 3 2) * (1 + 1)).
    { assert (e * g <= e * (1 + 1)) by (apply qmult_le_l; assumption).
      assert (e * (1 + 1) <= qnat k * (u * qf 3 2) * (1 + 1)) by (apply qmult_le_r; qlra). qlra. }
    assert (Ek : qnat (3 * k + 5) = qnat k + qnat k + qnat k + 1 + 1 + 1 + 1 + 1).
    { replace (3 * k + 5)%nat with (Datatypes.S (Datatypes.S (Datatypes.S (Datatypes.S (Datatypes.S (k + k + k)))))) by lia. rewrite !qnat_S.
      unfold qnat. rewrite !Nat2Z.inj_add, !qz_plus. reflexivity. }
    assert (Y1 : tq * (g * (B 2 - 1)) + tq * (e * g) <= qnat (3 * k + 5) * u * tq).
    { assert (tq * (g * (B 2 - 1) + e * g) <= tq * ((1 + 1) * (u + u + u * qf 1 2) + qnat k * (u * qf 3 2) * (1 + 1))) by (apply qmult_le_l; [exact Tq | qlra]).
      replace ((1 + 1) * (u + u + u * qf 1 2) + qnat k * (u * qf 3 2) * (1 + 1)) with (qnat (3 * k + 5) * u) in H.
      2:{ rewrite Ek, D. replace ((1 + 1) * (u + u + u * qf 1 2) + qnat k * (u * (1 + qf 1 2)) * (1 + 1))
            with (u + u + u + u + u * (qf 1 2 + qf 1 2) + qnat k * u * (1 + 1 + (qf 1 2 + qf 1 2))) by ring. rewrite Hh. ring. }
      replace (tq * (g * (B 2 - 1)) + tq * (e * g)) with (tq * (g * (B 2 - 1) + e * g)) by ring.
      replace (qnat (3 * k + 5) * u * tq) with (tq * (qnat (3 * k + 5) * u)) by ring. exact H. }
    assert (N2 : near (tq * g) tq (tq * (e * g))).
    { destruct N1 as [N1 N1']. split.
      - pose proof (qmult_le_l _ _ _ Tq N1) as K. replace (tq * (1 + e * g)) with (tq + tq * (e * g)) in K by ring. exact K.
      - pose proof (qmult_le_l _ _ _ Tq N1') as K. replace (tq * (g + e * g)) with (tq * g + tq * (e * g)) in K by ring. rewrite Qcmult_1_r in K. exact K. }
    replace (tq * g * (B 2 - 1)) with (tq * (g * (B 2 - 1))) in S1 by ring.
    exact (near_weaken _ _ _ _ (near_trans _ _ _ _ _ S1 N2) Y1).
  Qed.
End ErrorR.
