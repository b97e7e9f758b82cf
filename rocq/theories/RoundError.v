(** How far apart the two sides of the rounded Huang auction can be. *)
From Verif Require Import QcTac Num NumFacts ModelBase ModelCurves ModelHuang ModelRound ListFacts Spec SpecTrade SpecRound
  CurveFacts UpdateFacts TradeFacts Sorter HuangFacts MergeFacts RoundFacts RoundHuang.

(** [x] and [y] differ by at most [e] *)
Definition near (x y e : Qc) : Prop := x <= y + e /\ y <= x + e.
Lemma near_trans x y z e f : near x y e -> near y z f -> near x z (e + f).
Proof. intros [] []. split; qlra. Qed.
Lemma near_sym x y e : near x y e -> near y x e.
Proof. intros []. split; assumption. Qed.
Lemma near_weaken x y e f : near x y e -> e <= f -> near x y f.
Proof. intros []. split; qlra. Qed.
Lemma near_plus a b c d e f : near a b e -> near c d f -> near (a + c) (b + d) (e + f).
Proof. intros [] []. split; qlra. Qed.
Lemma near_minus a b c d e f : near a b e -> near c d f -> near (a - c) (b - d) (e + f).
Proof. intros [] []. split; qlra. Qed.
Lemma near_opp a b e : near a b e -> near (- a) (- b) e.
Proof. intros []. split; qlra. Qed.
Lemma near_abs x y e : near x y e -> qabs (x - y) <= e.
Proof. intros []. unfold qabs. destruct (qle_spec 0 (x - y)); qlra. Qed.
Lemma near_self x e : 0 <= e -> near x x e.
Proof. split; qlra. Qed.

Section Error.
  Variables (R : rounding) (u : Qc).
  Hypothesis Hrel : rel_error R u.
  Notation B n := ((1 + u) ^ n).
  Lemma u_nonneg : 0 <= u.
  Proof. apply Hrel. Qed.
  Lemma rnd_near x : near (R x) x (u * qabs x).
  Proof. destruct Hrel as [_ H]. specialize (H x). unfold qabs at 1 in H. destruct (qle_spec 0 (R x - x)); split; qlra. Qed.
  Lemma rnd_near_pos x : 0 <= x -> near (R x) x (u * x).
  Proof. intro H. pose proof (rnd_near x) as N. rewrite (qabs_pos x H) in N. exact N. Qed.

  Lemma B_S n : B (Datatypes.S n) = (1 + u) * B n.
  Proof. reflexivity. Qed.
  Lemma B_ge1 n : 1 <= B n.
  Proof.
    pose proof u_nonneg as U. induction n as [|n IH]; [simpl; qlra|]. rewrite B_S.
    assert (P : 0 <= u * B n) by (apply qmult_nonneg; qlra). replace ((1 + u) * B n) with (B n + u * B n) by ring. qlra.
  Qed.
  Lemma B_step n : B n <= B (Datatypes.S n).
  Proof.
    pose proof u_nonneg as U. pose proof (B_ge1 n) as G. rewrite B_S.
    assert (P : 0 <= u * B n) by (apply qmult_nonneg; qlra). replace ((1 + u) * B n) with (B n + u * B n) by ring. qlra.
  Qed.
  Lemma B_mono n m : (n <= m)%nat -> B n <= B m.
  Proof. induction 1 as [|m H IH]; [qlra|]. pose proof (B_step m). qlra. Qed.
  (** (1 + u)^n - 1 is at most n u (1 + u)^n *)
  Lemma B_lin n : B n - 1 <= qnat n * (u * B n).
  Proof.
    pose proof u_nonneg as U. induction n as [|n IH].
    - rewrite qnat_0. change (B 0) with 1. rewrite Qcmult_0_l. qlra.
    - rewrite qnat_S. pose proof (B_step n) as St. rewrite B_S in *. pose proof (B_ge1 n) as G.
      assert (P : u * B n <= u * ((1 + u) * B n)) by (apply qmult_le_l; assumption).
      assert (K : 0 <= qnat n).
      { destruct n; [rewrite qnat_0; qlra|]. pose proof (qnat_pos (Datatypes.S n) ltac:(lia)). qlra. }
      pose proof (qmult_le_l _ _ _ K P) as P2.
      replace ((qnat n + 1) * (u * ((1 + u) * B n))) with (qnat n * (u * ((1 + u) * B n)) + u * ((1 + u) * B n)) by ring.
      replace ((1 + u) * B n - 1) with (B n - 1 + u * B n) by ring. qlra.
  Qed.

  (** ** Sums *)
  Lemma qsum_nonneg' l : (forall x, In x l -> 0 <= x) -> 0 <= qsum l.
  Proof.
    induction l as [|x l IH]; intro H; [simpl; qlra|]. change (qsum (x :: l)) with (x + qsum l).
    assert (0 <= x) by (apply H; left; reflexivity). assert (0 <= qsum l) by (apply IH; intros; apply H; right; assumption). qlra.
  Qed.
  Lemma sums_err l s : sums_to R l s -> (forall x, In x l -> 0 <= x /\ machine R x) ->
    near s (qsum l) ((B (length l - 1) - 1) * qsum l).
  Proof.
    pose proof u_nonneg as U.
    induction 1 as [|x|l1 l2 a b S1 IH1 S2 IH2|l l' s P _ IH]; intro H.
    - change (near 0 0 ((1 - 1) * 0)). rewrite Qcmult_0_r. split; qlra.
    - change (near x (x + 0) ((1 - 1) * (x + 0))). replace ((1 - 1) * (x + 0)) with 0 by ring. split; qlra.
    - assert (H1 : forall x, In x l1 -> 0 <= x /\ machine R x) by (intros; apply H, in_or_app; left; assumption).
      assert (H2 : forall x, In x l2 -> 0 <= x /\ machine R x) by (intros; apply H, in_or_app; right; assumption).
      specialize (IH1 H1). specialize (IH2 H2).
      assert (Ma : machine R a) by (apply (sums_machine R _ _ S1); intros; apply H1; assumption).
      assert (Mb : machine R b) by (apply (sums_machine R _ _ S2); intros; apply H2; assumption).
      rewrite qsum_app.
      destruct l1 as [|x1 l1].
      { assert (Ea : a = 0) by (apply (sums_zero R _ _ S1); intros ? []). subst a. simpl app.
        replace (0 + b) with b by ring. rewrite Mb. replace (qsum [] + qsum l2) with (qsum l2) by (simpl; ring). exact IH2. }
      destruct l2 as [|x2 l2].
      { assert (Eb : b = 0) by (apply (sums_zero R _ _ S2); intros ? []). subst b. rewrite app_nil_r.
        replace (a + 0) with a by ring. rewrite Ma. replace (qsum (x1 :: l1) + qsum []) with (qsum (x1 :: l1)) by (simpl; ring). exact IH1. }
      set (m1 := x1 :: l1) in *. set (m2 := x2 :: l2) in *.
      assert (A0 : 0 <= a) by (apply (sums_nonneg R _ _ S1); intros; apply H1; assumption).
      assert (B0 : 0 <= b) by (apply (sums_nonneg R _ _ S2); intros; apply H2; assumption).
      assert (Q1 : 0 <= qsum m1) by (apply qsum_nonneg'; intros; apply H1; assumption).
      assert (Q2 : 0 <= qsum m2) by (apply qsum_nonneg'; intros; apply H2; assumption).
      set (k := (length m1 + length m2 - 2)%nat).
      assert (L1 : (length m1 - 1 <= k)%nat) by (unfold k, m1, m2; simpl; lia).
      assert (L2 : (length m2 - 1 <= k)%nat) by (unfold k, m1, m2; simpl; lia).
      assert (E1 : (B (length m1 - 1) - 1) * qsum m1 <= (B k - 1) * qsum m1) by (apply qmult_le_r; [exact Q1|]; pose proof (B_mono _ _ L1); qlra).
      assert (E2 : (B (length m2 - 1) - 1) * qsum m2 <= (B k - 1) * qsum m2) by (apply qmult_le_r; [exact Q2|]; pose proof (B_mono _ _ L2); qlra).
      pose proof (near_plus _ _ _ _ _ _ IH1 IH2) as N.
      assert (N' : near (a + b) (qsum m1 + qsum m2) ((B k - 1) * (qsum m1 + qsum m2))).
      { apply (near_weaken _ _ _ _ N). replace ((B k - 1) * (qsum m1 + qsum m2)) with ((B k - 1) * qsum m1 + (B k - 1) * qsum m2) by ring. qlra. }
      pose proof (near_trans _ _ _ _ _ (rnd_near_pos (a + b) ltac:(qlra)) N') as N2. apply (near_weaken _ _ _ _ N2).
      replace (length (m1 ++ m2) - 1)%nat with (Datatypes.S k) by (rewrite app_length; unfold k, m1, m2; simpl; lia).
      rewrite B_S. set (W := qsum m1 + qsum m2) in *.
      assert (P : u * (a + b) <= u * (B k * W)).
      { apply qmult_le_l; [exact U|]. destruct N' as [N' _]. replace (B k * W) with (W + (B k - 1) * W) by ring. exact N'. }
      replace (((1 + u) * B k - 1) * W) with ((B k - 1) * W + u * (B k * W)) by ring. qlra.
    - rewrite <- (Permutation_length P), <- (qsum_perm _ _ P). apply IH.
      intros x Hx. apply H. apply (Permutation_in _ P), Hx.
  Qed.
  Lemma sums_near l s n : sums_to R l s -> (forall x, In x l -> 0 <= x /\ machine R x) -> (length l <= n)%nat ->
    near s (qsum l) (qnat n * (u * B n) * qsum l).
  Proof.
    intros S H L. apply (near_weaken _ _ _ _ (sums_err l s S H)). apply qmult_le_r.
    - apply qsum_nonneg'. intros; apply H; assumption.
    - pose proof (B_mono (length l - 1) n ltac:(lia)). pose proof (B_lin n). qlra.
  Qed.

  (** ** Rationing *)
  Lemma somes_le q Q : sub_of q Q -> (forall x, In x Q -> 0 <= x) -> qsum (somes q) <= qsum Q /\ 0 <= qsum (somes q).
  Proof.
    induction 1 as [|o x q Q Ho H IH]; intro P; [split; simpl; qlra|].
    assert (0 <= x) by (apply P; left; reflexivity). destruct IH as [I1 I2]; [intros; apply P; right; assumption|].
    change (qsum (x :: Q)) with (x + qsum Q). destruct Ho as [->| ->]; simpl somes.
    - change (qsum (x :: somes q)) with (x + qsum (somes q)). split; qlra.
    - split; qlra.
  Qed.
  (** the gap left is what was not removed, up to one rounding per removal *)
  Lemma loop_r_err Q g0 fuel : forall q gap N i v q' gap' N',
    sub_of q Q -> (forall x, In x Q -> 0 <= x /\ machine R x) -> N = length (somes q) -> (N <= length Q)%nat ->
    nanargmin q = Some (i, v) -> 0 <= gap -> machine R gap -> gap <= g0 ->
    near gap (g0 - (qsum Q - qsum (somes q))) (qnat (length Q - N) * (u * g0)) ->
    uq_loop_r R fuel q gap N i v = Ok (q', gap', N') ->
    near gap' (g0 - (qsum Q - qsum (somes q'))) (qnat (length Q - N') * (u * g0)) /\ gap' <= g0.
  Proof.
    pose proof u_nonneg as U.
    induction fuel as [|fuel IH]; intros q gap N i v q' gap' N' Hs HQ HN HL Hm Hg Mg Lg Nr E; [discriminate|].
    cbn [uq_loop_r] in E. destruct (nanargmin_some _ _ _ Hm) as [Hi Hmin]. destruct (somes_remove _ _ _ Hi) as [Es El].
    assert (Iv : In v (somes q)) by (apply in_somes; eapply nth_error_In; eauto).
    destruct (HQ v (somes_sub _ _ _ Hs Iv)) as [V0 Vm].
    destruct (qlt_spec v (R (gap / qnat N))) as [L|L].
    - destruct (nanargmin (set_nth i None q)) as [[i1 v1]|] eqn:E1; [|discriminate].
      assert (Gv : v <= gap).
      { destruct (Qclt_le_dec gap v) as [G|G]; [|exact G]. exfalso.
        destruct (div_le_self gap N Hg ltac:(lia)) as [D0 D1].
        pose proof (rnd_le R (gap / qnat N) v Vm ltac:(qlra)). qlra. }
      refine (IH _ _ _ _ _ _ _ _ (sub_of_set _ _ _ Hs) HQ _ _ E1 _ _ _ _ E).
      + lia.
      + lia.
      + apply rnd_nonneg. qlra.
      + apply rnd_machine.
      + pose proof (rnd_le R (gap - v) gap Mg ltac:(qlra)). qlra.
      + pose proof (rnd_near_pos (gap - v) ltac:(qlra)) as N1.
        assert (P : u * (gap - v) <= u * g0) by (apply qmult_le_l; [exact U | qlra]).
        rewrite Es. replace (length Q - (N - 1))%nat with (Datatypes.S (length Q - N)) by lia.
        rewrite qnat_S. destruct N1 as [N1 N2], Nr as [N3 N4].
        replace ((qnat (length Q - N) + 1) * (u * g0)) with (qnat (length Q - N) * (u * g0) + u * g0) by ring.
        split; qlra.
    - injection E as <- <- <-. split; assumption.
  Qed.
  Lemma cut_sum t q : (forall x, In x (somes q) -> t <= x /\ 0 <= t) ->
    near (qsum (map (cut_r R t) q)) (qsum (somes q) - qnat (length (somes q)) * t) (u * (qsum (somes q) - qnat (length (somes q)) * t)).
  Proof.
    induction q as [|o q IH]; intro H.
    - change (near 0 (0 - qnat 0 * t) (u * (0 - qnat 0 * t))). rewrite qnat_0, Qcmult_0_l. replace (u * (0 - 0)) with 0 by ring. split; qlra.
    - cbn [map]. change (qsum (?a :: ?l)) with (a + qsum l). destruct o as [x|]; cbn [cut_r somes].
      + destruct IH as [I1 I2]; [intros; apply H; right; assumption|]. destruct (H x (or_introl eq_refl)) as [X T].
        destruct (rnd_near_pos (x - t) ltac:(qlra)) as [N1 N2].
        change (qsum (somes (Some x :: q))) with (x + qsum (somes q)). change (length (somes (Some x :: q))) with (Datatypes.S (length (somes q))). rewrite qnat_S.
        set (k := qnat (length (somes q))) in *.
        replace (x + qsum (somes q) - (k + 1) * t) with ((x - t) + (qsum (somes q) - k * t)) by ring.
        replace (u * ((x - t) + (qsum (somes q) - k * t))) with (u * (x - t) + u * (qsum (somes q) - k * t)) by ring.
        set (w := qsum (somes q) - k * t) in *. clearbody w. generalize dependent (u * w). generalize dependent (u * (x - t)).
        intros; split; qlra.
      + change (somes (None :: q)) with (somes q). destruct IH as [I1 I2]; [intros; apply H; assumption|]. split; qlra.
  Qed.
  Lemma nanargmin_all Q : Q <> [] -> exists i v, nanargmin (map Some Q) = Some (i, v).
  Proof.
    intro H. destruct (nanargmin (map Some Q)) as [[i v]|] eqn:E; [eauto|].
    apply nanargmin_none in E. rewrite somes_map_Some in E. congruence.
  Qed.
  Lemma update_r_err Q gap Q' : Q <> [] -> (forall x, In x Q -> 0 <= x /\ machine R x) -> 0 <= gap -> machine R gap ->
    update_quantity_r R Q gap = Ok Q' ->
    near (qsum Q') (qsum Q - gap) (u * (qnat (length Q) * gap + qsum Q)).
  Proof.
    pose proof u_nonneg as U. intros Hne HQ Hg Mg E.
    destruct (update_r_spec R Q gap Hne HQ Hg) as [Er|(q' & gap' & N' & El & A1 & A2 & A3 & A4 & A5 & E')]; [congruence|].
    rewrite E' in E. injection E as <-.
    destruct (nanargmin_all Q Hne) as (i & v & Ea). rewrite Ea in El. cbn [fst snd] in El.
    assert (L0 : length (somes (map Some Q)) = length Q) by (rewrite somes_map_Some; reflexivity).
    assert (N0 : near gap (gap - (qsum Q - qsum (somes (map Some Q)))) (qnat (length Q - length Q) * (u * gap))).
    { rewrite Nat.sub_diag, qnat_0, somes_map_Some, Qcmult_0_l. split; qlra. }
    destruct (loop_r_err Q gap _ _ _ _ _ _ _ _ _ (sub_of_all Q) HQ (eq_sym L0) (Nat.le_refl _) Ea Hg Mg (Qcle_refl _) N0 El) as [N1 G1].
    set (t := R (gap' / qnat N')) in *.
    pose proof (qnat_pos N' A2) as PN. assert (NZ : qnat N' <> 0) by (intro Z; rewrite Z in PN; qlra).
    destruct (div_le_self gap' N' A4 A2) as [D0 D1].
    assert (T0 : 0 <= t) by (apply rnd_nonneg; exact D0).
    assert (Nt : near (qnat N' * t) gap' (u * gap')).
    { destruct (rnd_near_pos (gap' / qnat N') D0) as [K1 K2]. fold t in K1, K2.
      assert (Dv : qnat N' * (gap' / qnat N') = gap') by (field; exact NZ).
      pose proof (qmult_le_l (qnat N') _ _ ltac:(qlra) K1) as M1. pose proof (qmult_le_l (qnat N') _ _ ltac:(qlra) K2) as M2.
      replace (qnat N' * (gap' / qnat N' + u * (gap' / qnat N'))) with (qnat N' * (gap' / qnat N') + u * (qnat N' * (gap' / qnat N'))) in M1 by ring.
      replace (qnat N' * (t + u * (gap' / qnat N'))) with (qnat N' * t + u * (qnat N' * (gap' / qnat N'))) in M2 by ring.
      rewrite Dv in *. split; assumption. }
    assert (Cs := cut_sum t q'). rewrite <- A3 in Cs. specialize (Cs ltac:(intros x Hx; split; [apply A5, Hx | exact T0])).
    destruct (somes_le q' Q A1) as [Sl S0]; [intros; apply HQ; assumption|].
    assert (LN : (N' <= length Q)%nat).
    { rewrite A3. clear -A1. induction A1 as [|o x q Q Ho H IH]; simpl; [lia|]. destruct o; simpl; lia. }
    assert (Kn : qnat (length Q - N') + 1 <= qnat (length Q)).
    { rewrite <- qnat_S. unfold qnat. apply (proj1 (qz_le _ _)). lia. }
    assert (Tn : 0 <= qnat N' * t) by (apply qmult_nonneg; [qlra | exact T0]).
    assert (P1 : u * (qsum (somes q') - qnat N' * t) <= u * qsum Q) by (apply qmult_le_l; [exact U | qlra]).
    assert (P2 : u * gap' <= u * gap) by (apply qmult_le_l; assumption).
    assert (U2 : 0 <= u * gap) by (apply qmult_nonneg; assumption).
    pose proof (qmult_le_r _ _ _ U2 Kn) as P3.
    replace ((qnat (length Q - N') + 1) * (u * gap)) with (qnat (length Q - N') * (u * gap) + u * gap) in P3 by ring.
    replace (u * (qnat (length Q) * gap + qsum Q)) with (qnat (length Q) * (u * gap) + u * qsum Q) by ring.
    destruct Nt as [T1 T2], N1 as [N1 N2], Cs as [C1 C2]. split; qlra.
  Qed.

  (** ** The auction *)
  Variables (A : adder R) (S : sorter) (d : df).
  Hypothesis Hq : qty_nonneg d.
  Hypothesis Hp : price_nonneg d.
  Hypothesis Hm : machine_qty R d.
  Hypothesis Hu : labels_unique d.
  Notation n := (length d).
  Notation W := (qsumf qty d).

  Lemma side_sums_le B1 rb B2 L1 rs L2 : s_desc S (buyers d) = B1 ++ rb :: B2 -> s_asc S (sellers d) = L1 ++ rs :: L2 ->
    qsum (map qty B1) + qsum (map qty L1) <= W /\ (length B1 + length L1 <= n)%nat.
  Proof.
    intros EB EL.
    assert (P : Permutation d ((B1 ++ rb :: B2) ++ (L1 ++ rs :: L2))).
    { rewrite <- EB, <- EL, (s_desc_perm S (buyers d)), (s_asc_perm S (sellers d)). unfold buyers, sellers.
      clear. induction d as [|r d' IH]; [constructor|]. simpl. destruct (buying r); simpl.
      - constructor. exact IH.
      - apply Permutation_cons_app. exact IH. }
    assert (Q : forall r, In r ((B1 ++ rb :: B2) ++ (L1 ++ rs :: L2)) -> 0 <= qty r).
    { intros r Hr. apply Hq. apply (Permutation_in _ (Permutation_sym P)), Hr. }
    split.
    - rewrite (qsumf_perm qty _ _ P). rewrite !qsumf_app, !qsumf_cons. unfold qsumf.
      assert (forall X, (forall r, In r X -> In r ((B1 ++ rb :: B2) ++ (L1 ++ rs :: L2))) -> 0 <= qsum (map qty X)) as Z.
      { intros X H. apply qsum_nonneg'. intros x Hx. apply in_map_iff in Hx. destruct Hx as (r & <- & Hr). apply Q, H, Hr. }
      assert (0 <= qsum (map qty B2)) by (apply Z; intros; rewrite !in_app_iff; simpl; tauto).
      assert (0 <= qsum (map qty L2)) by (apply Z; intros; rewrite !in_app_iff; simpl; tauto).
      assert (0 <= qty rb) by (apply Q; rewrite !in_app_iff; simpl; tauto).
      assert (0 <= qty rs) by (apply Q; rewrite !in_app_iff; simpl; tauto). qlra.
    - rewrite (Permutation_length P), !app_length. simpl. lia.
  Qed.

  Notation e := (u * B n).
  (** one side of length [m] and sum [X] is rationed against the other, of sum [Y] *)
  Lemma ration_err Q Y sx sy qs : Q <> [] -> (forall x, In x Q -> 0 <= x /\ machine R x) ->
    0 <= Y -> 0 <= sy -> machine R sy -> (length Q <= n)%nat -> qsum Q + Y <= W ->
    sums_to R Q sx -> near sx (qsum Q) (qnat n * e * qsum Q) -> near sy Y (qnat n * e * Y) ->
    0 <= R (sx - sy) -> sx <= B n * W -> sy <= B n * W ->
    update_quantity_r R Q (R (sx - sy)) = Ok qs ->
    near (qsum qs) Y (qnat (2 * n + 2) * e * W).
  Proof.
    pose proof u_nonneg as U. intros Hne HQ Y0 Sy0 My Ln LW Sx Nx Ny G Bx By E.
    assert (X0 : 0 <= qsum Q) by (apply qsum_nonneg'; intros; apply HQ; assumption).
    assert (Mx : machine R sx) by (apply (sums_machine R _ _ Sx); intros; apply HQ; assumption).
    set (g := R (sx - sy)) in *.
    assert (Gle : g <= sx) by (apply rnd_le; [exact Mx | qlra]).
    pose proof (update_r_err Q g qs Hne HQ G (rnd_machine R _) E) as NU.
    pose proof (B_ge1 n) as B1'.
    assert (W0 : 0 <= W) by qlra.
    assert (GB : g <= B n * W) by qlra.
    assert (QN : 0 <= qnat (length Q)) by (destruct Q; [congruence|]; pose proof (qnat_pos (length (q :: Q)) ltac:(simpl; lia)); qlra).
    assert (Qn : qnat (length Q) <= qnat n) by (unfold qnat; apply (proj1 (qz_le _ _)); lia).
    assert (Pn : 0 <= qnat n) by qlra.
    (* rationing *)
    assert (K1 : u * (qnat (length Q) * g + qsum Q) <= qnat n * e * W + u * qsum Q).
    { pose proof (qmult_le_r _ _ _ G Qn) as M1. pose proof (qmult_le_l _ _ _ Pn GB) as M2.
      pose proof (qmult_le_l u (qnat (length Q) * g) (qnat n * (B n * W)) U ltac:(qlra)) as M3.
      replace (qnat n * e * W) with (u * (qnat n * (B n * W))) by ring.
      replace (u * (qnat (length Q) * g + qsum Q)) with (u * (qnat (length Q) * g) + u * qsum Q) by ring. qlra. }
    (* the gap *)
    assert (Da : qabs (sx - sy) <= B n * W).
    { assert (0 <= sx) by (apply (sums_nonneg R _ _ Sx); intros; apply HQ; assumption).
      unfold qabs. destruct (qle_spec 0 (sx - sy)); qlra. }
    pose proof (near_weaken _ _ _ _ (rnd_near (sx - sy)) (qmult_le_l _ _ _ U Da)) as Ng. fold g in Ng.
    pose proof (near_minus _ _ _ _ _ _ Nx Ny) as Nd.
    assert (K2 : u * qsum Q <= e * W).
    { replace (e * W) with (u * (B n * W)) by ring. apply qmult_le_l; [exact U|].
      pose proof (qmult_le_r _ _ _ W0 B1') as M. rewrite Qcmult_1_l in M. qlra. }
    assert (Pe : 0 <= qnat n * e) by (apply qmult_nonneg; [exact Pn | apply qmult_nonneg; [exact U | qlra]]).
    pose proof (qmult_le_l _ _ _ Pe LW) as K3.
    replace (qnat n * e * (qsum Q + Y)) with (qnat n * e * qsum Q + qnat n * e * Y) in K3 by ring.
    replace (u * (B n * W)) with (e * W) in Ng by ring.
    assert (E2 : qnat (2 * n + 2) = qnat n + qnat n + 1 + 1).
    { replace (2 * n + 2)%nat with (Datatypes.S (Datatypes.S (n + n))) by lia. rewrite !qnat_S.
      unfold qnat. rewrite Nat2Z.inj_add, qz_plus. reflexivity. }
    rewrite E2. replace ((qnat n + qnat n + 1 + 1) * e * W) with (qnat n * e * W + qnat n * e * W + e * W + e * W) by ring.
    destruct NU as [U1 U2], Ng as [G1 G2], Nd as [D1 D2]. split; qlra.
  Qed.
  Theorem huang_r_balance tm ex : huang_auction_r R A S d = Ok (tm, ex) ->
    qabs (bought d (tm_trans tm) - sold d (tm_trans tm)) <= qnat (2 * n + 2) * e * W.
  Proof.
    pose proof u_nonneg as U. intro E. pose proof (huang_r_cases R A S d Hq Hp Hm) as C. rewrite E in C.
    pose proof (B_ge1 n) as B1'.
    assert (W0 : 0 <= W) by (apply qsumf_nonneg; exact Hq).
    assert (K0 : 0 <= qnat (2 * n + 2) * e * W).
    { apply qmult_nonneg; [|exact W0]. apply qmult_nonneg; [|apply qmult_nonneg; [exact U | qlra]].
      pose proof (qnat_pos (2 * n + 2) ltac:(lia)). qlra. }
    inversion C as [E1|B1 rb B2 L1 rs L2 qs qb tm' q EB EL Lp D E1|].
    - apply near_abs. change (near 0 0 (qnat (2 * n + 2) * e * W)). apply near_self, K0.
    - subst tm' ex. destruct D as [(_ & ->)|(NB & NL & Rs & Rb & Ca & -> & T)].
      + apply near_abs. change (near 0 0 (qnat (2 * n + 2) * e * W)). apply near_self, K0.
      + destruct (side_sums_le _ _ _ _ _ _ EB EL) as [SW SL].
        assert (QB : forall z, In z (map qty B1) -> 0 <= z /\ machine R z).
        { intros z Hz. apply in_map_iff in Hz. destruct Hz as (y & <- & Hy).
          destruct (buyer_row S d _ _ _ y EB) as [G1 G2]; [apply in_or_app; left; exact Hy|]. split; [apply Hq | apply Hm]; assumption. }
        assert (QL : forall z, In z (map qty L1) -> 0 <= z /\ machine R z).
        { intros z Hz. apply in_map_iff in Hz. destruct Hz as (y & <- & Hy).
          destruct (seller_row S d _ _ _ y EL) as [G1 G2]; [apply in_or_app; left; exact Hy|]. split; [apply Hq | apply Hm]; assumption. }
        assert (Ls : length qs = length L1) by (rewrite (reduced_length _ _ Rs); apply map_length).
        assert (Lb : length qb = length B1) by (rewrite (reduced_length _ _ Rb); apply map_length).
        assert (Nm : near (qsum qb) (qsum qs) (qnat (2 * n + 2) * e * W)).
        { pose proof (asum_ok R A (map qty L1)) as SL1. pose proof (asum_ok R A (map qty B1)) as SB1.
          set (sl := asum R A (map qty L1)) in *. set (sb := asum R A (map qty B1)) in *.
          assert (LB : (length (map qty B1) <= n)%nat) by (rewrite map_length; lia).
          assert (LL : (length (map qty L1) <= n)%nat) by (rewrite map_length; lia).
          assert (XB : 0 <= qsum (map qty B1)) by (apply qsum_nonneg'; intros; apply QB; assumption).
          assert (XL : 0 <= qsum (map qty L1)) by (apply qsum_nonneg'; intros; apply QL; assumption).
          assert (Big : forall l s, sums_to R l s -> (forall x, In x l -> 0 <= x /\ machine R x) -> (length l <= n)%nat ->
            0 <= qsum l -> qsum l <= W -> s <= B n * W).
          { intros l s Sl Hl Ll X0 XW. destruct (sums_err l s Sl Hl) as [K _].
            replace (qsum l + (B (length l - 1) - 1) * qsum l) with (B (length l - 1) * qsum l) in K by ring.
            pose proof (qmult_le_r _ _ _ X0 (B_mono (length l - 1) n ltac:(lia))) as M1.
            pose proof (qmult_le_l (B n) _ _ ltac:(qlra) XW) as M2. qlra. }
          pose proof (sums_near _ _ n SL1 QL LL) as NL1. pose proof (sums_near _ _ n SB1 QB LB) as NB1.
          assert (ML : machine R sl) by (apply (sums_machine R _ _ SL1); intros; apply QL; assumption).
          assert (MB : machine R sb) by (apply (sums_machine R _ _ SB1); intros; apply QB; assumption).
          assert (PL : 0 <= sl) by (apply (sums_nonneg R _ _ SL1); intros; apply QL; assumption).
          assert (PB : 0 <= sb) by (apply (sums_nonneg R _ _ SB1); intros; apply QB; assumption).
          assert (NmB : map qty B1 <> []) by (destruct B1; [congruence | discriminate]).
          assert (NmL : map qty L1 <> []) by (destruct L1; [congruence | discriminate]).
          destruct Ca as [(G & EU & ->)|(G & -> & EU)].
          - apply near_sym. apply (ration_err (map qty L1) _ sl sb qs NmL QL XB PB MB LL ltac:(qlra) SL1 NL1 NB1).
            + qlra.
            + apply (Big _ _ SL1 QL LL XL). qlra.
            + apply (Big _ _ SB1 QB LB XB). qlra.
            + exact EU.
          - apply (ration_err (map qty B1) _ sb sl qb NmB QB XL PL ML LB ltac:(qlra) SB1 NB1 NL1).
            + replace (sb - sl) with (- (sl - sb)) by ring. rewrite rnd_opp. qlra.
            + apply (Big _ _ SB1 QB LB XB). qlra.
            + apply (Big _ _ SL1 QL LL XL). qlra.
            + replace (sb - sl) with (- (sl - sb)) by ring. rewrite rnd_opp. exact EU. }
        rewrite T. unfold trades. rewrite bought_app, sold_app.
        destruct (side_sums false d (emit L1 qs (price rs)) Hu) as [H1 H2].
        { intros t Ht. apply emit_in in Ht. destruct Ht as (r' & z & _ & Hr & ->). exists r'.
          destruct (seller_row S d _ _ _ r' EL) as [G1 G2]; [apply in_or_app; left; exact Hr|]. auto. }
        destruct (side_sums true d (emit B1 qb (price rb)) Hu) as [H3 H4].
        { intros t Ht. apply emit_in in Ht. destruct Ht as (r' & z & _ & Hr & ->). exists r'.
          destruct (buyer_row S d _ _ _ r' EB) as [G1 G2]; [apply in_or_app; left; exact Hr|]. auto. }
        rewrite H1, H2, H3, H4, !emit_sum by assumption. apply near_abs. destruct Nm. split; qlra.
  Qed.
End Error.
