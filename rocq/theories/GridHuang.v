(** Huang's auction on data on which a rounding makes no error: the same bids trade at the same prices, and the quantities
    are wrong only by the division of the excess among the bids of the longer side. *)
From Verif Require Import QcTac Num NumFacts ModelBase ModelCurves ModelHuang ModelMuda ModelP2P ModelMarket ModelRound ModelFloat ListFacts MergeFacts Spec
  UpdateFacts HuangFacts RoundFacts RoundError RoundHuang RoundFeeHalf FlipsFacts SpecRound StoreFacts SpecGrid GridFacts GridMuda.

Lemma sub_len q Q : sub_of q Q -> length q = length Q.
Proof. induction 1; cbn [length]; congruence. Qed.

Lemma filter_len {X} f (l : list X) : (length (filter f l) <= length l)%nat.
Proof. induction l as [|x l IH]; cbn [filter length]; [lia|]. destruct (f x); cbn [length]; lia. Qed.

Definition rel_on (R : rounding) (u : Qc) (D : Qc -> Prop) : Prop := 0 <= u /\ forall x, D x -> qabs (R x - x) <= u * qabs x.
Definition div_in (D : Qc -> Prop) (n : nat) (g T : Qc) : Prop := forall z N, on_grid g z -> 0 <= z -> z <= T -> (0 < N <= n)%nat -> D (z / qnat N).
Definition sub_in (R : rounding) (D : Qc -> Prop) (n : nat) (g T : Qc) : Prop :=
  forall x z N, on_grid g x -> 0 <= x -> x <= T -> on_grid g z -> 0 <= z -> z <= T -> (0 < N <= n)%nat -> D (x - R (z / qnat N)).
Lemma somes_le (q : list (option Qc)) : (length (somes q) <= length q)%nat.
Proof. induction q as [|[x|] q IH]; simpl in *; lia. Qed.

Section Ration.
  Variables (gq T u : Qc) (R : rounding) (A : adder R).
  Hypothesis g0 : 0 < gq.
  Hypothesis Nq : no_error R gq T.
  (** the relative error is needed only where the rationing divides and subtracts *)
  Variables (Dom : Qc -> Prop) (n : nat).
  Hypothesis Hu : rel_on R u Dom.
  Hypothesis Hdiv : div_in Dom n gq T.
  Hypothesis Hsub : sub_in R Dom n gq T.
  Hypothesis Tu : T * u < gq.
  Lemma grid_gap x y : on_grid gq x -> on_grid gq y -> x < y -> x + gq <= y.
  Proof.
    intros [a ->] [b ->] L. apply mul_cancel_lt in L; [|exact g0]. apply (proj2 (qz_lt _ _)) in L.
    replace (qz a * gq + gq) with (qz (a + 1) * gq) by (rewrite qz_plus; change (qz 1) with 1; ring).
    apply qmult_le_r; [qlra|]. apply (proj1 (qz_le _ _)). lia.
  Qed.
  Lemma grid_times m x : on_grid gq x -> on_grid gq (x * qnat m).
  Proof. intros [z ->]. exists (z * Z.of_nat m)%Z. rewrite qz_mult. change (qz (Z.of_nat m)) with (qnat m). ring. Qed.
  (** the comparison of a quantity with the share of the excess *)
  Lemma test_free v gap N : (N <= n)%nat -> on_grid gq v -> 0 <= v -> v <= T -> on_grid gq gap -> 0 <= gap -> gap <= T -> qltb v (R (gap / qnat N)) = qltb v (gap / qnat N).
  Proof.
    intros Nn Gv V0 VT Gg G0 GT. destruct N as [|m].
    { rewrite qnat_0. replace (gap / 0) with 0 by (unfold Qcdiv; change (/ 0) with 0; ring). rewrite (Nq 0); [reflexivity | apply grid_0 | rewrite qabs_pos; qlra]. }
    set (N := Datatypes.S m) in *. assert (PN : 0 < qnat N) by (apply qnat_pos; unfold N; lia). assert (NZ : qnat N <> 0) by (intro Z; rewrite Z in PN; qlra).
    assert (E : gap / qnat N * qnat N = gap) by (field; exact NZ). set (s := gap / qnat N) in *.
    assert (S0 : 0 <= s) by (destruct (div_le_self gap N G0 ltac:(unfold N; lia)); assumption).
    destruct (qlt_spec v s) as [L|L].
    - rewrite (proj2 (qltb_lt _ _)); [reflexivity|]. destruct Hu as [U0 Hr]. pose proof (Hr s (Hdiv gap N Gg G0 GT ltac:(unfold N in *; lia))) as K. rewrite (qabs_pos s) in K by exact S0. rewrite (Qcmult_comm u s) in K.
      assert (L' : v * qnat N < s * qnat N) by (apply Qcmult_lt_compat_r; assumption). rewrite E in L'.
      pose proof (grid_gap _ _ (grid_times N v Gv) Gg L') as D.
      assert (M : s * u * qnat N < gq). { replace (s * u * qnat N) with (s * qnat N * u) by ring. rewrite E. pose proof (qmult_le_r u gap T U0 GT). qlra. }
      destruct (Qclt_le_dec v (R s)) as [Y|Y]; [exact Y|]. exfalso.
      assert (K' : s - v <= s * u) by (unfold qabs in K; destruct (qle_spec 0 (R s - s)); qlra).
      apply (qmult_le_r (qnat N)) in K'; [|qlra]. replace ((s - v) * qnat N) with (s * qnat N - v * qnat N) in K' by ring. rewrite E in K'. qlra.
    - rewrite (proj2 (qltb_ge _ _)); [reflexivity|]. apply rnd_le; [|exact L]. apply Nq; [exact Gv | rewrite qabs_pos; assumption].
  Qed.
  Lemma loop_free Q : (length Q <= n)%nat -> (forall x, In x Q -> on_grid gq x /\ 0 <= x /\ x <= T) -> forall fuel q gap N i v,
    sub_of q Q -> N = length (somes q) -> nanargmin q = Some (i, v) -> on_grid gq gap -> 0 <= gap -> gap <= T ->
    uq_loop_r R fuel q gap N i v = uq_loop fuel q gap N i v /\
    forall q' gap' N', uq_loop fuel q gap N i v = Ok (q', gap', N') -> on_grid gq gap' /\ gap' <= T /\ (N' <= N)%nat.
  Proof.
    intros Ln HQ. induction fuel as [|k IH]; intros q gap N i v Hs HN Hm Gg G0 GT; cbn [uq_loop_r uq_loop]; [split; [reflexivity | discriminate]|].
    destruct (nanargmin_some _ _ _ Hm) as [Hi _]. destruct (somes_remove _ _ _ Hi) as [_ El].
    assert (Iv : In v (somes q)) by (apply in_somes; eapply nth_error_In; eauto). destruct (HQ v (somes_sub _ _ _ Hs Iv)) as (Gv & V0 & VT).
    assert (Nn : (N <= n)%nat) by (pose proof (somes_le q); pose proof (sub_len _ _ Hs); lia).
    rewrite (test_free v gap N Nn Gv V0 VT Gg G0 GT). destruct (qlt_spec v (gap / qnat N)) as [L|L].
    2:{ split; [reflexivity|]. intros q' gap' N' E. injection E as <- <- <-. auto. }
    destruct (nanargmin (set_nth i None q)) as [[i1 v1]|] eqn:E1; [|split; [reflexivity | discriminate]].
    destruct (div_le_self gap N G0 ltac:(lia)) as [D0 D1].
    rewrite (Nq (gap - v)) by (try (apply grid_sub; assumption); rewrite qabs_pos by qlra; qlra).
    destruct (IH (set_nth i None q) (gap - v) (N - 1)%nat i1 v1) as [E F]; [apply sub_of_set, Hs | lia | exact E1 | apply grid_sub; assumption | qlra | qlra|].
    split; [exact E|]. intros q' gap' N' E'. destruct (F _ _ _ E') as (F1 & F2 & F3). repeat split; [exact F1 | exact F2 | lia].
  Qed.
  Lemma update_free Q gap : (length Q <= n)%nat -> Q <> [] -> (forall x, In x Q -> on_grid gq x /\ 0 <= x /\ x <= T) -> on_grid gq gap -> 0 <= gap -> gap <= T ->
    update_quantity_r R Q gap = Err ValueError /\ update_quantity Q gap = Err ValueError \/
    exists q' z N, sub_of q' Q /\ (0 < N <= length Q)%nat /\ on_grid gq z /\ 0 <= z /\ z <= T /\ 0 <= z / qnat N /\ (forall x, In x (somes q') -> z / qnat N <= x) /\
      update_quantity Q gap = Ok (map (cut_r exact (z / qnat N)) q') /\ update_quantity_r R Q gap = Ok (map (cut_r R (R (z / qnat N))) q').
  Proof.
    intros Ln Hne HQ Gg G0 GT.
    assert (HR : forall x, In x Q -> 0 <= x /\ machine R x) by (intros x Hx; destruct (HQ x Hx) as (H1 & H2 & H3); split; [exact H2 | apply Nq; [exact H1 | rewrite qabs_pos; assumption]]).
    assert (HE : forall x, In x Q -> 0 <= x /\ machine exact x) by (intros x Hx; split; [apply HQ, Hx | reflexivity]).
    destruct (nanargmin_all Q Hne) as (i & v & Ea).
    destruct (loop_free Q Ln HQ (Datatypes.S (length Q)) (map Some Q) gap (length Q) i v (sub_of_all Q)) as [EL FL]; [rewrite somes_map_Some; reflexivity | exact Ea | exact Gg | exact G0 | exact GT|].
    assert (C : update_quantity_r R Q gap = Err ValueError <-> update_quantity Q gap = Err ValueError).
    { unfold update_quantity_r, update_quantity. rewrite Ea, EL. destruct (uq_loop _ _ _ _ _ _) as [[[q1 g1] N1]|e] eqn:El; cbn [bind]; [|tauto].
      destruct q1 as [|o q1]; cbn [map]; [tauto|]. split; discriminate. }
    destruct (update_r_spec R Q gap Hne HR G0) as [E|(q1 & z1 & N1 & L1 & A1 & A2 & A3 & A4 & A5 & E)]; [left; tauto|].
    destruct (update_r_spec exact Q gap Hne HE G0) as [E'|(q2 & z2 & N2 & L2 & B1 & B2 & B3 & B4 & B5 & E')].
    { rewrite update_exact in E'. left. tauto. }
    rewrite update_exact in E'. rewrite uq_loop_exact in L2. rewrite Ea in L1, L2. cbn [fst snd] in L1, L2. rewrite EL, L2 in L1. injection L1 as <- <- <-.
    destruct (FL _ _ _ L2) as (F1 & F2 & F3). right. exists q2, z2, N2. destruct (div_le_self z2 N2 A4 A2) as [D0 _]. auto 12.
  Qed.
  Lemma cut_close t x z N : t = z / qnat N -> on_grid gq z -> 0 <= z -> z <= T -> (0 < N <= n)%nat -> on_grid gq x -> 0 <= x -> x <= T -> 0 <= t -> t <= x -> qabs (R (x - R t) - (x - t)) <= (u + u) * x.
  Proof.
    intros Et Gz Z0 ZT HN Gx X0 XT T0 Tx. destruct Hu as [U0 Hr]. assert (Mx : R x = x) by (apply Nq; [exact Gx | rewrite qabs_pos; assumption]).
    assert (K0 : 0 <= R t) by (apply rnd_nonneg, T0). assert (K1 : R t <= x) by (apply rnd_le; assumption).
    assert (D1 : Dom t) by (rewrite Et; apply Hdiv; assumption). assert (D2 : Dom (x - R t)) by (rewrite Et; apply Hsub; assumption).
    pose proof (Hr t D1) as E1. pose proof (Hr (x - R t) D2) as E2. rewrite (qabs_pos t) in E1 by exact T0. rewrite (qabs_pos (x - R t)) in E2 by qlra. rewrite Qcmult_comm in E1. rewrite (Qcmult_comm u (x - R t)) in E2.
    assert (M1 : t * u <= x * u) by (apply qmult_le_r; assumption). assert (M2 : (x - R t) * u <= x * u) by (apply qmult_le_r; [exact U0 | qlra]).
    replace ((u + u) * x) with (x * u + x * u) by ring. unfold qabs in *.
    destruct (qle_spec 0 (R t - t)); destruct (qle_spec 0 (R (x - R t) - (x - R t))); destruct (qle_spec 0 (R (x - R t) - (x - t))); qlra.
  Qed.
  Lemma update_close Q gap : (length Q <= n)%nat -> Q <> [] -> (forall x, In x Q -> on_grid gq x /\ 0 <= x /\ x <= T) -> on_grid gq gap -> 0 <= gap -> gap <= T ->
    update_quantity_r R Q gap = Err ValueError /\ update_quantity Q gap = Err ValueError \/
    exists q1 q2, update_quantity_r R Q gap = Ok q1 /\ update_quantity Q gap = Ok q2 /\ length q1 = length Q /\ length q2 = length Q /\
      Forall2 (fun x p => qabs (fst p - snd p) <= (u + u) * x) Q (combine q1 q2).
  Proof.
    intros Ln Hne HQ Gg G0 GT. destruct (update_free Q gap Ln Hne HQ Gg G0 GT) as [E|(q & z & N & A1 & A2 & A3 & A0 & A4 & A5 & A6 & E & E')]; [left; exact E|].
    right. do 2 eexists. split; [exact E'|]. split; [exact E|]. rewrite !map_length. pose proof (sub_len _ _ A1) as Lq.
    split; [exact Lq|]. split; [exact Lq|]. assert (A2' : (0 < N <= n)%nat) by lia. clear Lq A2 Ln E E' Hne. remember (z / qnat N) as t eqn:Et. induction A1 as [|o x q Q Ho A1 IH]; cbn [map combine]; constructor.
    - cbn [fst snd]. destruct (HQ x (or_introl eq_refl)) as (X1 & X2 & X3). destruct Ho as [->| ->]; cbn [cut_r].
      + apply (cut_close t x z N); try assumption. apply A6. left. reflexivity.
      + rewrite qabs_pos by qlra. destruct Hu as [U0 _]. assert (0 <= (u + u) * x) by (apply qmult_nonneg; qlra). qlra.
    - apply IH; [intros; apply HQ; right; assumption|]. intros y Hy. apply A6. cbn [somes]. destruct o; [right; exact Hy | exact Hy].
  Qed.
  (** no difference at all, if the share of the excess is a multiple of a finer step *)
  Lemma update_same g' Q gap : (length Q <= n)%nat -> no_error R g' T -> on_grid g' gq -> (forall N, (0 < N <= length Q)%nat -> on_grid g' (gq / qnat N)) ->
    Q <> [] -> (forall x, In x Q -> on_grid gq x /\ 0 <= x /\ x <= T) -> on_grid gq gap -> 0 <= gap -> gap <= T ->
    update_quantity_r R Q gap = update_quantity Q gap /\ forall Q', update_quantity Q gap = Ok Q' -> forall x, In x Q' -> on_grid g' x /\ 0 <= x.
  Proof.
    intros Ln N' Gf Gd Hne HQ Gg G0 GT. destruct (update_free Q gap Ln Hne HQ Gg G0 GT) as [[-> ->]|(q & z & N & A1 & A2 & A3 & A0 & A4 & A5 & A6 & E & E')]; [split; [reflexivity | discriminate]|].
    rewrite E, E'. set (t := z / qnat N) in *.
    assert (PN : 0 < qnat N) by (apply qnat_pos; lia). assert (NZ : qnat N <> 0) by (intro Z; rewrite Z in PN; qlra).
    assert (Gz : forall x, on_grid gq x -> on_grid g' x) by (intros x [m ->]; destruct Gf as [k ->]; exists (m * k)%Z; rewrite qz_mult; ring).
    assert (Gt : on_grid g' t). { destruct A3 as [m ->]. destruct (Gd N A2) as [k En]. exists (m * k)%Z. unfold t. rewrite qz_mult. rewrite <- Qcmult_assoc, <- En. field. exact NZ. }
    assert (Tt : t <= T). { assert (z0 : 0 <= z) by (replace z with (t * qnat N) by (unfold t; field; exact NZ); apply qmult_nonneg; qlra).
      destruct (div_le_self z N z0 ltac:(lia)). fold t in H0. qlra. }
    assert (Rt : R t = t) by (apply N'; [exact Gt | rewrite qabs_pos; assumption]). rewrite Rt.
    assert (Ex : forall o, In o q -> cut_r R t o = cut_r exact t o /\ on_grid g' (cut_r exact t o) /\ 0 <= cut_r exact t o).
    { intros [x|] Ho; [|split; [reflexivity | split; [apply grid_0 | cbn [cut_r]; qlra]]]. cbn [cut_r]. apply in_somes in Ho. destruct (HQ x (somes_sub _ _ _ A1 Ho)) as (X1 & X2 & X3). pose proof (A6 x Ho).
      change (exact (x - t)) with (x - t). assert (on_grid g' (x - t)) by (apply grid_sub; [apply Gz, X1 | exact Gt]).
      split; [apply N'; [assumption | rewrite qabs_pos by qlra; qlra] | split; [assumption | qlra]]. }
    split; [f_equal; apply map_ext_in; intros o Ho; apply Ex, Ho|]. intros Q' EQ x Hx. injection EQ as <-. apply in_map_iff in Hx. destruct Hx as (o & <- & Ho). apply (Ex o Ho).
  Qed.
End Ration.

Section Auction.
  Variables (gq gp T P u : Qc) (R : rounding) (A : adder R).
  Notation fine := (gridded gq gp T P).
  Hypothesis g0 : 0 < gq.
  Hypothesis Nq : no_error R gq T.
  (** the relative error is needed only where the rationing divides and subtracts *)
  Variables (Dom : Qc -> Prop) (n : nat).
  Hypothesis Hu : rel_on R u Dom.
  Hypothesis Hdiv : div_in Dom n gq T.
  Hypothesis Hsub : sub_in R Dom n gq T.
  Hypothesis Tu : T * u < gq.
  Lemma emit_same d X q p : incl X d -> (forall x, In x d -> 0 <= qty x) -> Forall2 (same_trade u d) (emit X q p) (emit X q p).
  Proof.
    intros I H. unfold emit. assert (J : forall pr, In pr (combine X q) -> In (fst pr) d) by (intros [x y] Hx; apply I; eapply in_combine_l, Hx).
    induction (combine X q) as [|[x y] l IH]; cbn [map]; constructor; [|apply IH; intros; apply J; right; assumption].
    cbn [fst snd]. unfold same_trade. cbn [t_bid t_price t_source t_active t_qty]. do 4 (split; [reflexivity|]). exists x. pose proof (J (x, y) (or_introl eq_refl)) as Jx. cbn [fst] in Jx. split; [exact Jx|]. split; [reflexivity|].
    destruct Hu as [U0 _]. assert (0 <= (u + u) * qty x) by (apply qmult_nonneg; [qlra | apply H, Jx]). rewrite qabs_pos; qlra.
  Qed.
  Lemma emit_close d X p : forall q1 q2, incl X d -> length q1 = length X -> length q2 = length X ->
    Forall2 (fun x p => qabs (fst p - snd p) <= (u + u) * x) (map qty X) (combine q1 q2) -> Forall2 (same_trade u d) (emit X q1 p) (emit X q2 p).
  Proof.
    induction X as [|x X IH]; intros [|a q1] [|b q2] I L1 L2 F; try discriminate; [constructor|]. cbn [map combine] in F. inversion F; subst. cbn [fst snd] in *.
    unfold emit. cbn [combine map]. constructor.
    - cbn [fst snd]. unfold same_trade. cbn [t_bid t_price t_source t_active t_qty]. do 4 (split; [reflexivity|]). exists x. split; [apply I; left; reflexivity|]. split; [reflexivity | assumption].
    - apply IH; [intros y Hy; apply I; right; exact Hy | cbn in L1; lia | cbn in L2; lia | assumption].
  Qed.
  Lemma emit_n (X : df) q p : length q = length X -> length (emit X q p) = length X.
  Proof. intro H. unfold emit. rewrite map_length, combine_length. lia. Qed.
  Lemma fine_parts d : fine d -> forall x, In x (map qty d) -> on_grid gq x /\ 0 <= x /\ x <= T.
  Proof.
    intros F x Hx. destruct (fine_okq gq gp T P d F) as [H L]. destruct (H x Hx) as [H1 H2]. repeat split; [exact H1 | exact H2|].
    assert (x <= qsumf (fun y => y) (map qty d)) by (apply (qsumf_in_le (fun y => y)); [intros; apply H; assumption | exact Hx]). unfold qsumf in H0. rewrite map_id in H0. qlra.
  Qed.
  Lemma side_close d X p gap : (length X <= n)%nat -> incl X d -> fine X -> on_grid gq gap -> 0 <= gap -> gap <= T ->
    update_quantity_r R (map qty X) gap = Err ValueError /\ update_quantity (map qty X) gap = Err ValueError \/
    exists q1 q2, update_quantity_r R (map qty X) gap = Ok q1 /\ update_quantity (map qty X) gap = Ok q2 /\ length q1 = length X /\ length q2 = length X /\
      Forall2 (same_trade u d) (emit X q1 p) (emit X q2 p).
  Proof.
    intros Ln I F Gg G0 GT. destruct X as [|x X]; [left; split; reflexivity|]. set (Y := x :: X) in *.
    destruct (update_close gq T u R g0 Nq Dom n Hu Hdiv Hsub Tu (map qty Y) gap ltac:(rewrite map_length; exact Ln) ltac:(discriminate) (fine_parts Y F) Gg G0 GT) as [E|(q1 & q2 & E1 & E2 & L1 & L2 & C)]; [left; exact E|].
    rewrite map_length in L1, L2. right. exists q1, q2. repeat (split; [assumption|]). apply emit_close; assumption.
  Qed.
  Lemma side_same g' (X : df) gap : (length X <= n)%nat -> no_error R g' T -> on_grid g' gq -> (forall N, (0 < N <= length X)%nat -> on_grid g' (gq / qnat N)) ->
    fine X -> on_grid gq gap -> 0 <= gap -> gap <= T -> update_quantity_r R (map qty X) gap = update_quantity (map qty X) gap /\
    forall Q', update_quantity (map qty X) gap = Ok Q' -> forall x, In x Q' -> on_grid g' x /\ 0 <= x.
  Proof.
    intros Ln N' Gf Gd F Gg G0 GT. destruct X as [|x X]; [split; [reflexivity | discriminate]|].
    apply (update_same gq T u R g0 Nq Dom n Hu Hdiv Hsub Tu g'); try assumption; [rewrite map_length; exact Ln | rewrite map_length; exact Gd | discriminate | apply fine_parts, F].
  Qed.
  (** the excess of one side is computed without error *)
  Lemma gap_free X Y : fine X -> fine Y -> let gap := A (map qty X) - A (map qty Y) in
    R gap = qsum (map qty X) - qsum (map qty Y) /\ gap = qsum (map qty X) - qsum (map qty Y) /\ on_grid gq gap /\ qabs gap <= T.
  Proof.
    intros FX FY. pose proof (fine_okq _ _ _ _ _ FX) as OX. pose proof (fine_okq _ _ _ _ _ FY) as OY. cbv zeta. rewrite (okq_sum gq T R A Nq _ OX), (okq_sum gq T R A Nq _ OY).
    assert (G : on_grid gq (qsum (map qty X) - qsum (map qty Y))) by (apply grid_sub; apply (okq_grid gq T); assumption).
    pose proof (okq_nonneg gq T _ OX). pose proof (okq_nonneg gq T _ OY). pose proof (proj2 OX). pose proof (proj2 OY).
    assert (L : qabs (qsum (map qty X) - qsum (map qty Y)) <= T) by (unfold qabs; destruct (qle_spec 0 (qsum (map qty X) - qsum (map qty Y))); qlra).
    split; [apply Nq; assumption | auto].
  Qed.
  Lemma firstn_incl {X} k (l d : list X) : incl l d -> incl (firstn k l) d.
  Proof. intros H x Hx. apply H. eapply In_firstn, Hx. Qed.
  Theorem huang_close S d : (length d <= n)%nat -> fine d -> same_result u d (huang_auction_r R A S d) (huang_auction S d).
  Proof.
    intros Ln F. unfold huang_auction_r, huang_auction. rewrite (demand_free gq gp T P R Nq S d F), (supply_free gq gp T P R Nq S d F).
    pose proof (intersect_r_indices R (fst (demand_curve_from_bids S d)) (fst (supply_curve_from_bids S d)) (qf 1 2)) as EI.
    destruct (intersect_stepwise_r _ _ _ _) as [[[[q' b'] s'] v']|]; destruct (intersect_stepwise _ _ _) as [[[[q b] s] v]|]; try destruct EI;
      [destruct H0 as [-> ->] | reflexivity]. cbn [bind].
    destruct b as [b|]; [|cbn; repeat constructor]. destruct s as [s|]; [|cbn; repeat constructor].
    destruct (nth_error (fst (supply_curve_from_bids S d)) s) as [[? [ps| | |]]|];
      destruct (nth_error (fst (demand_curve_from_bids S d)) b) as [[? [pb| | |]]|]; try reflexivity.
    set (X := firstn b (s_desc S (buyers d))). set (Y := firstn s (s_asc S (sellers d))).
    assert (FX : fine X) by (apply fine_firstn, fine_desc, fine_buyers, F). assert (FY : fine Y) by (apply fine_firstn, fine_asc, fine_sellers, F).
    assert (LX : (length X <= length d)%nat).
    { unfold X. rewrite firstn_length, (Permutation_length (s_desc_perm S (buyers d))). pose proof (filter_len buying d). unfold buyers. lia. }
    assert (LY : (length Y <= length d)%nat).
    { unfold Y. rewrite firstn_length, (Permutation_length (s_asc_perm S (sellers d))). pose proof (filter_len (fun r => negb (buying r)) d). unfold sellers. lia. }
    assert (IX : incl X d) by (apply firstn_incl; intros x Hx; apply (Permutation_in _ (s_desc_perm S _)) in Hx; apply filter_In in Hx; apply Hx).
    assert (IY : incl Y d) by (apply firstn_incl; intros x Hx; apply (Permutation_in _ (s_asc_perm S _)) in Hx; apply filter_In in Hx; apply Hx).
    assert (H0 : forall x, In x d -> 0 <= qty x) by (intros x Hx; apply (proj1 F x Hx)).
    destruct (Nat.ltb 0 b && Nat.ltb 0 s); [|cbn; repeat constructor].
    destruct (gap_free Y X FY FX) as (-> & E & G & L). cbv zeta in E, G, L. rewrite E in G, L. set (gap := qsum (map qty Y) - qsum (map qty X)) in *.
    destruct (qlt_spec 0 gap) as [Lg|Lg].
    - rewrite qabs_pos in L by qlra. destruct (side_close d Y ps gap ltac:(lia) IY FY G ltac:(qlra) L) as [[-> ->]|(q1 & q2 & -> & -> & L1 & L2 & C)]; [reflexivity|]. cbn [bind].
      cbn [same_result]. split; [rewrite !add_all_n; rewrite !emit_n by (try assumption; apply map_length); reflexivity|]. split; [|auto].
      rewrite !add_all_trans. cbn [tm_init tm_trans app]. apply Forall2_app; [exact C | apply emit_same; assumption].
    - rewrite qabs_neg in L by qlra. assert (G' : on_grid gq (- gap)) by (apply grid_opp, G).
      destruct (side_close d X pb (- gap) ltac:(lia) IX FX G' ltac:(qlra) L) as [[-> ->]|(q1 & q2 & -> & -> & L1 & L2 & C)]; [reflexivity|]. cbn [bind].
      cbn [same_result]. split; [rewrite !add_all_n; rewrite !emit_n by (try assumption; apply map_length); reflexivity|]. split; [|auto].
      rewrite !add_all_trans. cbn [tm_init tm_trans app]. apply Forall2_app; [apply emit_same; assumption | exact C].
  Qed.
  (** no difference at all, if the step of the quantities can be divided by the numbers of bids *)
  Lemma part_sum g' X gap Q' : no_error R g' T -> fine X -> 0 <= gap -> gap <= qsum (map qty X) -> update_quantity (map qty X) gap = Ok Q' ->
    (forall x, In x Q' -> on_grid g' x /\ 0 <= x) -> A Q' = qsum Q'.
  Proof.
    intros N' F G0 G1 E H. destruct X as [|x X]; [discriminate|]. destruct (update_quantity_spec (map qty (x :: X)) gap ltac:(discriminate) G0 G1) as (t & _ & E' & Z).
    rewrite E' in E. injection E as <-. apply (okq_sum g' T R A N'). split; [exact H|]. apply Qcle_trans with (qsum (map qty (x :: X)) - gap); [rewrite <- Z; apply Qcle_refl|]. pose proof (proj2 (fine_okq _ _ _ _ _ F)) as K. clear - K G0. qlra.
  Qed.
  Theorem huang_same g' S d : (length d <= n)%nat -> no_error R g' T -> on_grid g' gq -> (forall N, (0 < N <= length d)%nat -> on_grid g' (gq / qnat N)) -> fine d ->
    huang_auction_r R A S d = huang_auction S d.
  Proof.
    intros Ln N' Gf Gd F. unfold huang_auction_r, huang_auction. rewrite (demand_free gq gp T P R Nq S d F), (supply_free gq gp T P R Nq S d F).
    pose proof (intersect_r_indices R (fst (demand_curve_from_bids S d)) (fst (supply_curve_from_bids S d)) (qf 1 2)) as EI.
    destruct (intersect_stepwise_r _ _ _ _) as [[[[q' b'] s'] v']|]; destruct (intersect_stepwise _ _ _) as [[[[q b] s] v]|]; try destruct EI;
      [destruct H0 as [-> ->] | reflexivity]. cbn [bind].
    destruct b as [b|]; [|reflexivity]. destruct s as [s|]; [|reflexivity].
    destruct (nth_error (fst (supply_curve_from_bids S d)) s) as [[? [ps| | |]]|];
      destruct (nth_error (fst (demand_curve_from_bids S d)) b) as [[? [pb| | |]]|]; try reflexivity.
    set (X := firstn b (s_desc S (buyers d))). set (Y := firstn s (s_asc S (sellers d))).
    assert (FX : fine X) by (apply fine_firstn, fine_desc, fine_buyers, F). assert (FY : fine Y) by (apply fine_firstn, fine_asc, fine_sellers, F).
    assert (LX : (length X <= length d)%nat).
    { unfold X. rewrite firstn_length, (Permutation_length (s_desc_perm S (buyers d))). pose proof (filter_len buying d). unfold buyers. lia. }
    assert (LY : (length Y <= length d)%nat).
    { unfold Y. rewrite firstn_length, (Permutation_length (s_asc_perm S (sellers d))). pose proof (filter_len (fun r => negb (buying r)) d). unfold sellers. lia. }
    assert (OX := okq_sum gq T R A Nq _ (fine_okq _ _ _ _ _ FX)).
    destruct (Nat.ltb 0 b && Nat.ltb 0 s); [|rewrite OX; reflexivity].
    destruct (gap_free Y X FY FX) as (-> & E & G & L). cbv zeta in E, G, L. rewrite E in G, L. set (gap := qsum (map qty Y) - qsum (map qty X)) in *.
    pose proof (okq_nonneg gq T _ (fine_okq _ _ _ _ _ FX)) as X0. pose proof (okq_nonneg gq T _ (fine_okq _ _ _ _ _ FY)) as Y0.
    destruct (qlt_spec 0 gap) as [Lg|Lg].
    - rewrite qabs_pos in L by qlra. destruct (side_same g' Y gap ltac:(lia) N' Gf ltac:(intros; apply Gd; lia) FY G ltac:(qlra) L) as [-> _].
      destruct (update_quantity _ _); [|reflexivity]. cbn [bind]. rewrite OX. reflexivity.
    - rewrite qabs_neg in L by qlra. assert (G' : on_grid gq (- gap)) by (apply grid_opp, G).
      destruct (side_same g' X (- gap) ltac:(lia) N' Gf ltac:(intros; apply Gd; lia) FX G' ltac:(qlra) L) as [-> HQ].
      destruct (update_quantity (map qty X) (- gap)) as [Q'|] eqn:EQ; [|reflexivity]. cbn [bind].
      rewrite (part_sum g' X (- gap) Q' N' FX ltac:(qlra) ltac:(unfold gap; qlra) EQ (HQ Q' eq_refl)). reflexivity.
  Qed.
End Auction.
