(** The fees of MUDA in rounded arithmetic. *)
From Verif Require Import QcTac Num NumFacts ModelBase ModelCurves ModelHuang ModelMuda ModelRound ListFacts StoreFacts
  Spec SpecTrade SpecMuda SpecRound FillFacts CurveFacts IntersectFacts TradeFacts Sorter MudaSide MudaHalf MudaSolve MudaFacts MudaErrors
  MergeFacts UpdateFacts RoundFacts RoundHuang RoundError RoundMuda RoundStats.

(** ** Filling a slightly different quantity *)
Section Fills.
  Context {A : Type}.
  Variable q : A -> Qc.
  Lemma fill_cap h Q X : (forall x, In x X -> 0 <= q x) -> 0 <= Q -> fillsum q h Q X = fillsum q h (qmin Q (qsumf q X)) X.
  Proof.
    intros H H0. destruct (qmin_case Q (qsumf q X)) as [[-> _]|[-> L]]; [reflexivity|].
    rewrite !fill_all; auto; apply Qcle_refl.
  Qed.
  Lemma fill_mono h X : (forall x, In x X -> 0 <= q x) -> (forall x, In x X -> 0 <= h x) ->
    forall Q Q', 0 <= Q -> Q <= Q' -> fillsum q h Q X <= fillsum q h Q' X.
  Proof.
    intros H0 H1. induction X as [|x X IH]; intros Q Q' HQ L; cbn [fillsum]; [qlra|].
    assert (Hx : 0 <= q x) by (apply H0; left; reflexivity). assert (Gx : 0 <= h x) by (apply H1; left; reflexivity).
    set (m := qmin (q x) Q). set (m' := qmin (q x) Q').
    assert (M : 0 <= m' - m /\ m <= Q /\ Q - m <= Q' - m').
    { unfold m, m'. destruct (qmin_case (q x) Q) as [[-> ?]|[-> ?]], (qmin_case (q x) Q') as [[-> ?]|[-> ?]]; repeat split; qlra. }
    destruct M as (M1 & M2 & M3).
    specialize (IH (fun y Hy => H0 y (or_intror Hy)) (fun y Hy => H1 y (or_intror Hy)) (Q - m) (Q' - m') ltac:(qlra) M3).
    pose proof (qmult_nonneg _ _ Gx M1) as M4. replace (h x * (m' - m)) with (h x * m' - h x * m) in M4 by ring. qlra.
  Qed.
  Lemma fill_near h c X Q Q' e : (forall x, In x X -> 0 <= q x) -> (forall x, In x X -> 0 <= h x /\ h x <= c) -> 0 <= c ->
    0 <= Q -> 0 <= Q' -> near Q Q' e -> near (fillsum q h Q X) (fillsum q h Q' X) (e * c).
  Proof.
    assert (G : forall Q Q' e, (forall x, In x X -> 0 <= q x) -> (forall x, In x X -> 0 <= h x /\ h x <= c) -> 0 <= c ->
      0 <= Q -> 0 <= Q' -> Q <= Q' + e -> 0 <= e -> fillsum q h Q X <= fillsum q h Q' X + e * c).
    { clear. intros Q Q' e H0 H1 Hc Q0 Q0' L E. pose proof (qmult_nonneg _ _ E Hc) as EC.
      destruct (Qclt_le_dec Q Q') as [T|T].
      - pose proof (fill_mono h X H0 (fun x Hx => proj1 (H1 x Hx)) Q Q' Q0 ltac:(qlra)). qlra.
      - pose proof (fill_lip q h c X H0 H1 Hc Q (Q - Q') ltac:(qlra) ltac:(qlra)) as F.
        replace (Q - (Q - Q')) with Q' in F by ring.
        pose proof (qmult_le_r _ _ _ Hc (ltac:(qlra) : Q - Q' <= e)). qlra. }
    intros H0 H1 Hc Q0 Q0' [N1 N2]. split; apply G; auto; qlra.
  Qed.
  (** another quantity of one row *)
  Lemma fill_row h c X r r' Y Q e : (forall x, In x (X ++ r :: r' :: Y) -> 0 <= q x) -> (forall x, In x (r :: Y) -> 0 <= h x /\ h x <= c) -> 0 <= c ->
    h r' = h r -> 0 <= Q -> near (q r) (q r') e -> near (fillsum q h Q (X ++ r :: Y)) (fillsum q h Q (X ++ r' :: Y)) (e * c).
  Proof.
    intros H0 H1 Hc Eh. revert Q. induction X as [|x X IH]; intros Q Q0 N; cbn [app fillsum].
    - assert (Hr : 0 <= q r) by (apply H0; left; reflexivity). assert (Hr' : 0 <= q r') by (apply H0; right; left; reflexivity).
      destruct (H1 r (or_introl eq_refl)) as [G0 G1]. rewrite Eh.
      set (m := qmin (q r) Q). set (m' := qmin (q r') Q).
      assert (M : (m <= m' -> m' - m <= e) /\ (m' <= m -> m - m' <= e) /\ m <= Q /\ m' <= Q).
      { destruct N. unfold m, m'. destruct (qmin_case (q r) Q) as [[-> ?]|[-> ?]], (qmin_case (q r') Q) as [[-> ?]|[-> ?]]; repeat split; intros; qlra. }
      destruct M as (M1 & M2 & M3 & M4).
      assert (Ys : forall x, In x Y -> 0 <= q x) by (intros x Hx; apply H0; right; right; exact Hx).
      assert (Yh : forall x, In x Y -> 0 <= h x /\ h x <= c) by (intros x Hx; apply H1; right; exact Hx).
      destruct (Qclt_le_dec m m') as [T|T].
      + specialize (M1 ltac:(qlra)).
        pose proof (fill_mono h Y Ys (fun x Hx => proj1 (Yh x Hx)) (Q - m') (Q - m) ltac:(qlra) ltac:(qlra)) as F1.
        pose proof (fill_lip q h c Y Ys Yh Hc (Q - m) (m' - m) ltac:(qlra) ltac:(qlra)) as F2. replace (Q - m - (m' - m)) with (Q - m') in F2 by ring.
        pose proof (qmult_le_r _ _ _ Hc M1) as F3.
        pose proof (qmult_le_r _ _ _ (ltac:(qlra) : 0 <= m' - m) G1) as F4. pose proof (qmult_nonneg _ _ G0 (ltac:(qlra) : 0 <= m' - m)) as F5.
        replace ((m' - m) * c) with (c * (m' - m)) in * by ring.
        replace (h r * (m' - m)) with (h r * m' - h r * m) in * by ring. split; qlra.
      + specialize (M2 ltac:(qlra)).
        pose proof (fill_mono h Y Ys (fun x Hx => proj1 (Yh x Hx)) (Q - m) (Q - m') ltac:(qlra) ltac:(qlra)) as F1.
        pose proof (fill_lip q h c Y Ys Yh Hc (Q - m') (m - m') ltac:(qlra) ltac:(qlra)) as F2. replace (Q - m' - (m - m')) with (Q - m) in F2 by ring.
        pose proof (qmult_le_r _ _ _ Hc M2) as F3.
        pose proof (qmult_le_r _ _ _ (ltac:(qlra) : 0 <= m - m') G1) as F4. pose proof (qmult_nonneg _ _ G0 (ltac:(qlra) : 0 <= m - m')) as F5.
        replace ((m - m') * c) with (c * (m - m')) in * by ring.
        replace (h r * (m - m')) with (h r * m - h r * m') in * by ring. split; qlra.
    - pose proof (qmin_r (q x) Q) as Mx.
      specialize (IH (fun y Hy => H0 y (or_intror Hy)) (Q - qmin (q x) Q) ltac:(qlra) N).
      destruct IH as [I1 I2]. split; qlra.
  Qed.
  Lemma fill_zero_tail h Q X Y : (forall y, In y Y -> h y = 0) -> fillsum q h Q (X ++ Y) = fillsum q h Q X.
  Proof.
    intro H. revert Q. induction X as [|x X IH]; intro Q; cbn [app fillsum]; [apply fill_zero_h, H|]. rewrite IH. reflexivity.
  Qed.
  Lemma fill_plus h k Q X : fillsum q (fun x => h x + k x) Q X = fillsum q h Q X + fillsum q k Q X.
  Proof. revert Q. induction X as [|x X IH]; intro Q; cbn [fillsum]; [ring|]. rewrite IH. ring. Qed.
  Lemma fill_sub h Q X Y : (forall x, In x (X ++ Y) -> 0 <= q x) -> (forall x, In x (X ++ Y) -> 0 <= h x) -> 0 <= Q ->
    fillsum q h Q X <= fillsum q h Q (X ++ Y).
  Proof.
    revert Q. induction X as [|x X IH]; intros Q H0 H1 HQ; cbn [app fillsum].
    - apply fill_nonneg; auto.
    - pose proof (qmin_r (q x) Q). specialize (IH (Q - qmin (q x) Q) (fun y Hy => H0 y (or_intror Hy)) (fun y Hy => H1 y (or_intror Hy)) ltac:(qlra)). qlra.
  Qed.
  Lemma fill_le h c Q X : (forall x, In x X -> 0 <= q x) -> (forall x, In x X -> 0 <= h x /\ h x <= c) -> 0 <= c -> 0 <= Q -> fillsum q h Q X <= c * qsumf q X.
  Proof.
    intros H0 H1 Hc HQ. rewrite fill_cap by auto.
    assert (T : 0 <= qsumf q X) by (apply qsumf_nonneg, H0).
    pose proof (fill_mono h X H0 (fun x Hx => proj1 (H1 x Hx)) (qmin Q (qsumf q X)) (qsumf q X) (qmin_glb _ _ _ HQ T) (qmin_r _ _)) as F.
    rewrite (fill_all q h (qsumf q X)) in F by (auto; apply Qcle_refl).
    assert (qsumf (fun x => h x * q x) X <= c * qsumf q X); [|qlra].
    rewrite <- qsumf_scale. apply qsumf_le. intros x Hx. apply qmult_le_r; [apply H0, Hx | apply H1, Hx].
  Qed.
End Fills.

(** ** The position of the marginal element *)
Section Position.
  Variables (R : rounding) (A : adder R) (n : nat).
  Hypothesis Hseq : forall l, (length l <= n)%nat -> A l = seq_sum R l.
  Variable u : Qc.
  Hypothesis Hrel : rel_error R u.
  Notation B k := ((1 + u) ^ k).
  Variables (l : list Qc) (Q : Qc).
  Hypothesis Hl : forall x, In x l -> 0 <= x /\ machine R x.
  Hypothesis Hne : l <> [].
  Hypothesis Hlen : (length l <= n)%nat.
  Hypothesis HQ : 0 < Q.
  Definition pos_r : nat := if qltb Q (A l) then argmax_bool (map (fun c => qleb Q c) (cumsum_r R l)) else (length l - 1)%nat.

  Lemma pos_cases : exists x, nth_error l pos_r = Some x /\ (pos_r < length l)%nat /\ seq_sum R (firstn pos_r l) <= Q /\
    (Q <= R (seq_sum R (firstn pos_r l) + x) \/ qsum (firstn pos_r l) + x = qsum l /\ seq_sum R l <= Q).
  Proof.
    unfold pos_r. rewrite Hseq by exact Hlen. destruct (qlt_spec Q (seq_sum R l)) as [T|T].
    - destruct (cumsum_first R l 0 Q HQ (ltac:(unfold seq_sum in T; qlra))) as (K1 & K2 & K3). fold (cumsum_r R l) in K1, K2, K3.
      set (k := argmax_bool _) in *. destruct (nth_error l k) as [x|] eqn:E; [|apply nth_error_None in E; lia].
      exists x. split; [reflexivity|]. split; [exact K1|]. change (seq_sum R (firstn k l) < Q) in K2. change (Q <= seq_sum R (firstn (Datatypes.S k) l)) in K3.
      split; [qlra|]. left. rewrite (firstn_split _ _ x E), seq_snoc in K3. exact K3.
    - assert (Ln : (length l - 1 < length l)%nat) by (destruct l; [congruence | simpl; lia]).
      destruct (nth_error l (length l - 1)) as [x|] eqn:E; [|apply nth_error_None in E; lia].
      exists x. split; [reflexivity|]. split; [exact Ln|].
      assert (El : l = firstn (length l - 1) l ++ [x]).
      { rewrite <- (firstn_split _ _ x E). rewrite firstn_all2 by lia. reflexivity. }
      assert (M : seq_sum R (firstn (length l - 1) l) <= seq_sum R l).
      { rewrite El at 3. apply seq_mono. rewrite <- El. exact Hl. }
      split; [qlra|]. right. split; [|exact T]. rewrite El at 3. rewrite qsum_app. simpl. ring.
  Qed.

  Lemma pos_fill : exists x, nth_error l pos_r = Some x /\ (pos_r < length l)%nat /\ 0 <= R (Q - A (firstn pos_r l)) /\
    let m := qsum (firstn pos_r l) + qmin x (R (Q - A (firstn pos_r l))) in
    m <= qsum l /\ near m (qmin Q (qsum l)) (qnat (n + 1) * (u * B n) * qsum l).
  Proof.
    pose proof (u_nonneg R u Hrel) as U. pose proof (B_ge1 R u Hrel n) as Bn.
    destruct pos_cases as (x & E & Lk & K1 & K2). set (k := pos_r) in *. exists x. split; [exact E|]. split; [exact Lk|].
    assert (Lf : (length (firstn k l) <= n)%nat) by (rewrite firstn_length; lia).
    rewrite Hseq by exact Lf. set (s := seq_sum R (firstn k l)) in *. set (t := qsum (firstn k l)) in *. set (T := qsum l) in *.
    assert (Hf : forall y, In y (firstn k l) -> 0 <= y /\ machine R y).
    { intros y Hy. apply Hl. rewrite <- (firstn_skipn k l). apply in_or_app. left; exact Hy. }
    assert (Hx : 0 <= x /\ machine R x) by (apply Hl; eapply nth_error_In, E).
    assert (Tt : t + x <= T).
    { unfold T, t. rewrite (split_at l k x E) at 2. rewrite qsum_app. change (qsum (x :: skipn (Datatypes.S k) l)) with (x + qsum (skipn (Datatypes.S k) l)).
      assert (0 <= qsum (skipn (Datatypes.S k) l)); [|qlra]. apply qsum_nonneg'. intros y Hy. apply Hl.
      rewrite <- (firstn_skipn (Datatypes.S k) l). apply in_or_app. right; exact Hy. }
    assert (T0 : 0 <= t) by (apply qsum_nonneg'; intros; apply Hf; assumption).
    assert (R0 : 0 <= R (Q - s)) by (apply rnd_nonneg; qlra). split; [exact R0|].
    destruct Hx as [X0 Xm].
    set (D := qnat n * (u * B n)).
    assert (D0 : 0 <= D).
    { unfold D. apply qmult_nonneg; [|apply qmult_nonneg; [exact U | qlra]]. destruct n; [rewrite qnat_0; qlra|]. pose proof (qnat_pos (Datatypes.S n0) ltac:(lia)). qlra. }
    assert (ED : qnat (n + 1) * (u * B n) * T = D * T + u * B n * T) by (rewrite Nat.add_1_r, qnat_S; unfold D; ring).
    assert (UT : u * T <= u * B n * T).
    { apply qmult_le_r; [qlra|]. pose proof (qmult_le_l _ _ _ U Bn) as M. rewrite Qcmult_1_r in M. exact M. }
    assert (UX : u * x <= u * T) by (apply qmult_le_l; [exact U | qlra]).
    assert (UT0 : 0 <= u * T) by (apply qmult_nonneg; [exact U | qlra]).
    (* the rounded partial sums *)
    pose proof (sums_near R u Hrel _ _ n (seq_sum_ok R (firstn k l)) Hf Lf) as [N1 N2]. fold s t D in N1, N2.
    pose proof (sums_near R u Hrel _ _ n (seq_sum_ok R l) Hl Hlen) as [N3 N4]. fold T D in N3, N4.
    assert (Dt : D * t <= D * T) by (apply qmult_le_l; [exact D0 | qlra]).
    assert (DT : 0 <= D * T) by (apply qmult_nonneg; [exact D0 | qlra]).
    destruct (rnd_near_pos R u Hrel (Q - s) ltac:(qlra)) as [R1 R2].
    cbv zeta. rewrite ED.
    assert (CC : qmin x (R (Q - s)) = x /\ x <= R (Q - s) \/ qmin x (R (Q - s)) = R (Q - s) /\ R (Q - s) < x).
    { unfold qmin. destruct (qle_spec x (R (Q - s))); [left | right]; split; auto. }
    destruct CC as [[-> C]|[-> C]].
    - (* the whole element *)
      split; [exact Tt|].
      assert (Up : x - (Q - s) <= u * x).
      { pose proof (qmult_nonneg _ _ U X0) as UX0. destruct (Qclt_le_dec x (Q - s)) as [G|G]; [qlra|].
        pose proof (qmult_le_l _ _ _ U G). qlra. }
      split.
      + destruct (qmin_case Q T) as [[-> _]|[-> _]]; qlra.
      + destruct K2 as [K2|[K2 _]].
        * (* Q <= R (s + x) *)
          pose proof (qmin_l Q T) as ML. pose proof (qmin_r Q T) as MR.
          assert (S0 : 0 <= s) by (apply (sums_nonneg R _ _ (seq_sum_ok R (firstn k l))); intros; apply Hf; assumption).
          assert (En : near (R (s + x)) (t + x) (D * T)).
          { assert (Ef : firstn (Datatypes.S k) l = firstn k l ++ [x]) by (apply firstn_split, E).
            assert (Hf' : forall y, In y (firstn (Datatypes.S k) l) -> 0 <= y /\ machine R y).
            { intros y Hy. apply Hl. rewrite <- (firstn_skipn (Datatypes.S k) l). apply in_or_app. left; exact Hy. }
            pose proof (sums_near R u Hrel _ _ n (seq_sum_ok R (firstn (Datatypes.S k) l)) Hf' ltac:(rewrite firstn_length; lia)) as N.
            rewrite Ef, seq_snoc, qsum_app in N. fold s t D in N. replace (t + qsum [x]) with (t + x) in N by (simpl; ring).
            apply (near_weaken _ _ _ _ N). apply qmult_le_l; [exact D0 | exact Tt]. }
          destruct En as [E1 E2]. qlra.
        * rewrite K2. pose proof (qmin_r Q T). qlra.
    - (* a part of it *)
      assert (Qs : Q - s <= x).
      { destruct (Qclt_le_dec x (Q - s)) as [G|G]; [|exact G]. exfalso.
        pose proof (rnd_ge R x (Q - s) Xm ltac:(qlra)) as G'. qlra. }
      assert (UQ : u * (Q - s) <= u * x) by (apply qmult_le_l; assumption).
      split; [qlra|]. split.
      + destruct (qmin_case Q T) as [[-> _]|[-> _]]; qlra.
      + pose proof (qmin_l Q T). qlra.
  Qed.
End Position.
