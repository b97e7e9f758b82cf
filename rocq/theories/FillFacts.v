(** Greedy filling of a quantity from an ordered list, and the positions found by cumsum/argmax. *)
From Verif Require Import QcTac Num ModelBase ListFacts.

(** ** [np.argmax(cumsum >= Q)] *)
Lemma argmax_cum_from (l : list Qc) : forall a Q, a < Q -> Q <= a + qsum l ->
  let k := argmax_bool (map (fun c => qleb Q c) (cumsum_from a l)) in
  (k < length l)%nat /\ a + qsum (firstn k l) < Q /\ Q <= a + qsum (firstn (Datatypes.S k) l).
Proof.
  induction l as [|q l IH]; intros a Q H1 H2; [simpl in H2; exfalso; qlra|]. cbn [cumsum_from map]. unfold argmax_bool in *. cbn [first_true].
  destruct (qle_spec Q (a + q)) as [L|L].
  - simpl. split; [lia|]. split; [rewrite Qcplus_0_r; exact H1 | rewrite Qcplus_0_r; exact L].
  - specialize (IH (a + q) Q L). simpl in H2. specialize (IH ltac:(qlra)).
    assert (F : exists k, first_true (map (fun c => qleb Q c) (cumsum_from (a + q) l)) = Some k).
    { clear - L H2. revert a q L H2. induction l as [|x l IHl]; intros a q L H2; [simpl in H2; exfalso; qlra|].
      cbn [cumsum_from map first_true]. destruct (qle_spec Q (a + q + x)) as [L'|L']; [eauto|].
      destruct (IHl (a + q) x L') as (k & E); [simpl in H2; qlra|]. rewrite E. eexists; reflexivity. }
    destruct F as (k & E). rewrite E in *. cbn [option_map] in *. destruct IH as (I1 & I2 & I3).
    split; [simpl; lia|]. cbn [firstn qsum]. split; [qlra|]. cbn [firstn qsum] in I3. qlra.
Qed.
Lemma argmax_cum (l : list Qc) Q : 0 < Q -> Q <= qsum l ->
  let k := argmax_bool (map (fun c => qleb Q c) (cumsum l)) in
  (k < length l)%nat /\ qsum (firstn k l) < Q /\ Q <= qsum (firstn (Datatypes.S k) l).
Proof.
  intros H1 H2. pose proof (argmax_cum_from l 0 Q H1) as H. rewrite Qcplus_0_l in H. specialize (H H2). cbv zeta in H.
  rewrite !Qcplus_0_l in H. exact H.
Qed.
Lemma firstn_split {A} (l : list A) k r : nth_error l k = Some r -> firstn (Datatypes.S k) l = firstn k l ++ [r].
Proof. revert k; induction l as [|a l IH]; intros [|k] H; simpl in *; try discriminate; [congruence|]. f_equal. apply IH, H. Qed.
Lemma split_at {A} (l : list A) k r : nth_error l k = Some r -> l = firstn k l ++ r :: skipn (Datatypes.S k) l.
Proof. revert k; induction l as [|a l IH]; intros [|k] H; simpl in *; try discriminate; [congruence|]. f_equal. apply IH, H. Qed.

(** ** Greedy filling *)
Section Fill.
  Context {A : Type}.
  Variable q : A -> Qc.

  Fixpoint fillsum (h : A -> Qc) (Q : Qc) (X : list A) : Qc :=
    match X with
    | [] => 0
    | x :: X' => h x * qmin (q x) Q + fillsum h (Q - qmin (q x) Q) X'
    end.

  Lemma fill_opp h Q X : fillsum (fun x => - h x) Q X = - fillsum h Q X.
  Proof. revert Q; induction X as [|x X IH]; intro Q; simpl; [ring|]. rewrite IH. ring. Qed.
  Lemma fill_ext h k Q X : (forall x, In x X -> h x = k x) -> fillsum h Q X = fillsum k Q X.
  Proof.
    revert Q; induction X as [|x X IH]; intros Q H; simpl; [reflexivity|].
    rewrite (H x) by (left; reflexivity). rewrite IH by (intros y Hy; apply H; right; exact Hy). reflexivity.
  Qed.
  Lemma fill_zero_h h Q X : (forall x, In x X -> h x = 0) -> fillsum h Q X = 0.
  Proof.
    revert Q; induction X as [|x X IH]; intros Q H; simpl; [reflexivity|].
    rewrite (H x) by (left; reflexivity). rewrite IH by (intros y Hy; apply H; right; exact Hy). ring.
  Qed.
  Lemma fill_zero h X : (forall x, In x X -> 0 <= q x) -> fillsum h 0 X = 0.
  Proof.
    induction X as [|x X IH]; intro H; simpl; [reflexivity|].
    assert (Hx : 0 <= q x) by (apply H; left; reflexivity). assert (E : qmin (q x) 0 = 0) by (destruct (qmin_case (q x) 0) as [[-> ?]|[-> ?]]; qlra).
    rewrite E. replace (0 - 0) with 0 by ring. rewrite IH by (intros y Hy; apply H; right; exact Hy). ring.
  Qed.
  Lemma fill_all h Q X : (forall x, In x X -> 0 <= q x) -> qsumf q X <= Q -> fillsum h Q X = qsumf (fun x => h x * q x) X.
  Proof.
    revert Q; induction X as [|x X IH]; intros Q H0 H; simpl; [reflexivity|]. rewrite qsumf_cons in H.
    assert (Hx : 0 <= q x) by (apply H0; left; reflexivity).
    assert (HX : 0 <= qsumf q X) by (apply qsumf_nonneg; intros y Hy; apply H0; right; exact Hy).
    assert (E : qmin (q x) Q = q x) by (destruct (qmin_case (q x) Q) as [[-> ?]|[-> ?]]; qlra).
    rewrite E, IH; [rewrite qsumf_cons; reflexivity | intros y Hy; apply H0; right; exact Hy | qlra].
  Qed.
  Lemma fill_app h Q X Y : (forall x, In x X -> 0 <= q x) -> qsumf q X <= Q ->
    fillsum h Q (X ++ Y) = qsumf (fun x => h x * q x) X + fillsum h (Q - qsumf q X) Y.
  Proof.
    revert Q; induction X as [|x X IH]; intros Q H0 H; simpl.
    - rewrite !qsumf_nil. replace (Q - 0) with Q by ring. ring.
    - rewrite qsumf_cons in *. assert (Hx : 0 <= q x) by (apply H0; left; reflexivity).
      assert (HX : 0 <= qsumf q X) by (apply qsumf_nonneg; intros y Hy; apply H0; right; exact Hy).
      assert (E : qmin (q x) Q = q x) by (destruct (qmin_case (q x) Q) as [[-> ?]|[-> ?]]; qlra).
      rewrite E, IH; [|intros y Hy; apply H0; right; exact Hy | qlra]. rewrite qsumf_cons.
      replace (Q - q x - qsumf q X) with (Q - (q x + qsumf q X)) by ring. ring.
  Qed.
  (** stops inside [r] *)
  Lemma fill_stop h Q X r Y : (forall x, In x (X ++ r :: Y) -> 0 <= q x) -> qsumf q X <= Q -> Q <= qsumf q X + q r ->
    fillsum h Q (X ++ r :: Y) = qsumf (fun x => h x * q x) X + h r * (Q - qsumf q X).
  Proof.
    intros H0 H1 H2. rewrite fill_app; [|intros x Hx; apply H0, in_or_app; left; exact Hx | exact H1]. cbn [fillsum].
    assert (E : qmin (q r) (Q - qsumf q X) = Q - qsumf q X) by (destruct (qmin_case (q r) (Q - qsumf q X)) as [[-> ?]|[-> ?]]; qlra).
    rewrite E. replace (Q - qsumf q X - (Q - qsumf q X)) with 0 by ring. rewrite fill_zero; [ring|].
    intros x Hx. apply H0, in_or_app. right; right; exact Hx.
  Qed.
  Lemma fill_nonneg h Q X : (forall x, In x X -> 0 <= q x) -> (forall x, In x X -> 0 <= h x) -> 0 <= Q -> 0 <= fillsum h Q X.
  Proof.
    revert Q; induction X as [|x X IH]; intros Q H0 H1 H; simpl; [qlra|].
    assert (Hx : 0 <= q x) by (apply H0; left; reflexivity). assert (Hh : 0 <= h x) by (apply H1; left; reflexivity).
    assert (M : 0 <= qmin (q x) Q) by (apply qmin_glb; assumption). pose proof (qmin_r (q x) Q).
    assert (0 <= fillsum h (Q - qmin (q x) Q) X) by (apply IH; [intros y Hy; apply H0; right; exact Hy | intros y Hy; apply H1; right; exact Hy | qlra]).
    pose proof (qmult_nonneg _ _ Hh M). qlra.
  Qed.
  (** one more unit is worth at most the best remaining gain *)
  Lemma fill_lip h c X : (forall x, In x X -> 0 <= q x) -> (forall x, In x X -> 0 <= h x /\ h x <= c) -> 0 <= c ->
    forall Q e, 0 <= e -> e <= Q -> fillsum h Q X <= fillsum h (Q - e) X + e * c.
  Proof.
    intros H0 H1 Hc. induction X as [|x X IH]; intros Q e He HQ; simpl; [pose proof (qmult_nonneg _ _ He Hc); qlra|].
    assert (Hx : 0 <= q x) by (apply H0; left; reflexivity). destruct (H1 x (or_introl eq_refl)) as [G0 G1].
    set (m := qmin (q x) Q). set (m' := qmin (q x) (Q - e)).
    assert (M : 0 <= m - m' /\ m - m' <= e /\ m <= Q /\ m' <= Q - e).
    { unfold m, m'. destruct (qmin_case (q x) Q) as [[-> ?]|[-> ?]], (qmin_case (q x) (Q - e)) as [[-> ?]|[-> ?]]; repeat split; qlra. }
    destruct M as (M1 & M2 & M3 & M4).
    assert (I : fillsum h (Q - m) X <= fillsum h (Q - m - (e - (m - m'))) X + (e - (m - m')) * c).
    { apply IH; [intros y Hy; apply H0; right; exact Hy | intros y Hy; apply H1; right; exact Hy | qlra | qlra]. }
    replace (Q - m - (e - (m - m'))) with (Q - e - m') in I by ring.
    assert (h x * (m - m') <= c * (m - m')) by (apply qmult_le_r; assumption).
    replace (h x * m) with (h x * (m - m') + h x * m') by ring.
    replace ((e - (m - m')) * c) with (e * c - c * (m - m')) in I by ring. qlra.
  Qed.
  (** the greedy filling is the best one when the list is ordered by gain *)
  Theorem fill_opt h X : (forall x, In x X -> 0 <= q x) -> (forall x, In x X -> 0 <= h x) ->
    StronglySorted (fun a b => h b <= h a) X ->
    forall Q (y : A -> Qc), (forall x, In x X -> 0 <= y x /\ y x <= q x) -> qsumf y X <= Q ->
    qsumf (fun x => h x * y x) X <= fillsum h Q X.
  Proof.
    intros H0 H1 Hs. induction X as [|x X IH]; intros Q y Hy HQ; [apply Qcle_refl|].
    rewrite qsumf_cons in *. cbn [fillsum]. inversion_clear Hs as [|? ? Hs1 Hs2]. rewrite Forall_forall in Hs2.
    destruct (Hy x (or_introl eq_refl)) as [Y0 Y1]. assert (Hx : 0 <= q x) by (apply H0; left; reflexivity).
    assert (Hh : 0 <= h x) by (apply H1; left; reflexivity).
    assert (YX : 0 <= qsumf y X) by (apply qsumf_nonneg; intros z Hz; apply Hy; right; exact Hz).
    set (m := qmin (q x) Q).
    assert (M : y x <= m /\ m <= Q) by (unfold m; destruct (qmin_case (q x) Q) as [[-> ?]|[-> ?]]; split; qlra). destruct M as [M1 M2].
    assert (I : qsumf (fun z => h z * y z) X <= fillsum h (Q - y x) X).
    { apply IH; auto; try (intros z Hz; first [apply H0 | apply H1 | apply Hy]; right; exact Hz). qlra. }
    assert (L : fillsum h (Q - y x) X <= fillsum h (Q - y x - (m - y x)) X + (m - y x) * h x).
    { apply fill_lip; try qlra; intros z Hz; [apply H0; right; exact Hz|]. split; [apply H1; right; exact Hz | apply Hs2, Hz]. }
    replace (Q - y x - (m - y x)) with (Q - m) in L by ring.
    replace (h x * m) with (h x * y x + (m - y x) * h x) by ring. qlra.
  Qed.
  (** a row may be cut in two *)
  Lemma fill_cut h Q X r r1 r2 Y : (forall x, In x (X ++ [r; r1; r2]) -> 0 <= q x) -> q r = q r1 + q r2 -> h r1 = h r -> h r2 = h r -> 0 <= Q ->
    fillsum h Q (X ++ r :: Y) = fillsum h Q (X ++ r1 :: r2 :: Y).
  Proof.
    revert Q; induction X as [|x X IH]; intros Q H0 Hq E1 E2 HQ; simpl.
    - assert (0 <= q r1) by (apply H0; simpl; auto). assert (0 <= q r2) by (apply H0; simpl; auto). assert (0 <= q r) by (apply H0; simpl; auto).
      rewrite E1, E2.
      assert (M : qmin (q r) Q = qmin (q r1) Q + qmin (q r2) (Q - qmin (q r1) Q)).
      { destruct (qmin_case (q r) Q) as [[-> ?]|[-> ?]], (qmin_case (q r1) Q) as [[-> ?]|[-> ?]];
        match goal with |- context [qmin (q r2) ?a] => destruct (qmin_case (q r2) a) as [[-> ?]|[-> ?]] end; qlra. }
      rewrite M. replace (Q - (qmin (q r1) Q + qmin (q r2) (Q - qmin (q r1) Q))) with (Q - qmin (q r1) Q - qmin (q r2) (Q - qmin (q r1) Q)) by ring. ring.
    - assert (Hx : 0 <= q x) by (apply H0; left; reflexivity). f_equal. apply IH; auto.
      + intros z Hz. apply H0. right; exact Hz.
      + pose proof (qmin_r (q x) Q). qlra.
  Qed.
End Fill.
