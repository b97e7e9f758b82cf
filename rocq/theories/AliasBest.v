(** The best total gain: concave in the quantity, and bidders of one side are substitutes. *)
From Verif Require Import QcTac Num ModelBase ModelHuang ListFacts FillFacts Spec SpecTrade SpecMuda TradeFacts MudaSide MudaHalf.

Lemma sort_exists {A} (f : A -> Qc) (l : list A) : exists L, Permutation L l /\ StronglySorted (fun a b => f b <= f a) L.
Proof.
  induction l as [|a l (L & P & Hs)]; [exists []; split; constructor|].
  assert (I : exists L', Permutation L' (a :: L) /\ StronglySorted (fun a b => f b <= f a) L').
  { clear P. induction Hs as [|x L Hs IH Hx]; [exists [a]; split; [reflexivity | repeat constructor]|].
    destruct (Qclt_le_dec (f x) (f a)) as [C|C].
    - exists (a :: x :: L). split; [reflexivity|]. constructor; [constructor; assumption|]. rewrite Forall_forall in *. intros y [<-|Hy]; [qlra|]. specialize (Hx y Hy). qlra.
    - destruct IH as (L' & P' & Hs'). exists (x :: L'). split; [rewrite P'; apply perm_swap|]. constructor; [exact Hs'|].
      rewrite Forall_forall in *. intros y Hy. apply (Permutation_in _ P') in Hy. destruct Hy as [<-|Hy]; [exact C | apply Hx, Hy]. }
  destruct I as (L' & P' & Hs'). exists L'. split; [rewrite P', P; reflexivity | exact Hs'].
Qed.
Lemma best_exists (e : df) p Q : qty_nonneg e -> labels_unique e -> 0 <= Q -> exists v, best_gain e p Q v.
Proof.
  intros Hq Hu HQ. destruct (sort_exists (gain p) (filter (fun r => qleb 0 (gain p r)) e)) as (L & P & Hs).
  eexists. apply (best_fill p Q e L); eauto.
Qed.
Lemma fill_perm e e' p Q y : Permutation e e' -> fill e Q y -> fill e' Q y /\ fill_gain e' p y = fill_gain e p y.
Proof.
  intros P [H1 H2]. split; [split|].
  - intros r Hr. apply H1, (Permutation_in _ (Permutation_sym P) Hr).
  - rewrite <- (qsumf_perm _ _ _ P). exact H2.
  - unfold fill_gain. symmetry. apply qsumf_perm, P.
Qed.
Lemma best_perm e e' p Q v : Permutation e e' -> best_gain e p Q v -> best_gain e' p Q v.
Proof.
  intros P [(y & F & E) H]. split.
  - exists y. destruct (fill_perm e e' p Q y P F) as [F' E']. split; [exact F' | congruence].
  - intros z F'. destruct (fill_perm e' e p Q z (Permutation_sym P) F') as [G E']. rewrite <- E'. apply H, G.
Qed.

(** ** Concavity *)
Lemma mix_fill e Q1 Q2 y1 y2 a : 0 <= a -> a <= 1 -> fill e Q1 y1 -> fill e Q2 y2 ->
  fill e (a * Q1 + (1 - a) * Q2) (fun i => a * y1 i + (1 - a) * y2 i).
Proof.
  intros A0 A1 [F1 G1] [F2 G2]. split.
  - intros r Hr. destruct (F1 r Hr) as [L1 U1], (F2 r Hr) as [L2 U2].
    assert (B : 0 <= 1 - a) by qlra. set (b := 1 - a) in *. assert (Eb : a + b = 1) by (unfold b; ring). clearbody b. split.
    + pose proof (qmult_nonneg _ _ A0 L1). pose proof (qmult_nonneg _ _ B L2). qlra.
    + assert (0 <= a * (qty r - y1 (lbl r))) by (apply qmult_nonneg; qlra). assert (0 <= b * (qty r - y2 (lbl r))) by (apply qmult_nonneg; qlra).
      replace (qty r) with ((a + b) * qty r) by (rewrite Eb; ring).
      replace (a * (qty r - y1 (lbl r))) with (a * qty r - a * y1 (lbl r)) in * by ring. replace (b * (qty r - y2 (lbl r))) with (b * qty r - b * y2 (lbl r)) in * by ring.
      replace ((a + b) * qty r) with (a * qty r + b * qty r) by ring. qlra.
  - rewrite qsumf_plus, !qsumf_scale. set (s1 := qsumf _ e) in *. set (s2 := qsumf (fun r => y2 (lbl r)) e) in *. clearbody s1 s2.
    assert (0 <= a * (Q1 - s1)) by (apply qmult_nonneg; qlra). assert (0 <= (1 - a) * (Q2 - s2)) by (apply qmult_nonneg; qlra).
    replace (a * (Q1 - s1)) with (a * Q1 - a * s1) in * by ring. replace ((1 - a) * (Q2 - s2)) with ((1 - a) * Q2 - (1 - a) * s2) in * by ring. qlra.
Qed.
Lemma mix_gain e p y1 y2 a : fill_gain e p (fun i => a * y1 i + (1 - a) * y2 i) = a * fill_gain e p y1 + (1 - a) * fill_gain e p y2.
Proof.
  unfold fill_gain. rewrite <- !qsumf_scale, <- qsumf_plus. apply qsumf_ext. intros r _. ring.
Qed.
Lemma best_concave e p Q s t v0 vs vt v : 0 <= s -> 0 <= t -> best_gain e p Q v -> best_gain e p (Q - t) vt ->
  best_gain e p (Q - s) vs -> best_gain e p (Q - t - s) v0 -> v + v0 <= vt + vs.
Proof.
  intros Hs Ht B Bt Bs B0. destruct (Qclt_le_dec 0 (s + t)) as [L|L].
  - destruct B as [(y & F & E) _], B0 as [(y0 & F0 & E0) _]. set (a := t / (s + t)).
    assert (Ea : a * (s + t) = t) by (unfold a; field; intro K; rewrite K in L; exact (Qclt_not_eq _ _ L eq_refl)).
    assert (A0 : 0 <= a). { apply (Qcmult_lt_0_le_reg_r 0 a (s + t) L). rewrite Ea, Qcmult_0_l. exact Ht. }
    assert (A1 : a <= 1). { apply (Qcmult_lt_0_le_reg_r a 1 (s + t) L). rewrite Ea, Qcmult_1_l. qlra. }
    pose proof (mix_fill e Q (Q - t - s) y y0 a A0 A1 F F0) as M1.
    pose proof (mix_fill e Q (Q - t - s) y y0 (1 - a) ltac:(qlra) ltac:(qlra) F F0) as M2.
    replace (a * Q + (1 - a) * (Q - t - s)) with (Q - s) in M1 by (replace (a * Q + (1 - a) * (Q - t - s)) with (Q - t - s + a * (s + t)) by ring; rewrite Ea; ring).
    replace ((1 - a) * Q + (1 - (1 - a)) * (Q - t - s)) with (Q - t) in M2 by (replace ((1 - a) * Q + (1 - (1 - a)) * (Q - t - s)) with (Q - a * (s + t)) by ring; rewrite Ea; ring).
    apply (proj2 Bs) in M1. apply (proj2 Bt) in M2. rewrite mix_gain, E, E0 in M1, M2.
    replace ((1 - a) * v + (1 - (1 - a)) * v0) with (v + v0 - (a * v + (1 - a) * v0)) in M2 by ring. qlra.
  - assert (s = 0) by (apply Qcle_antisym; qlra). assert (t = 0) by (apply Qcle_antisym; qlra). subst s t.
    replace (Q - 0 - 0) with Q in B0 by ring. replace (Q - 0) with Q in * by ring.
    rewrite (best_unique _ _ _ _ _ B Bt), (best_unique _ _ _ _ _ B0 Bs). apply Qcle_refl.
Qed.

(** ** More bidders make a unit more valuable *)
Definition glue (e : df) (y z : nat -> Qc) : nat -> Qc := fun i => if existsb (fun r => Nat.eqb (lbl r) i) e then y i else z i.
Lemma glue_in e y z r : In r e -> glue e y z (lbl r) = y (lbl r).
Proof.
  intro H. unfold glue. destruct (existsb _ e) eqn:E; [reflexivity|]. exfalso. assert (existsb (fun r0 => Nat.eqb (lbl r0) (lbl r)) e = true); [|congruence].
  apply existsb_exists. exists r. rewrite Nat.eqb_refl. auto.
Qed.
Lemma glue_out e y z r : ~ In (lbl r) (map lbl e) -> glue e y z (lbl r) = z (lbl r).
Proof.
  intro H. unfold glue. destruct (existsb _ e) eqn:E; [|reflexivity]. exfalso. apply existsb_exists in E. destruct E as (r' & Hr & E). apply Nat.eqb_eq in E.
  apply H. rewrite <- E. apply in_map, Hr.
Qed.
Section Glue.
  Variables (A B : df).
  Hypothesis Hu : labels_unique (A ++ B).
  Lemma glue_B y z r : In r B -> glue A y z (lbl r) = z (lbl r).
  Proof.
    intro H. apply glue_out. intro C. unfold labels_unique in Hu. rewrite map_app in Hu. exact (NoDup_app_disj _ _ Hu (lbl r) C (in_map lbl B r H)).
  Qed.
  Lemma glue_fill Q1 Q2 y z : fill A Q1 y -> fill B Q2 z -> fill (A ++ B) (Q1 + Q2) (glue A y z).
  Proof.
    intros [F1 G1] [F2 G2]. split.
    - intros r Hr. apply in_app_or in Hr. destruct Hr as [Hr|Hr]; [rewrite glue_in by exact Hr; apply F1, Hr | rewrite glue_B by exact Hr; apply F2, Hr].
    - rewrite qsumf_app. rewrite (qsumf_ext _ (fun r => y (lbl r)) A) by (intros r Hr; apply glue_in, Hr).
      rewrite (qsumf_ext _ (fun r => z (lbl r)) B) by (intros r Hr; apply glue_B, Hr). qlra.
  Qed.
  Lemma glue_gain p y z : fill_gain (A ++ B) p (glue A y z) = fill_gain A p y + fill_gain B p z.
  Proof.
    unfold fill_gain. rewrite qsumf_app. f_equal; apply qsumf_ext; intros r Hr; [rewrite glue_in by exact Hr | rewrite glue_B by exact Hr]; reflexivity.
  Qed.
End Glue.
Lemma fill_part A B Q y p : fill (A ++ B) Q y ->
  fill A (qsumf (fun r => y (lbl r)) A) y /\ fill B (Q - qsumf (fun r => y (lbl r)) A) y /\ fill_gain (A ++ B) p y = fill_gain A p y + fill_gain B p y /\
  0 <= qsumf (fun r => y (lbl r)) A /\ qsumf (fun r => y (lbl r)) A <= Q.
Proof.
  intros [F G]. rewrite qsumf_app in G. split; [split|split; [split|split; [|split]]].
  - intros r Hr. apply F, in_or_app. left; exact Hr.
  - apply Qcle_refl.
  - intros r Hr. apply F, in_or_app. right; exact Hr.
  - qlra.
  - unfold fill_gain. apply qsumf_app.
  - apply qsumf_nonneg. intros r Hr. apply F, in_or_app. left; exact Hr.
  - assert (0 <= qsumf (fun r => y (lbl r)) B) by (apply qsumf_nonneg; intros r Hr; apply F, in_or_app; right; exact Hr). qlra.
Qed.
Lemma unit_value X A p Q t a1 a0 b1 b0 : qty_nonneg A -> labels_unique (X ++ A) -> 0 <= t -> t <= Q ->
  best_gain A p Q a1 -> best_gain A p (Q - t) a0 -> best_gain (X ++ A) p Q b1 -> best_gain (X ++ A) p (Q - t) b0 -> a1 - a0 <= b1 - b0.
Proof.
  intros Hq Hu Ht HQ A1 A0 B1 B0. destruct B0 as [(y & F & E) _]. destruct (fill_part X A (Q - t) y p F) as (FX & FA & G & S0 & S1).
  set (s := qsumf _ X) in *. rewrite E in G.
  assert (HuA : labels_unique A) by (unfold labels_unique in *; rewrite map_app in Hu; apply NoDup_app_r in Hu; exact Hu).
  destruct (best_exists A p (Q - s) Hq HuA ltac:(qlra)) as (as1 & As1). destruct (best_exists A p (Q - t - s) Hq HuA ltac:(qlra)) as (as0 & As0).
  pose proof (proj2 As0 _ FA) as L0.
  pose proof As1 as Bs. destruct As1 as [(z & Fz & Ez) _]. pose proof (glue_fill X A Hu s (Q - s) y z FX Fz) as Fg. replace (s + (Q - s)) with Q in Fg by ring.
  apply (proj2 B1) in Fg. rewrite glue_gain, Ez in Fg by exact Hu.
  pose proof (best_concave A p Q s t as0 as1 a0 a1 S0 Ht A1 A0 Bs As0). qlra.
Qed.
(** ** Bidders of one side are substitutes *)
Lemma substitutes W X A p Q wxa xa wa a : qty_nonneg (W ++ X ++ A) -> labels_unique (W ++ X ++ A) -> 0 <= Q ->
  best_gain (W ++ X ++ A) p Q wxa -> best_gain (X ++ A) p Q xa -> best_gain (W ++ A) p Q wa -> best_gain A p Q a ->
  wxa - xa <= wa - a.
Proof.
  intros Hq Hu HQ B3 B2 B1 B0. destruct B3 as [(y & F & E) _]. destruct (fill_part W (X ++ A) Q y p F) as (FW & FXA & G & S0 & S1).
  set (t := qsumf _ W) in *. rewrite E in G.
  assert (Hu1 : labels_unique (X ++ A)) by (unfold labels_unique in *; rewrite map_app in Hu; apply NoDup_app_r in Hu; exact Hu).
  assert (Hu0 : labels_unique A) by (unfold labels_unique in *; rewrite map_app in Hu1; apply NoDup_app_r in Hu1; exact Hu1).
  assert (Hu2 : labels_unique (W ++ A)).
  { unfold labels_unique in *. rewrite !map_app in *. apply NoDup_app_intro; [exact (NoDup_app_l _ _ Hu) | exact Hu0|].
    intros i H1 H2. apply (NoDup_app_disj _ _ Hu i H1). apply in_or_app. right; exact H2. }
  assert (HqA : qty_nonneg A) by (intros r Hr; apply Hq; do 2 (apply in_or_app; right); exact Hr).
  assert (HqXA : qty_nonneg (X ++ A)) by (intros r Hr; apply Hq; apply in_or_app; right; exact Hr).
  destruct (best_exists (X ++ A) p (Q - t) HqXA Hu1 ltac:(qlra)) as (xt & Xt). destruct (best_exists A p (Q - t) HqA Hu0 ltac:(qlra)) as (at' & At).
  pose proof (proj2 Xt _ FXA) as L0. pose proof (unit_value X A p Q t a at' xa xt HqA Hu1 S0 S1 B0 At B2 Xt) as U.
  destruct At as [(z & Fz & Ez) _]. pose proof (glue_fill W A Hu2 t (Q - t) y z FW Fz) as Fg. replace (t + (Q - t)) with Q in Fg by ring.
  apply (proj2 B1) in Fg. rewrite glue_gain, Ez in Fg by exact Hu2. qlra.
Qed.
