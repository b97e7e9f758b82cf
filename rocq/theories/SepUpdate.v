(** The quantities of the rationed side in rounded arithmetic are near the exact ones. *)
From Coq Require Import Permutation Sorted.
From Verif Require Import QcTac Num NumFacts ListFacts ModelBase ModelCurves ModelHuang ModelRound Spec SpecRound SpecRoundErrors Sorter UpdateFacts
  RoundFacts RoundHuang RoundError RoundErrorsTop SepFacts.

Lemma sorted_insert a l : StronglySorted Qcle l -> exists l', StronglySorted Qcle l' /\ Permutation l' (a :: l).
Proof.
  induction 1 as [|b l Hl IH F]; [exists [a]; split; [repeat constructor | apply Permutation_refl]|].
  destruct (qle_spec a b) as [L|L].
  - exists (a :: b :: l). split; [|apply Permutation_refl]. constructor; [constructor; assumption|]. constructor; [exact L|].
    rewrite Forall_forall in *. intros x Hx. specialize (F x Hx). qlra.
  - destruct IH as (l' & S' & P'). exists (b :: l'). split; [|apply perm_trans with (b :: a :: l); [apply perm_skip, P' | apply perm_swap]].
    constructor; [exact S'|]. rewrite Forall_forall in *. intros x Hx. apply (Permutation_in x P') in Hx. destruct Hx as [<-|Hx]; [qlra | apply F, Hx].
Qed.
Lemma sorted_exists (l : list Qc) : exists l', StronglySorted Qcle l' /\ Permutation l' l.
Proof.
  induction l as [|a l (l' & S' & P')]; [exists []; split; [constructor | apply Permutation_refl]|].
  destruct (sorted_insert a l' S') as (m & Sm & Pm). exists m. split; [exact Sm|]. apply perm_trans with (a :: l'); [exact Pm | apply perm_skip, P'].
Qed.

(** levels: what remains of [x] when [t] is taken away *)
Definition left_at (t x : Qc) : Qc := qmax 0 (x - t).
Lemma left_mono t t' x : t <= t' -> left_at t' x <= left_at t x.
Proof. intro L. unfold left_at. destruct (qmax_case 0 (x - t)) as [[-> ?]|[-> ?]], (qmax_case 0 (x - t')) as [[-> ?]|[-> ?]]; qlra. Qed.
Lemma level_le t t' Q x : t <= t' -> In x Q -> left_at t x - left_at t' x <= qsumf (left_at t) Q - qsumf (left_at t') Q.
Proof.
  intros L Hx. rewrite <- qsumf_minus. apply (qsumf_in_le (fun x => left_at t x - left_at t' x) Q x); [|exact Hx].
  intros y _. pose proof (left_mono t t' y L). qlra.
Qed.
Lemma level_near t t' Q x e : In x Q -> near (qsumf (left_at t) Q) (qsumf (left_at t') Q) e -> near (left_at t x) (left_at t' x) e.
Proof.
  intros Hx [N1 N2]. destruct (Qclt_le_dec t t') as [L|L].
  - assert (L' : t <= t') by qlra. pose proof (level_le t t' Q x L' Hx). pose proof (left_mono t t' x L'). split; qlra.
  - pose proof (level_le t' t Q x L Hx). pose proof (left_mono t' t x L). split; qlra.
Qed.

Section Update.
  Variables (R : rounding) (u : Qc).
  Hypothesis Hrel : rel_error R u.
  Hypothesis U1 : u < 1.
  Notation B n := ((1 + u) ^ n).

  Lemma below v y : machine R v -> v < R y -> v < y.
  Proof. intros M L. destruct (Qclt_le_dec v y) as [K|K]; [exact K|]. exfalso. pose proof (rnd_le R y v M K). qlra. Qed.
  Lemma rnd_low x : 0 <= x -> (1 - u) * x <= R x.
  Proof. intro H. destruct (rnd_near_pos R u Hrel x H) as [_ N]. replace ((1 - u) * x) with (x - u * x) by ring. qlra. Qed.
  Lemma rnd_high x : 0 <= x -> R x <= (1 + u) * x.
  Proof. intro H. destruct (rnd_near_pos R u Hrel x H) as [N _]. replace ((1 + u) * x) with (x + u * x) by ring. exact N. Qed.
  Lemma share_le gap N v : (0 < N)%nat -> v < gap / qnat N -> qnat N * v < gap.
  Proof.
    intros HN L. pose proof (qnat_pos N HN) as P. assert (NZ : qnat N <> 0) by (intro Z; rewrite Z in P; qlra).
    assert (E : qnat N * (gap / qnat N) = gap) by (field; exact NZ). rewrite <- E at 1. rewrite (Qcmult_comm (qnat N) v), (Qcmult_comm (qnat N)). apply Qcmult_lt_compat_r; assumption.
  Qed.
  (** all quantities are used up only if the gap is about their sum *)
  Lemma used_up_sum l : forall gap, used_up R gap l -> 0 <= gap -> (forall x, In x l -> 0 <= x /\ machine R x) -> qsum l <= B (length l) * gap.
  Proof.
    induction l as [|v l IH]; intros gap H G M; [change (0 <= 1 * gap); rewrite Qcmult_1_l; exact G|]. inversion H as [|g v' l' L H' E1 E2]; subst.
    destruct (M v (or_introl eq_refl)) as [V0 Vm]. pose proof (below _ _ Vm L) as L'.
    pose proof (share_le gap (length (v :: l)) v ltac:(cbn; lia) L') as L2. cbn [length] in L2. rewrite qnat_S in L2.
    assert (P : 0 <= qnat (length l) * v) by (apply qmult_nonneg; [apply qnat_nn | exact V0]).
    assert (G' : 0 <= gap - v) by (replace ((qnat (length l) + 1) * v) with (qnat (length l) * v + v) in L2 by ring; qlra).
    specialize (IH (R (gap - v)) H' (rnd_nonneg R _ G') ltac:(intros; apply M; right; assumption)).
    change (qsum (v :: l)) with (v + qsum l). cbn [length]. change (B (Datatypes.S (length l))) with ((1 + u) * B (length l)).
    pose proof (B_ge1 R u Hrel (length l)) as B1. pose proof (u_nonneg R u Hrel) as U.
    pose proof (rnd_high _ G') as Rh. pose proof (qmult_le_l (B (length l)) _ _ ltac:(qlra) Rh) as K.
    assert (V1 : v <= (1 + u) * B (length l) * v).
    { assert (X : 0 <= u * B (length l)) by (apply qmult_nonneg; qlra).
      assert (Y : 0 <= (B (length l) - 1 + u * B (length l)) * v) by (apply qmult_nonneg; [|exact V0]; qlra).
      replace ((B (length l) - 1 + u * B (length l)) * v) with ((1 + u) * B (length l) * v - v) in Y by ring. qlra. }
    replace ((1 + u) * B (length l) * gap) with ((1 + u) * B (length l) * v + B (length l) * ((1 + u) * (gap - v))) by ring. qlra.
  Qed.
  Lemma update_r_ok Q gap : 0 <= gap -> (forall x, In x Q -> 0 <= x /\ machine R x) -> B (length Q) * gap < qsum Q -> exists Q', update_quantity_r R Q gap = Ok Q'.
  Proof.
    intros G M L. destruct (sorted_exists Q) as (l & Sl & Pl). destruct (update_r_raises R Q gap l Sl Pl) as [_ H]. destruct H as (Q' & E & _); [|eauto].
    intro U. assert (K : qsum l <= B (length l) * gap) by (apply used_up_sum; [exact U | exact G | intros x Hx; apply M, (Permutation_in x Pl), Hx]).
    rewrite (Permutation_length Pl) in K. rewrite (qsum_perm _ _ Pl) in K. qlra.
  Qed.

  (** the entries removed so far are at most the others and nearly at most the share *)
  Definition out_low (q : list (option Qc)) (gap : Qc) (N : nat) (Q : list Qc) : Prop :=
    Forall2 (fun o x => o = Some x \/ o = None /\ (1 - u) * (qnat N * x) <= gap /\ forall y, In y (somes q) -> x <= y) q Q.
  Lemma low_weaken q gap N Q q' gap' N' : out_low q gap N Q -> (forall x, (1 - u) * (qnat N * x) <= gap -> (forall y, In y (somes q) -> x <= y) -> (1 - u) * (qnat N' * x) <= gap' /\ forall y, In y (somes q') -> x <= y) ->
    Forall2 (fun o x => o = Some x \/ o = None /\ (1 - u) * (qnat N' * x) <= gap' /\ forall y, In y (somes q') -> x <= y) q Q.
  Proof.
    unfold out_low. intros H K. induction H as [|o x l Q Ho H IH] in |- * ; constructor; [|exact IH]. destruct Ho as [->|(-> & A1 & A2)]; [left; reflexivity | right]. split; [reflexivity|]. exact (K x A1 A2).
  Qed.
  Lemma low_set (C : Qc -> Prop) q Q i v : Forall2 (fun o x => o = Some x \/ o = None /\ C x) q Q -> nth_error q i = Some (Some v) -> C v ->
    Forall2 (fun o x => o = Some x \/ o = None /\ C x) (set_nth i None q) Q.
  Proof.
    intro H. revert i. induction H as [|o x q Q Ho H IH]; intros [|i] E Cv; simpl in *; try discriminate.
    - injection E as ->. constructor; [|exact H]. right. split; [reflexivity|]. destruct Ho as [Ho|[Ho _]]; congruence.
    - constructor; [exact Ho|]. apply IH; auto.
  Qed.
  Lemma in_set_somes i q y : In y (somes (set_nth i None q)) -> In y (somes q).
  Proof.
    revert i. induction q as [|o q IH]; intros [|i] H; simpl in *; try contradiction; [destruct o; [right|]; exact H|]. destruct o; simpl in *; [destruct H as [->|H]; [left; reflexivity | right; apply (IH i), H] | apply (IH i), H].
  Qed.
  Lemma loop_low Q fuel : forall q gap N i v q' gap' N',
    out_low q gap N Q -> (forall x, In x Q -> 0 <= x /\ machine R x) -> N = length (somes q) -> nanargmin q = Some (i, v) -> 0 <= gap ->
    uq_loop_r R fuel q gap N i v = Ok (q', gap', N') -> out_low q' gap' N' Q.
  Proof.
    induction fuel as [|fuel IH]; intros q gap N i v q' gap' N' Hl HQ HN Hm Hg E; [discriminate|]. cbn [uq_loop_r] in E.
    destruct (nanargmin_some _ _ _ Hm) as [Hi Hmin]. destruct (somes_remove _ _ _ Hi) as [_ El].
    assert (Iv : In v (somes q)) by (apply in_somes; eapply nth_error_In; eauto).
    assert (Sub : sub_of q Q) by (clear - Hl; unfold out_low in Hl; induction Hl as [|o x l Q Ho H IH] in |- *; constructor; [tauto | exact IH]).
    destruct (HQ v (somes_sub _ _ _ Sub Iv)) as [V0 Vm].
    destruct (qlt_spec v (R (gap / qnat N))) as [L|L]; [|injection E as <- <- <-; exact Hl].
    destruct (nanargmin (set_nth i None q)) as [[i1 v1]|] eqn:E1; [|discriminate].
    pose proof (below _ _ Vm L) as L1. pose proof (share_le gap N v ltac:(lia) L1) as L2.
    assert (EN : qnat N = qnat (N - 1) + 1) by (rewrite <- qnat_S; f_equal; lia).
    assert (K0 : 0 <= qnat (N - 1) * v) by (apply qmult_nonneg; [apply qnat_nn | exact V0]).
    rewrite EN in L2. replace ((qnat (N - 1) + 1) * v) with (qnat (N - 1) * v + v) in L2 by ring.
    pose proof (rnd_low (gap - v) ltac:(qlra)) as Rl.
    assert (K1 : (1 - u) * (qnat (N - 1) * v) <= R (gap - v)).
    { apply Qcle_trans with ((1 - u) * (gap - v)); [|exact Rl]. apply qmult_le_l; qlra. }
    refine (IH _ _ _ _ _ _ _ _ _ HQ _ E1 _ E); [|lia|apply rnd_nonneg; qlra].
    apply low_set with (v := v); [|exact Hi|].
    - apply (low_weaken q gap N Q (set_nth i None q) _ (N - 1) Hl). intros x X1 X2. split; [|intros y Hy; apply X2, (in_set_somes i), Hy].
      apply Qcle_trans with ((1 - u) * (qnat (N - 1) * v)); [|exact K1]. apply qmult_le_l; [qlra|]. apply qmult_le_l; [apply qnat_nn|]. apply X2, Iv.
    - split; [exact K1|]. intros y Hy. apply Hmin, (in_set_somes i), Hy.
  Qed.
  (** the rounded quantities follow a level, up to two roundings per bid *)
  Lemma update_r_level Q gap Q' : Q <> [] -> (forall x, In x Q -> 0 <= x /\ machine R x) -> 0 <= gap -> update_quantity_r R Q gap = Ok Q' ->
    exists t, Forall2 (fun y x => near y (left_at t x) (u * x + u * x)) Q' Q.
  Proof.
    intros Hne HQ Hg E. destruct (update_r_spec R Q gap Hne HQ Hg) as [Er|(q' & gap' & N' & El & A1 & A2 & A3 & A4 & A5 & E')]; [congruence|].
    rewrite E' in E. injection E as <-. destruct (nanargmin_all Q Hne) as (i & v & Ea). rewrite Ea in El. cbn [fst snd] in El.
    assert (L0 : out_low (map Some Q) gap (length Q) Q) by (unfold out_low; generalize (somes (map Some Q)) (length Q); intros l0 n0; clear; induction Q; cbn [map]; constructor; auto).
    pose proof (loop_low Q _ _ _ _ _ _ _ _ _ L0 HQ ltac:(rewrite somes_map_Some; reflexivity) Ea Hg El) as Lo.
    set (t := R (gap' / qnat N')) in *. exists t.
    destruct (div_le_self gap' N' A4 A2) as [D0 _]. assert (T0 : 0 <= t) by (apply rnd_nonneg, D0).
    pose proof (u_nonneg R u Hrel) as U.
    assert (K : forall o x, In x Q -> (o = Some x /\ In x (somes q') \/ o = None /\ (1 - u) * (qnat N' * x) <= gap') -> near (cut_r R t o) (left_at t x) (u * x + u * x)).
    { intros o x Hx H. destruct (HQ x Hx) as [X0 _]. assert (Ux : 0 <= u * x) by (apply qmult_nonneg; assumption). unfold left_at. destruct H as [[-> Is]|[-> Low]]; cbn [cut_r].
      - specialize (A5 x Is). fold t in A5. assert (Z : qmax 0 (x - t) = x - t) by (destruct (qmax_case 0 (x - t)) as [[-> ?]|[-> ?]]; qlra). rewrite Z.
        apply near_weaken with (u * (x - t)); [apply (rnd_near_pos R u Hrel); qlra|]. assert (0 <= u * t) by (apply qmult_nonneg; assumption). replace (u * (x - t)) with (u * x - u * t) by ring. qlra.
      - pose proof (qnat_pos N' A2) as PN. assert (NZ : qnat N' <> 0) by (intro Z; rewrite Z in PN; qlra).
        assert (T1 : (1 - u) * x <= gap' / qnat N').
        { assert (Dv : gap' / qnat N' * qnat N' = gap') by (field; exact NZ). destruct (Qclt_le_dec (gap' / qnat N') ((1 - u) * x)) as [L|L]; [|exact L]. exfalso.
          pose proof (Qcmult_lt_compat_r _ _ _ PN L) as M. rewrite Dv in M. replace ((1 - u) * x * qnat N') with ((1 - u) * (qnat N' * x)) in M by ring. qlra. }
        pose proof (rnd_low _ D0) as T2. fold t in T2. pose proof (qmult_le_l (1 - u) _ _ ltac:(qlra) T1) as T3.
        assert (U2 : 0 <= u * (u * x)) by (apply qmult_nonneg; assumption).
        replace ((1 - u) * ((1 - u) * x)) with (x - u * x - u * x + u * (u * x)) in T3 by ring.
        destruct (qmax_case 0 (x - t)) as [[-> ?]|[-> ?]]; split; qlra. }
    unfold out_low in Lo. clear - Lo K.
    assert (G : forall q0 Q0, (forall o, In o q0 -> In o q') -> (forall x, In x Q0 -> In x Q) ->
       Forall2 (fun o x => o = Some x \/ o = None /\ (1 - u) * (qnat N' * x) <= gap' /\ forall y, In y (somes q') -> x <= y) q0 Q0 ->
       Forall2 (fun y x => near y (left_at t x) (u * x + u * x)) (map (cut_r R t) q0) Q0).
    { intros q0 Q0 I1 I2 H. induction H as [|o x l Q1 Ho H IH]; constructor.
      - apply K; [apply I2; left; reflexivity|]. destruct Ho as [->|(-> & Z & _)]; [left; split; [reflexivity | apply in_somes, I1; left; reflexivity] | right; auto].
      - apply IH; [intros; apply I1 | intros; apply I2]; right; assumption. }
    apply G; auto.
  Qed.
  Lemma near_total (t : Qc) Q' Q : Forall2 (fun y x => near y (left_at t x) (u * x + u * x)) Q' Q -> near (qsum Q') (qsumf (left_at t) Q) (u * qsum Q + u * qsum Q).
  Proof.
    induction 1 as [|y x Q' Q N H IH]; [change (near 0 0 (u * 0 + u * 0)); replace (u * 0 + u * 0) with 0 by ring; split; qlra|].
    change (qsum (y :: Q')) with (y + qsum Q'). change (qsum (x :: Q)) with (x + qsum Q). rewrite qsumf_cons.
    replace (u * (x + qsum Q) + u * (x + qsum Q)) with ((u * x + u * x) + (u * qsum Q + u * qsum Q)) by ring. apply near_plus; assumption.
  Qed.
  Lemma in_le_sum (Q : list Qc) x : (forall x, In x Q -> 0 <= x) -> In x Q -> x <= qsum Q.
  Proof. intros H I. pose proof (qsumf_in_le (fun x => x) Q x H I) as K. unfold qsumf in K. rewrite map_id in K. exact K. Qed.
  (** rationing the same quantities by gaps that are near gives quantities that are near *)
  Theorem ration_close Q g gr qs : Q <> [] -> (forall x, In x Q -> 0 <= x /\ machine R x) -> 0 <= g -> g <= qsum Q -> 0 <= gr -> machine R gr ->
    update_quantity_r R Q gr = Ok qs ->
    exists qe, update_quantity Q g = Ok qe /\ length qs = length Q /\ length qe = length Q /\
      Forall2 (fun y x => near y x (qz 5 * (u * qsum Q) + u * (qnat (length Q) * gr) + qabs (gr - g))) qs qe.
  Proof.
    intros Hne HQ G0 G1 Gr Mr E. destruct (update_quantity_spec Q g Hne G0 G1) as (t & T0 & Ee & Es). rewrite Ee. eexists. split; [reflexivity|].
    destruct (update_r_level Q gr qs Hne HQ Gr E) as (t' & Hl). pose proof (near_total t' qs Q Hl) as Nt. pose proof (update_r_err R u Hrel Q gr qs Hne HQ Gr Mr E) as Ne.
    split; [apply (Forall2_len _ _ _ Hl)|]. split; [apply map_length|].
    change (qsum (map (fun x => qmax 0 (x - t)) Q)) with (qsumf (left_at t) Q) in Es.
    assert (Na : near gr g (qabs (gr - g))) by (pose proof (qabs_nonneg (gr - g)); unfold qabs in *; destruct (qle_spec 0 (gr - g)); split; qlra).
    pose proof (u_nonneg R u Hrel) as U.
    replace (u * (qnat (length Q) * gr + qsum Q)) with (u * (qnat (length Q) * gr) + u * qsum Q) in Ne by ring.
    set (ng := u * (qnat (length Q) * gr)) in *. set (uq := u * qsum Q) in *. set (da := qabs (gr - g)) in *.
    assert (Ns : near (qsumf (left_at t') Q) (qsumf (left_at t) Q) (uq + uq + ng + uq + da)) by (destruct Nt, Ne, Na; split; qlra).
    assert (E5 : qz 5 * uq = uq + uq + uq + uq + uq) by (replace (qz 5) with (1 + 1 + 1 + 1 + 1) by (apply Qc_is_canon; reflexivity); ring). rewrite E5.
    assert (L : forall x, In x Q -> near (left_at t' x) (left_at t x) (uq + uq + ng + uq + da)) by (intros x Hx; apply (level_near _ _ Q x _ Hx Ns)).
    assert (X : forall x, In x Q -> u * x <= uq) by (intros x Hx; unfold uq; apply qmult_le_l; [exact U|]; apply in_le_sum; [intros; apply HQ; assumption | exact Hx]).
    clear - Hl L X. clearbody uq ng da.
    assert (K : forall qs Q0, Forall2 (fun y x => near y (left_at t' x) (u * x + u * x)) qs Q0 -> (forall x, In x Q0 -> In x Q) ->
      Forall2 (fun y x => near y x (uq + uq + uq + uq + uq + ng + da)) qs (map (fun x => qmax 0 (x - t)) Q0)).
    { induction 1 as [|y x qs0 Q0 N H IH]; intro I; cbn [map]; constructor; [|apply IH; intros; apply I; right; assumption].
      assert (Ix : In x Q) by (apply I; left; reflexivity). specialize (L x Ix). specialize (X x Ix). change (qmax 0 (x - t)) with (left_at t x). destruct N, L. split; qlra. }
    apply (K qs Q Hl). auto.
  Qed.
End Update.
