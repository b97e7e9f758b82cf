(** Rounding does not move the crossing of curves whose breakpoints are not close. *)
From Coq Require Import Permutation Sorted.
From Verif Require Import QcTac Num NumFacts ListFacts ModelBase ModelCurves ModelHuang ModelRound Spec SpecRound SpecSep Sorter CurveFacts IntersectFacts
  RoundFacts RoundHuang RoundError MoveFacts.

Definition run (R : rounding) (l : list Qc) : Qc := fold_left (fun s x => R (s + x)) l 0.
Lemma run_snoc R l x : run R (l ++ [x]) = R (run R l + x).
Proof. unfold run. rewrite fold_left_app. reflexivity. Qed.
Lemma run_sums R l : (forall x, In x l -> machine R x) -> sums_to R l (run R l).
Proof.
  assert (K : forall l2 l1 s, sums_to R l1 s -> sums_to R (l1 ++ l2) (fold_left (fun s x => R (s + x)) l2 s)).
  { induction l2 as [|x l2 IH]; intros l1 s H; [rewrite app_nil_r; exact H|]. cbn [fold_left]. replace (l1 ++ x :: l2) with ((l1 ++ [x]) ++ l2) by (rewrite <- app_assoc; reflexivity).
    apply IH. apply st_add; [exact H | apply st_one]. }
  intro M. destruct l as [|x l]; [apply st_nil|]. unfold run. cbn [fold_left]. replace (0 + x) with x by ring. rewrite (M x (or_introl eq_refl)). apply (K l [x]), st_one.
Qed.
Lemma firstn_S_snoc {X} i (l : list X) x : nth_error l i = Some x -> firstn (Datatypes.S i) l = firstn i l ++ [x].
Proof. revert i; induction l as [|y l IH]; intros [|i] H; try discriminate; cbn [nth_error firstn] in *; [injection H as ->; reflexivity|]. rewrite (IH i H). reflexivity. Qed.

Lemma qnat_nn k : 0 <= qnat k.
Proof. change (qnat k) with (qz (Z.of_nat k)). change 0 with (qz 0). apply (proj1 (MergeFacts.qz_le _ _)). lia. Qed.

Section Sep.
  Variables (R : rounding) (u : Qc).
  Hypothesis Hrel : rel_error R u.
  Variables (S : sorter) (d : df).
  Hypothesis Hq : qty_nonneg d.
  Hypothesis Hm : machine_qty R d.
  Hypothesis Hs : separated (slack u d) d.
  Let n := length d.
  Let W := qsumf qty d.
  Let e := u * (1 + u) ^ (2 * n).
  Let err := qnat n * e * W.
  Notation bl := (s_desc S (buyers d)).
  Notation sl := (s_asc S (sellers d)).

  Lemma e_ge : u * (1 + u) ^ n <= e.
  Proof. unfold e. apply qmult_le_l; [apply (u_nonneg R u Hrel)|]. apply (B_mono R u Hrel). lia. Qed.
  Lemma e_u : u <= e.
  Proof. pose proof (u_nonneg R u Hrel) as U. pose proof (B_ge1 R u Hrel (2 * n)) as G. unfold e. pose proof (qmult_le_l u 1 _ U G) as K. rewrite Qcmult_1_r in K. exact K. Qed.
  Lemma e_nonneg : 0 <= e.
  Proof. pose proof e_u. pose proof (u_nonneg R u Hrel). qlra. Qed.
  Lemma slack_is : slack u d = qnat 2 * err + qz 6 * (e * W).
  Proof.
    unfold slack. fold n. fold e. fold W. unfold err.
    replace (qnat (2 * n + 6)) with (qnat 2 * qnat n + qz 6); [ring|].
    unfold qnat. rewrite Nat2Z.inj_add, Nat2Z.inj_mul, MergeFacts.qz_plus, MergeFacts.qz_mult. reflexivity.
  Qed.
  Lemma qty_gt r : In r d -> slack u d < qty r.
  Proof. apply Hs. Qed.
  Lemma W_nonneg : 0 <= W.
  Proof. apply qsumf_nonneg. exact Hq. Qed.
  Lemma eW : 0 <= e * W.
  Proof. apply qmult_nonneg; [exact e_nonneg | exact W_nonneg]. Qed.
  Lemma err_nonneg : 0 <= err.
  Proof. unfold err. apply qmult_nonneg; [|exact W_nonneg]. apply qmult_nonneg; [apply qnat_nn | exact e_nonneg]. Qed.
  Lemma slack_err : err + err + qz 6 * (e * W) = slack u d.
  Proof. rewrite slack_is. change (qnat 2) with (qz 2). replace (qz 2) with (1 + 1) by (apply Qc_is_canon; reflexivity). ring. Qed.
  Lemma slack_ge : err + err <= slack u d /\ 0 <= slack u d /\ err <= slack u d.
  Proof.
    rewrite <- slack_err. pose proof err_nonneg as E. pose proof eW as F. assert (0 <= qz 6 * (e * W)) by (apply qmult_nonneg; [apply qleb_le; reflexivity | exact F]). repeat split; qlra.
  Qed.

  (** a part of the bids: any way of adding its quantities is near the sum *)
  Lemma part_le l l' : Permutation d (l ++ l') -> 0 <= qsumf qty l /\ qsumf qty l <= W /\ (length l <= n)%nat /\ forall r, In r l -> In r d.
  Proof.
    intro P. assert (I : forall r, In r (l ++ l') -> In r d) by (intros r Hr; apply (Permutation_in r (Permutation_sym P)), Hr).
    assert (A1 : 0 <= qsumf qty l) by (apply qsumf_nonneg; intros r Hr; apply Hq, I, in_or_app; left; exact Hr).
    assert (A2 : 0 <= qsumf qty l') by (apply qsumf_nonneg; intros r Hr; apply Hq, I, in_or_app; right; exact Hr).
    assert (E : W = qsumf qty l + qsumf qty l') by (unfold W; rewrite (qsumf_perm qty _ _ P), qsumf_app; reflexivity).
    split; [exact A1|]. split; [qlra|]. split; [unfold n; rewrite (Permutation_length P), app_length; lia|]. intros r Hr. apply I, in_or_app. left. exact Hr.
  Qed.
  Lemma part_near l l' s : Permutation d (l ++ l') -> sums_to R (map qty l) s -> near s (qsumf qty l) (qnat n * e * qsumf qty l).
  Proof.
    intros P H. destruct (part_le l l' P) as (L0 & L1 & L2 & L3).
    assert (N : near s (qsum (map qty l)) (qnat n * (u * (1 + u) ^ n) * qsum (map qty l))).
    { apply (sums_near R u Hrel); [exact H| |rewrite map_length; exact L2]. intros x Hx. apply in_map_iff in Hx. destruct Hx as (r & <- & Hr). split; [apply Hq | apply Hm]; apply L3, Hr. }
    change (qsum (map qty l)) with (qsumf qty l) in N. apply (near_weaken _ _ _ _ N). apply qmult_le_r; [exact L0|]. apply qmult_le_l; [apply qnat_nn | exact e_ge].
  Qed.
  Lemma part_near_err l l' s : Permutation d (l ++ l') -> sums_to R (map qty l) s -> near s (qsumf qty l) err.
  Proof.
    intros P H. destruct (part_le l l' P) as (L0 & L1 & L2 & L3). apply (near_weaken _ _ _ _ (part_near l l' s P H)).
    unfold err. apply qmult_le_l; [apply qmult_nonneg; [apply qnat_nn | exact e_nonneg] | exact L1].
  Qed.
  Lemma sum_gt l : l <> [] -> (forall r, In r l -> In r d) -> slack u d < qsumf qty l.
  Proof.
    destruct l as [|r l]; [congruence|]. intros _ H. rewrite qsumf_cons. assert (0 <= qsumf qty l) by (apply qsumf_nonneg; intros x Hx; apply Hq, H; right; exact Hx).
    pose proof (qty_gt r (H r (or_introl eq_refl))). qlra.
  Qed.
  Lemma bl_perm i : Permutation d (firstn i bl ++ (skipn i bl ++ sl)).
  Proof.
    rewrite app_assoc, firstn_skipn. apply perm_trans with (buyers d ++ sellers d).
    - unfold buyers, sellers. apply filter_negb_perm.
    - apply Permutation_app; apply Permutation_sym; [apply s_desc_perm | apply s_asc_perm].
  Qed.
  Lemma sl_perm i : Permutation d (firstn i sl ++ (skipn i sl ++ bl)).
  Proof.
    rewrite app_assoc, firstn_skipn. apply perm_trans with (bl ++ sl); [|apply Permutation_app_comm]. pose proof (bl_perm 0) as P. exact P.
  Qed.
  Lemma sorted_split {X} (r : X -> X -> Prop) l i : StronglySorted r l -> forall x y, In x (firstn i l) -> In y (skipn i l) -> r x y.
  Proof.
    intro H. revert i. induction H as [|a l Hl IH F]; intros [|i] x y Hx Hy; cbn [firstn skipn] in *; try contradiction.
    destruct Hx as [->|Hx]; [rewrite Forall_forall in F; apply F; rewrite <- (firstn_skipn i l); apply in_or_app; right; exact Hy | eapply IH; eassumption].
  Qed.
  Lemma bl_best i : best_buyers d (firstn i bl).
  Proof.
    exists (skipn i bl). split; [rewrite firstn_skipn; apply Permutation_sym, s_desc_perm|]. intros x y Hx Hy.
    exact (sorted_split _ _ i (s_desc_sorted S (buyers d)) x y Hx Hy).
  Qed.
  Lemma sl_best i : best_sellers d (firstn i sl).
  Proof.
    exists (skipn i sl). split; [rewrite firstn_skipn; apply Permutation_sym, s_asc_perm|]. intros x y Hx Hy.
    exact (sorted_split _ _ i (s_asc_sorted S (sellers d)) x y Hx Hy).
  Qed.

  (** the abscissae and where they are moved *)
  Definition at_cut (l : df) (c c' : Qc) : Prop := exists i, c = qsumf qty (firstn i l) /\ c' = run R (map qty (firstn i l)).
  Definition cut_pair (c c' : Qc) : Prop := at_cut bl c c' \/ at_cut sl c c'.
  Definition mv (x x' : num) : Prop := x = PInf /\ x' = PInf \/ exists c c', x = Fin c /\ x' = Fin c' /\ cut_pair c c'.
  Lemma cut_near c c' : cut_pair c c' -> near c' c err.
  Proof.
    intros [(i & -> & ->)|(i & -> & ->)].
    - apply (part_near_err _ _ _ (bl_perm i)). apply run_sums. intros x Hx. apply in_map_iff in Hx. destruct Hx as (r & <- & Hr). apply Hm, (part_le _ _ (bl_perm i)), Hr.
    - apply (part_near_err _ _ _ (sl_perm i)). apply run_sums. intros x Hx. apply in_map_iff in Hx. destruct Hx as (r & <- & Hr). apply Hm, (part_le _ _ (sl_perm i)), Hr.
  Qed.
  Definition apart (c1 c1' c2 c2' : Qc) : Prop := c1 = c2 /\ c1' = c2' \/ c1 + slack u d < c2 \/ c2 + slack u d < c1.
  Lemma same_list l c1 c1' c2 c2' : (forall r, In r l -> In r d) -> at_cut l c1 c1' -> at_cut l c2 c2' -> apart c1 c1' c2 c2'.
  Proof.
    intros Hl (i & -> & ->) (j & -> & ->).
    assert (K : forall i j, (i <= j)%nat -> firstn j l = firstn i l \/ qsumf qty (firstn i l) + slack u d < qsumf qty (firstn j l)).
    { clear i j. intros i j L. assert (E : firstn j l = firstn i l ++ skipn i (firstn j l)).
      { rewrite <- (firstn_skipn i (firstn j l)) at 1. rewrite firstn_firstn, Nat.min_l by exact L. reflexivity. }
      destruct (skipn i (firstn j l)) as [|r m] eqn:Em; [left; rewrite E, app_nil_r; reflexivity|]. right. rewrite E, qsumf_app.
      assert (slack u d < qsumf qty (r :: m)); [|qlra]. apply sum_gt; [discriminate|]. intros x Hx. apply Hl. rewrite <- Em in Hx.
      apply (In_firstn j). rewrite <- (firstn_skipn i (firstn j l)). apply in_or_app. right. exact Hx. }
    destruct (Nat.le_ge_cases i j) as [L|L]; destruct (K _ _ L) as [E|E]; [left; rewrite E; auto | right; left; exact E | left; rewrite E; auto | right; right; exact E].
  Qed.
  Lemma other_list c1 c1' c2 c2' : at_cut bl c1 c1' -> at_cut sl c2 c2' -> apart c1 c1' c2 c2'.
  Proof.
    intros (i & -> & ->) (j & -> & ->). destruct Hs as [_ Hsep]. pose proof (bl_best i) as Bb. pose proof (sl_best j) as Bs.
    pose proof (proj2 (proj2 (proj2 (part_le _ _ (bl_perm i))))) as Ib. pose proof (proj2 (proj2 (proj2 (part_le _ _ (sl_perm j))))) as Is.
    set (x := firstn i bl) in *. set (y := firstn j sl) in *. unfold apart.
    destruct x as [|r x]; destruct y as [|r' y].
    - left. split; reflexivity.
    - right. left. rewrite qsumf_nil. pose proof (sum_gt (r' :: y) ltac:(discriminate) Is). qlra.
    - right. right. rewrite qsumf_nil. pose proof (sum_gt (r :: x) ltac:(discriminate) Ib). qlra.
    - right. specialize (Hsep (r :: x) (r' :: y) ltac:(discriminate) ltac:(discriminate) Bb Bs). unfold qabs in Hsep.
      destruct (qle_spec 0 (qsumf qty (r :: x) - qsumf qty (r' :: y))); [right | left]; qlra.
  Qed.
  Lemma cut_apart c1 c1' c2 c2' : cut_pair c1 c1' -> cut_pair c2 c2' -> apart c1 c1' c2 c2'.
  Proof.
    assert (Ib : forall r, In r bl -> In r d) by (intros r Hr; apply desc_in in Hr; tauto).
    assert (Is : forall r, In r sl -> In r d) by (intros r Hr; apply asc_in in Hr; tauto).
    intros [A|A] [B|B]; [apply (same_list bl) | apply other_list | | apply (same_list sl)]; try assumption.
    destruct (other_list _ _ _ _ B A) as [[-> ->]|[H|H]]; [left; auto | right; right; exact H | right; left; exact H].
  Qed.
  Lemma cut_order c1 c1' c2 c2' : cut_pair c1 c1' -> cut_pair c2 c2' -> c1 = c2 /\ c1' = c2' \/ c1 < c2 /\ c1' < c2' \/ c2 < c1 /\ c2' < c1'.
  Proof.
    intros H1 H2. destruct (cut_near _ _ H1) as [N1 N1'], (cut_near _ _ H2) as [N2 N2']. destruct slack_ge as (G1 & G2 & _). pose proof err_nonneg.
    destruct (cut_apart _ _ _ _ H1 H2) as [E|[L|L]]; [left; exact E | right; left; split; qlra | right; right; split; qlra].
  Qed.
  Lemma mv_0 : mv (Fin 0) (Fin 0).
  Proof. right. exists 0, 0. split; [reflexivity|]. split; [reflexivity|]. left. exists 0%nat. split; reflexivity. Qed.
  Lemma mv_leb x x' y y' : mv x x' -> mv y y' -> nleb x' y' = nleb x y.
  Proof.
    intros [[-> ->]|(c & c' & -> & -> & H1)] [[-> ->]|(c2 & c2' & -> & -> & H2)]; try reflexivity. cbn [nleb].
    destruct (cut_order _ _ _ _ H1 H2) as [[-> ->]|[[L L']|[L L']]]; [rewrite !(proj2 (qleb_le _ _)) by qlra; reflexivity | |].
    - rewrite (proj2 (qleb_le c c2)), (proj2 (qleb_le c' c2')) by qlra. reflexivity.
    - rewrite (proj2 (qleb_gt c c2)), (proj2 (qleb_gt c' c2')) by qlra. reflexivity.
  Qed.
  Lemma mv_ltb x x' y y' : mv x x' -> mv y y' -> nltb x' y' = nltb x y.
  Proof.
    intros [[-> ->]|(c & c' & -> & -> & H1)] [[-> ->]|(c2 & c2' & -> & -> & H2)]; try reflexivity. cbn [nltb].
    destruct (cut_order _ _ _ _ H1 H2) as [[-> ->]|[[L L']|[L L']]]; [rewrite !(proj2 (qltb_ge _ _)) by qlra; reflexivity | |].
    - rewrite (proj2 (qltb_lt c c2)), (proj2 (qltb_lt c' c2')) by qlra. reflexivity.
    - rewrite (proj2 (qltb_ge c c2)), (proj2 (qltb_ge c' c2')) by qlra. reflexivity.
  Qed.
  Lemma mv_eqb x x' y y' : mv x x' -> mv y y' -> neqb x' y' = neqb x y.
  Proof.
    intros [[-> ->]|(c & c' & -> & -> & H1)] [[-> ->]|(c2 & c2' & -> & -> & H2)]; try reflexivity. cbn [neqb].
    destruct (cut_order _ _ _ _ H1 H2) as [[-> ->]|[[L L']|[L L']]].
    - rewrite (proj2 (qeqb_eq c2 c2)), (proj2 (qeqb_eq c2' c2')) by reflexivity. reflexivity.
    - rewrite (proj2 (qeqb_neq c c2)), (proj2 (qeqb_neq c' c2')); [reflexivity | intro; qlra | intro; qlra].
    - rewrite (proj2 (qeqb_neq c c2)), (proj2 (qeqb_neq c' c2')); [reflexivity | intro; qlra | intro; qlra].
  Qed.
  Lemma mv_nan x x' : mv x x' -> x <> NaN /\ x' <> NaN.
  Proof. intros [[-> ->]|(c & c' & -> & -> & _)]; split; discriminate. Qed.
  Lemma rows_moved L : (forall c c', at_cut L c c' -> cut_pair c c') -> forall v, moved mv (curve_rows L ++ [(PInf, v)]) (curve_rows_r R L ++ [(PInf, v)]).
  Proof.
    intros HL v. rewrite <- curve_rows_exact. change (curve_rows_r exact L) with (crows_r exact 0 L). change (curve_rows_r R L) with (crows_r R 0 L).
    apply Forall2_app; [|repeat constructor; left; split; reflexivity].
    assert (K : forall l pre, L = pre ++ l -> Forall2 (fun p p' => mv (fst p) (fst p') /\ snd p = snd p') (crows_r exact (qsumf qty pre) l) (crows_r R (run R (map qty pre)) l)).
    { induction l as [|r l IH]; intros pre E; [constructor|]. rewrite !crows_r_cons. change (exact (qsumf qty pre + qty r)) with (qsumf qty pre + qty r).
      assert (E' : L = (pre ++ [r]) ++ l) by (rewrite E, <- app_assoc; reflexivity).
      assert (Q1 : qsumf qty pre + qty r = qsumf qty (pre ++ [r])) by (rewrite qsumf_app, qsumf_cons, qsumf_nil; ring).
      assert (Q2 : R (run R (map qty pre) + qty r) = run R (map qty (pre ++ [r]))) by (rewrite map_app; cbn [map]; rewrite run_snoc; reflexivity).
      rewrite Q1, Q2. constructor; [|apply IH, E']. cbn [fst snd]. split; [|reflexivity]. right. eexists. eexists. split; [reflexivity|]. split; [reflexivity|].
      apply HL. exists (length (pre ++ [r])). rewrite E', firstn_app, firstn_all, Nat.sub_diag, firstn_O, app_nil_r. split; reflexivity. }
    exact (K L [] eq_refl).
  Qed.
  Theorem same_crossing k :
    match intersect_stepwise_r R (fst (demand_curve_from_bids S d)) (fst (supply_curve_from_bids S d)) k, intersect_stepwise_r R (fst (demand_curve_r R S d)) (fst (supply_curve_r R S d)) k with
    | Ok (x, i, j, v), Ok (x', i', j', v') => Popt mv x x' /\ i' = i /\ j' = j /\ v' = v
    | Err e, Err e' => e = e'
    | _, _ => False
    end.
  Proof.
    apply (moved_intersect mv mv_0 mv_leb mv_ltb mv_eqb mv_nan); apply rows_moved; intros c c' H; [left | right]; exact H.
  Qed.
End Sep.
