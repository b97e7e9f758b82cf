(** On separated bids rounding does not change the competitive price at all. *)
From Coq Require Import Permutation Sorted.
From Verif Require Import QcTac Num NumFacts ListFacts ModelBase ModelCurves ModelHuang ModelMuda ModelRound Spec SpecRound SpecSep Sorter CurveFacts IntersectFacts
  RoundFacts RoundHuang RoundError MudaPrice GridFacts SepFacts SepUpdate.

Lemma value_cases R f g k x i j v x' i' j' v' : intersect_stepwise f g k = Ok (x, i, j, v) -> intersect_stepwise_r R f g k = Ok (x', i', j', v') ->
  v' = v \/ (exists y, x = Some y /\ nmem y (map fst f) = true /\ nmem y (map fst g) = true) \/
  x = None /\ exists gv fv, (exists a, In (a, gv) g) /\ (exists a, In (a, fv) f) /\ v = nadd (nmul gv (Fin k)) (nmul (Fin (1 - k)) fv) /\ v' = mix_r R gv fv k.
Proof.
  unfold intersect_stepwise_r, intersect_stepwise. destruct (col_max f); [|discriminate]. cbn [bind].
  destruct (col_max g); [|discriminate]. cbn [bind]. cbv zeta. destruct (scan _ _) as [xa|]; [|discriminate]. cbn [bind].
  destruct (piece_value _ _ g) as [[gv|]|] eqn:Eg; [| |discriminate]; cbn [bind];
    (destruct (piece_value _ _ f) as [[fv|]|] eqn:Ef; try discriminate). cbn [bind].
  intros E E'. injection E as <- <- <- <-. injection E' as <- <- <- <-. destruct xa as [y|].
  - cbn [mem_col]. destruct (nmem y (map fst f)) eqn:Mf; cbn [andb]; [|left; reflexivity]. destruct (nmem y (map fst g)) eqn:Mg; [|left; reflexivity]. right. left. eauto.
  - right. right. split; [reflexivity|]. exists gv, fv. split; [apply (piece_in _ _ _ _ Eg)|]. split; [apply (piece_in _ _ _ _ Ef)|]. auto.
Qed.
Lemma nmem_in y l : nmem y l = true -> In y l.
Proof.
  unfold nmem. intro H. apply existsb_exists in H. destruct H as (z & Hz & E). replace y with z; [exact Hz|]. destruct y, z; try discriminate; try reflexivity. cbn [neqb] in E. apply qeqb_eq in E. congruence.
Qed.
Lemma row_cut l v c w : In (Fin c, w) (curve_rows l ++ [(PInf, v)]) -> exists i, firstn i l <> [] /\ c = qsumf qty (firstn i l).
Proof.
  rewrite <- curve_rows_exact. change (curve_rows_r exact l) with (crows_r exact 0 l). intro H. apply in_app_or in H. destruct H as [H|[H|[]]]; [|discriminate].
  assert (K : forall l a, In (Fin c, w) (crows_r exact a l) -> exists i, firstn i l <> [] /\ c = a + qsumf qty (firstn i l)).
  { clear. induction l as [|r l IH]; intros a H; [destruct H|]. rewrite crows_r_cons in H. change (exact (a + qty r)) with (a + qty r) in H. destruct H as [H|H].
    - injection H as <- _. exists 1%nat. split; [discriminate|]. cbn [firstn]. rewrite qsumf_cons, qsumf_nil. ring.
    - destruct (IH _ H) as (i & _ & ->). exists (Datatypes.S i). split; [discriminate|]. cbn [firstn]. rewrite qsumf_cons. ring. }
  destruct (K l 0 H) as (i & N & ->). exists i. split; [exact N | ring].
Qed.
Lemma last_row l v w : In (PInf, w) (curve_rows l ++ [(PInf, v)]) -> w = v.
Proof.
  rewrite <- curve_rows_exact. change (curve_rows_r exact l) with (crows_r exact 0 l). intro H. apply in_app_or in H. destruct H as [H|[H|[]]]; [|congruence].
  exfalso. revert H. generalize 0. induction l as [|r l IH]; intros a H; [destruct H|]. rewrite crows_r_cons in H. destruct H as [H|H]; [discriminate | exact (IH _ H)].
Qed.
Lemma row_value l v a w : In (a, w) (curve_rows l ++ [(PInf, v)]) -> w = v \/ exists q, w = Fin q.
Proof.
  rewrite <- curve_rows_exact. change (curve_rows_r exact l) with (crows_r exact 0 l). intro H. apply in_app_or in H. destruct H as [H|[H|[]]]; [|left; congruence].
  right. revert H. generalize 0. induction l as [|r l IH]; intros c H; [destruct H|]. rewrite crows_r_cons in H. destruct H as [H|H]; [injection H as _ <-; eauto | exact (IH _ H)].
Qed.

Section Price.
  Variables (R : rounding) (u : Qc).
  Hypothesis Hrel : rel_error R u.
  Variables (S : sorter) (d : df).
  Hypothesis Hq : qty_nonneg d.
  Hypothesis Hp : price_nonneg d.
  Hypothesis Hm : machine_qty R d.
  Hypothesis Hs : separated (slack u d) d.
  Notation f := (fst (demand_curve_from_bids S d)).
  Notation g := (fst (supply_curve_from_bids S d)).
  Theorem crossing_same :
    match intersect_stepwise f g (qf 1 2), intersect_stepwise_r R (fst (demand_curve_r R S d)) (fst (supply_curve_r R S d)) (qf 1 2) with
    | Ok (x, i, j, v), Ok (x', i', j', v') => MoveFacts.Popt (mv R S d) x x' /\ i' = i /\ j' = j /\ v' = v
    | Err a, Err a' => a = a'
    | _, _ => False
    end.
  Proof.
    pose proof (same_crossing R u Hrel S d Hq Hm Hs (qf 1 2)) as SC.
    pose proof (intersect_r_indices R f g (qf 1 2)) as EI. pose proof (price_cases S d Hq Hp) as PC. unfold find_competitive_price in PC.
    destruct (intersect_stepwise_r R f g (qf 1 2)) as [[[[q1 b1] s1] v1]|] eqn:E1;
      destruct (intersect_stepwise f g (qf 1 2)) as [[[[x b] s] v]|] eqn:E; try contradiction;
      destruct (intersect_stepwise_r R (fst (demand_curve_r R S d)) (fst (supply_curve_r R S d)) (qf 1 2)) as [[[[q' b'] s'] v']|]; try contradiction; [|congruence].
    destruct EI as (-> & -> & ->). destruct SC as (Px & -> & -> & ->). cbn [bind] in *. split; [exact Px|]. split; [reflexivity|]. split; [reflexivity|].
    destruct (intersect_cases f g (qf 1 2) (demand_nonempty S d) (supply_nonempty S d) (demand_ends S d Hq) (supply_ends S d Hq) (demand_decreasing S d Hp) (supply_increasing S d))
      as [(x' & i & j & uu & w & v' & E' & C & _ & Su & Sw)|(v' & E' & N)]; rewrite E in E'; injection E' as -> -> -> ->.
    - destruct (value_cases _ _ _ _ _ _ _ _ _ _ _ _ E E1) as [H|[(y & Ey & Mf & Mg)|(Z & _)]]; [exact H| |discriminate]. exfalso. injection Ey as <-.
      apply nmem_in in Mf. apply nmem_in in Mg. apply in_map_iff in Mf. apply in_map_iff in Mg. destruct Mf as ([a1 w1] & Ea & If). destruct Mg as ([a2 w2] & Eb & Ig). cbn [fst] in Ea, Eb. subst a1 a2.
      destruct x' as [c| | |].
      + destruct (row_cut _ _ _ _ If) as (ib & Nb & Eb). destruct (row_cut _ _ _ _ Ig) as (is & Ns & Es). destruct Hs as [_ Hsep].
        pose proof (Hsep _ _ Nb Ns (bl_best S d ib) (sl_best S d is)) as Z. rewrite <- Eb, <- Es in Z. destruct (slack_ge R u Hrel d Hq) as (_ & S0 & _). replace (c - c) with 0 in Z by ring. change (qabs 0) with 0 in Z. qlra.
      + destruct C as (_ & _ & (y & Ly & _) & _). destruct y; discriminate.
      + destruct C as (P & _). discriminate.
      + destruct C as (P & _). discriminate.
    - destruct PC as [[PC _]|(p & c & i & uu & j & w & _ & C & _)]; [|destruct (N _ C)]. injection PC as ->.
      destruct (value_cases _ _ _ _ _ _ _ _ _ _ _ _ E E1) as [H|[(y & Ey & _)|(_ & gv & fv & (a1 & I1) & (a2 & I2) & Ev & Ev')]]; [exact H | discriminate|].
      destruct (row_value _ _ _ _ I1) as [->|(qg & ->)]; destruct (row_value _ _ _ _ I2) as [->|(qf' & ->)]; try discriminate Ev; rewrite Ev'.
      + cbn. reflexivity.
      + cbn. reflexivity.
  Qed.
  Theorem price_same : find_competitive_price_r R S d = find_competitive_price S d.
  Proof.
    unfold find_competitive_price_r, find_competitive_price. pose proof crossing_same as C.
    destruct (intersect_stepwise f g (qf 1 2)) as [[[[x b] s] v]|];
      destruct (intersect_stepwise_r R (fst (demand_curve_r R S d)) (fst (supply_curve_r R S d)) (qf 1 2)) as [[[[q' b'] s'] v']|]; try contradiction; [|cbn; congruence].
    destruct C as (_ & _ & _ & ->). reflexivity.
  Qed.
End Price.
