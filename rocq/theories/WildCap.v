(** The Huang auction with infinite prices: the same as with prices that are large enough, unless too much is wanted at any price. *)
From Verif Require Import QcTac Num NumFacts ListFacts ModelBase ModelCurves ModelHuang ModelAny ModelWild Spec SpecWild CurveFacts IntersectFacts
  StoreFacts UpdateFacts HuangFacts UnitFacts SepFacts WildFacts WildSort.

(** ** What an auction does, for any prices *)
Definition next_price (B2 : wdf) (pb : num) : Prop := pb = match B2 with [] => Fin 0 | rb :: _ => w_price rb end.
Definition w_outcome (B L : wdf) (r : res (list (atrans Qc num) * option (num * num * Qc))) : Prop :=
  r = Ok ([], None) \/
  exists B1 B2 L1 rs L2 pb q ts, B = B1 ++ B2 /\ L = L1 ++ rs :: L2 /\ next_price B2 pb /\ nlt (w_price rs) pb /\
    r = Ok (ts, Some (w_price rs, pb, q)) /\
    ((B1 = [] \/ L1 = []) /\ ts = [] /\ q = qsumf w_qty B1 \/
     exists qs qb, rationed (map w_qty L1) qs /\ rationed (map w_qty B1) qb /\
       qsum qs = qmin (qsumf w_qty B1) (qsumf w_qty L1) /\ qsum qb = qmin (qsumf w_qty B1) (qsumf w_qty L1) /\
       q = qsum qb /\ ts = w_emit L1 qs (w_price rs) ++ w_emit B1 qb pb).

Section Table.
  Variable S : wsorter.
  Variable d : wdf.
  Hypothesis Hq : w_qty_nonneg d.
  Let B := w_desc S (w_buyers d).
  Let L := w_asc S (w_sellers d).
  Lemma in_B x : In x B -> In x d /\ w_buying x = true.
  Proof. intro H. apply (Permutation_in _ (w_desc_perm S _)) in H. apply filter_In in H. exact H. Qed.
  Lemma in_L x : In x L -> In x d /\ w_buying x = false.
  Proof. intro H. apply (Permutation_in _ (w_asc_perm S _)) in H. apply filter_In in H. destruct H as [H K]. split; [exact H|]. destruct (w_buying x); [discriminate | reflexivity]. Qed.
  Lemma qB x : In x B -> 0 <= w_qty x. Proof. intro H. apply Hq, in_B, H. Qed.
  Lemma qL x : In x L -> 0 <= w_qty x. Proof. intro H. apply Hq, in_L, H. Qed.

  Theorem w_cases : w_outcome B L (w_huang S d).
  Proof.
    unfold w_huang. fold B. fold L. cbn zeta.
    destruct (intersect_pairs (w_demand B) (w_supply L) (w_ends B _ qB) (w_ends L _ qL) (w_end_inf B _) (w_end_inf L _) (qf 1 2))
      as [(x & y & b & s & u & w & i' & j' & u' & w' & v & E & _ & Sf & Sg & Lwu & _)|(v & E & _)].
    2:{ rewrite E. left. reflexivity. }
    rewrite E. cbn [bind]. destruct (StepAt_in _ _ _ _ Sf) as (af & _ & _ & Nf). destruct (StepAt_in _ _ _ _ Sg) as (ag & _ & _ & Ng). rewrite Ng, Nf.
    assert (Hs : exists rs, nth_error L s = Some rs /\ w = w_price rs).
    { destruct (w_nth _ _ _ _ _ Ng) as [(r & H1 & _ & H2)|(_ & _ & ->)]; [eauto|]. destruct u; discriminate. }
    destruct Hs as (rs & Ns & ->).
    assert (Hb : next_price (skipn b B) u /\ (b <= length B)%nat).
    { destruct (w_nth _ _ _ _ _ Nf) as [(rb & H & _ & ->)|(-> & _ & ->)].
      - pose proof (nth_error_split' _ _ _ H) as EB. assert (LB : (b < length B)%nat) by (apply nth_error_Some; congruence). split; [|lia].
        unfold next_price. rewrite EB at 1. rewrite skipn_app, firstn_length_le by lia.
        rewrite Nat.sub_diag. rewrite skipn_all2 by (rewrite firstn_length; lia). reflexivity.
      - rewrite skipn_all. split; [reflexivity | lia]. }
    destruct Hb as [Nb Lb]. pose proof (eq_sym (firstn_skipn b B)) as EB. pose proof (nth_error_split' _ _ _ Ns) as EL.
    assert (LB : length (firstn b B) = b) by (apply firstn_length_le; exact Lb).
    assert (LL : length (firstn s L) = s) by (apply firstn_length_le, Nat.lt_le_incl, nth_error_Some; congruence).
    set (B1 := firstn b B) in *. set (L1 := firstn s L) in *.
    assert (QB : forall z, In z B1 -> 0 <= w_qty z) by (intros z Hz; apply qB, (In_firstn _ _ _ Hz)).
    assert (QL : forall z, In z L1 -> 0 <= w_qty z) by (intros z Hz; apply qL, (In_firstn _ _ _ Hz)).
    assert (SB : 0 <= qsumf w_qty B1) by (apply qsumf_nonneg; exact QB).
    assert (SL : 0 <= qsumf w_qty L1) by (apply qsumf_nonneg; exact QL).
    assert (RB : rationed (map w_qty B1) (map w_qty B1)) by (apply rationed_refl; intros z Hz; apply in_map_iff in Hz; destruct Hz as (r & <- & Hr); apply QB, Hr).
    assert (RL : rationed (map w_qty L1) (map w_qty L1)) by (apply rationed_refl; intros z Hz; apply in_map_iff in Hz; destruct Hz as (r & <- & Hr); apply QL, Hr).
    right. exists B1, (skipn b B), L1, rs, (skipn (Datatypes.S s) L), u.
    destruct (Nat.ltb 0 b && Nat.ltb 0 s) eqn:Pos.
    2:{ exists (qsumf w_qty B1), []. repeat (split; [assumption || reflexivity|]). left. split; [|auto]. apply andb_false_iff in Pos.
        destruct Pos as [Pos|Pos]; apply Nat.ltb_ge in Pos; [left|right]; apply length_zero_iff_nil; lia. }
    apply andb_true_iff in Pos. destruct Pos as [Pb Ps]. apply Nat.ltb_lt in Pb, Ps.
    assert (NB : B1 <> []) by (intro Z; rewrite Z in LB; simpl in LB; lia).
    assert (NL : L1 <> []) by (intro Z; rewrite Z in LL; simpl in LL; lia).
    change (qsum (map w_qty B1)) with (qsumf w_qty B1). change (qsum (map w_qty L1)) with (qsumf w_qty L1).
    destruct (qlt_spec 0 (qsumf w_qty L1 - qsumf w_qty B1)) as [G|G].
    - destruct (update_quantity_spec (map w_qty L1) (qsumf w_qty L1 - qsumf w_qty B1)) as (t & T0 & EU & SU).
      + destruct L1; [congruence | discriminate].
      + qlra.
      + change (qsum (map w_qty L1)) with (qsumf w_qty L1). qlra.
      + rewrite EU. cbn [bind]. do 2 eexists. repeat (split; [eassumption || reflexivity|]). right.
        exists (map (fun x => qmax 0 (x - t)) (map w_qty L1)), (map w_qty B1). split; [exists t; auto|]. split; [exact RB|].
        change (qsum (map w_qty L1)) with (qsumf w_qty L1) in SU. rewrite SU. change (qsum (map w_qty B1)) with (qsumf w_qty B1).
        destruct (qmin_case (qsumf w_qty B1) (qsumf w_qty L1)) as [[Em ?]|[Em ?]]; rewrite Em; [|exfalso; qlra].
        split; [ring|]. auto.
    - destruct (update_quantity_spec (map w_qty B1) (- (qsumf w_qty L1 - qsumf w_qty B1))) as (t & T0 & EU & SU).
      + destruct B1; [congruence | discriminate].
      + qlra.
      + change (qsum (map w_qty B1)) with (qsumf w_qty B1). qlra.
      + rewrite EU. cbn [bind]. do 2 eexists. repeat (split; [eassumption || reflexivity|]). right.
        exists (map w_qty L1), (map (fun x => qmax 0 (x - t)) (map w_qty B1)). split; [exact RL|]. split; [exists t; auto|].
        change (qsum (map w_qty B1)) with (qsumf w_qty B1) in SU. rewrite SU. change (qsum (map w_qty L1)) with (qsumf w_qty L1).
        destruct (qmin_case (qsumf w_qty B1) (qsumf w_qty L1)) as [[Em ?]|[Em ?]]; rewrite Em.
        * split; [qlra|]. split; [qlra|]. auto.
        * split; [ring|]. split; [ring|]. auto.
  Qed.
End Table.

(** ** Too much wanted at any price *)
Lemma prefix_sum (l : wdf) i : (forall x, In x l -> 0 <= w_qty x) -> qsumf w_qty (firstn i l) <= qsumf w_qty l.
Proof.
  intro H. rewrite <- (firstn_skipn i l) at 2. rewrite qsumf_app. assert (0 <= qsumf w_qty (skipn i l)) by (apply qsumf_nonneg; intros x Hx; apply H, (In_skipn _ _ _ Hx)). qlra.
Qed.
Lemma flood_none S d : w_qty_nonneg d -> offered d < wanted_at_any_price d -> w_huang S d = Ok ([], None).
Proof.
  intros Hq Hd. unfold w_huang. set (B := w_desc S (w_buyers d)). set (L := w_asc S (w_sellers d)). cbn zeta.
  destruct (intersect_pairs (w_demand B) (w_supply L) (w_ends B _ (qB S d Hq)) (w_ends L _ (qL S d Hq)) (w_end_inf B _) (w_end_inf L _) (qf 1 2))
    as [(x & y & b & s & u & w & i' & j' & u' & w' & v & E & (_ & _ & Lxy & Nx) & Sf & Sg & Lwu & Sf' & Sg' & Lwu')|(v & E & _)].
  2:{ rewrite E. reflexivity. }
  exfalso. pose proof (down_inf B (w_desc_sorted S _)) as EB. set (F := filter at_any_price B) in *. set (R := filter (fun z => negb (at_any_price z)) B) in *.
  assert (EL : qsumf w_qty L = offered d) by (apply qsumf_perm, w_asc_perm).
  assert (EF : qsumf w_qty F = wanted_at_any_price d).
  { unfold F, wanted_at_any_price, B. rewrite (qsumf_perm _ _ _ (filter_perm at_any_price _ _ (w_desc_perm S (w_buyers d)))). unfold w_buyers. rewrite filter_filter. reflexivity. }
  assert (Ax : nle x (Fin (qsumf w_qty L))).
  { destruct (w_step _ _ _ _ _ Sg) as [(r & _ & H & _)|(_ & -> & _)]; [|destruct u; discriminate].
    apply (nle_trans _ _ _ H), nle_Fin, prefix_sum. exact (qL S d Hq). }
  assert (PL : 0 <= qsumf w_qty L) by (apply qsumf_nonneg; exact (qL S d Hq)).
  assert (NF : F <> []) by (intro Z; rewrite Z, qsumf_nil in EF; qlra).
  (* the last of these bids ends at the quantity wanted at any price *)
  destruct (exists_last NF) as (F' & r & EF').
  assert (NE : nth_error (w_demand B) (length F') = Some (Fin (qsumf w_qty F), w_price r)).
  { unfold w_demand. rewrite w_rows_wrows, EB, EF', <- app_assoc. cbn [app]. rewrite nth_error_app1 by (rewrite wrows_length, app_length; simpl; lia).
    rewrite (wrows_nth 0 _ _ r) by (rewrite nth_error_app2, Nat.sub_diag by lia; reflexivity). rewrite Qcplus_0_l. do 3 f_equal.
    rewrite firstn_app, firstn_all2 by lia. replace (Datatypes.S (length F') - length F')%nat with 1%nat by lia. reflexivity. }
  assert (PR : forall i z, (i <= length F')%nat -> nth_error B i = Some z -> w_price z = PInf).
  { intros i z Hi Hz. assert (In z F).
    { rewrite EB in Hz. rewrite nth_error_app1 in Hz by (rewrite EF', app_length; simpl; lia). apply (nth_error_In _ _ Hz). }
    apply filter_In in H. destruct H as [_ H]. unfold at_any_price in H. destruct (w_price z); try discriminate. reflexivity. }
  destruct (Nx (Fin (qsumf w_qty F))) as [C|C].
  - left. exists (w_price r). exact (nth_error_In _ _ NE).
  - apply (nle_trans _ _ _ C) in Ax. apply nle_Fin in Ax. qlra.
  - destruct Sf' as ((a & H1 & H2) & H3). assert (Hi : (i' <= length F')%nat).
    { destruct (Nat.le_gt_cases i' (length F')) as [H|H]; [exact H|]. specialize (H3 _ _ _ H NE). unfold nle in C. congruence. }
    destruct (w_nth _ _ _ _ _ H1) as [(z & Hz & _ & ->)|(-> & _ & _)].
    + rewrite (PR i' z Hi Hz) in Lwu'. destruct w'; discriminate.
    + rewrite EB, EF', !app_length in Hi. simpl in Hi. lia.
Qed.

(** ** Large prices instead of infinite ones *)
Section Cap.
  Variable P : Qc.
  Lemma cap_ltb a b : ok a -> ok b -> 0 < P -> (forall q, a = Fin q -> - P < q /\ q < P) -> (forall q, b = Fin q -> - P < q /\ q < P) ->
    qltb (cap P a) (cap P b) = nltb a b.
  Proof.
    intros Oa Ob HP Ha Hb. destruct a as [a| | |], b as [b| | |]; cbn [cap nltb]; try congruence; try reflexivity;
      try (destruct (Ha a eq_refl)); try (destruct (Hb b eq_refl)); (apply qltb_lt; qlra) || (apply qltb_ge; qlra).
  Qed.
  Definition capped (l : wdf) (v : num) : curve := curve_rows (map (cap_row P) l) ++ [(PInf, v)].
  Lemma capped_fst l v v' : map fst (capped l v) = map fst (w_rows l ++ [(PInf, v')]).
  Proof.
    unfold capped. rewrite !map_app. f_equal. rewrite curve_rows_crows, w_rows_wrows. generalize 0. induction l as [|r l IH]; intro a; [reflexivity|].
    cbn [map]. rewrite crows_cons, wrows_cons. cbn [map fst]. rewrite IH. reflexivity.
  Qed.
  Lemma capped_nth l v i r : nth_error l i = Some r -> exists a, nth_error (capped l v) i = Some (a, Fin (cap P (w_price r))).
  Proof.
    intro H. unfold capped. rewrite curve_rows_crows, nth_error_app1 by (rewrite crows_length, map_length; apply nth_error_Some; congruence).
    erewrite crows_nth by (rewrite nth_error_map, H; reflexivity). eexists. reflexivity.
  Qed.
  Lemma capped_last l v : nth_error (capped l v) (length l) = Some (PInf, v).
  Proof. unfold capped. rewrite nth_error_app2; rewrite curve_rows_crows, crows_length, map_length; [rewrite Nat.sub_diag; reflexivity | lia]. Qed.
  Lemma StepAt_fst (h h' : curve) x i u a u' : map fst h' = map fst h -> StepAt h x i u -> nth_error h' i = Some (a, u') -> StepAt h' x i u'.
  Proof.
    intros E ((b & H1 & H2) & H3) N.
    assert (K : forall j, option_map fst (nth_error h' j) = option_map fst (nth_error h j)) by (intro j; rewrite <- !nth_error_map, E; reflexivity).
    split.
    - exists a. split; [exact N|]. specialize (K i). rewrite N, H1 in K. injection K as ->. exact H2.
    - intros j c w Lj Nj. specialize (K j). rewrite Nj in K. destruct (nth_error h j) as [[c' w']|] eqn:Ej; [|discriminate]. injection K as ->. exact (H3 j _ _ Lj Ej).
  Qed.
  (** the values of the two curves at the same place *)
  Lemma value_pair l v x : ok x -> nltb x (Fin 0) = false -> exists u u', get_value_stepwise x (w_rows l ++ [(PInf, v)]) = Some u /\ get_value_stepwise x (capped l v) = Some u' /\
    ((exists i r, nth_error l i = Some r /\ nle x (Fin (qsumf w_qty (firstn (S i) l))) /\ u = w_price r /\ u' = Fin (cap P (w_price r))) \/
     (u = v /\ u' = v /\ (l = [] \/ nlt (Fin (qsumf w_qty l)) x))).
  Proof.
    intros Ox Px. destruct (step_some _ x (w_end_inf l v) Ox) as (i & u & Su). unfold get_value_stepwise. rewrite Px.
    destruct (w_step _ _ _ _ _ Su) as [(r & Nr & Lr & ->)|(-> & -> & El)].
    - destruct (capped_nth l v i r Nr) as (a & Na). pose proof (StepAt_fst _ (capped l v) _ _ _ _ _ (capped_fst l v v) Su Na) as Su'.
      exists (w_price r), (Fin (cap P (w_price r))). split; [apply step_search_iff; eauto|]. split; [apply step_search_iff; eauto|]. left. exists i, r. auto.
    - pose proof (StepAt_fst _ (capped l v) _ _ _ _ _ (capped_fst l v v) Su (capped_last l v)) as Su'.
      exists v, v. split; [apply step_search_iff; eauto|]. split; [apply step_search_iff; eauto|]. right. auto.
  Qed.

  Variables B L : wdf.
  Hypothesis HP : 0 < P.
  Hypothesis So : StronglySorted down B.
  Hypothesis OB : forall x, In x B -> ok (w_price x) /\ 0 < w_qty x /\ forall q, w_price x = Fin q -> - P < q /\ q < P.
  Hypothesis OL : forall x, In x L -> ok (w_price x) /\ 0 < w_qty x /\ forall q, w_price x = Fin q -> - P < q /\ q < P.
  Hypothesis Flood : qsumf w_qty (filter at_any_price B) <= qsumf w_qty L.
  (** bids at any price come first *)
  Lemma any_before i r : nth_error B i = Some r -> w_price r = PInf -> qsumf w_qty (firstn (S i) B) <= qsumf w_qty (filter at_any_price B).
  Proof.
    intros N E. pose proof (down_inf B So) as EB. set (F := filter at_any_price B) in *. set (R := filter (fun z => negb (at_any_price z)) B) in *.
    assert (Hi : (i < length F)%nat).
    { destruct (Nat.lt_ge_cases i (length F)) as [H|H]; [exact H|]. rewrite EB, nth_error_app2 in N by exact H. apply nth_error_In in N.
      apply filter_In in N. destruct N as [_ N]. unfold at_any_price in N. rewrite E in N. discriminate. }
    replace (firstn (S i) B) with (firstn (S i) F).
    - apply prefix_sum. intros x Hx. apply filter_In in Hx. destruct (OB x (proj1 Hx)) as (_ & H & _). apply Qclt_le_weak, H.
    - rewrite EB, firstn_app. replace (S i - length F)%nat with 0%nat by lia. cbn [firstn]. symmetry. apply app_nil_r.
  Qed.
  Lemma Finz_bound q : Fin 0 = Fin q -> - P < q /\ q < P.
  Proof. intro E. injection E as <-. split; qlra. Qed.
  Lemma cap_compare x : opt_gt (get_value_stepwise x (capped B (Fin 0))) (get_value_stepwise x (capped L PInf)) = opt_gt (get_value_stepwise x (w_demand B)) (get_value_stepwise x (w_supply L)) /\
    opt_lt (get_value_stepwise x (capped B (Fin 0))) (get_value_stepwise x (capped L PInf)) = opt_lt (get_value_stepwise x (w_demand B)) (get_value_stepwise x (w_supply L)).
  Proof.
    destruct (nltb x (Fin 0)) eqn:Px; [unfold get_value_stepwise; rewrite Px; auto|].
    assert (Dx : x = NaN \/ ok x) by (destruct x; (left; reflexivity) || (right; discriminate)). destruct Dx as [->|Ox]; [unfold get_value_stepwise; rewrite Px, !step_search_NaN; auto|].
    destruct (value_pair B (Fin 0) x Ox Px) as (u & u' & Eu & Eu' & Hu), (value_pair L PInf x Ox Px) as (w & w' & Ew & Ew' & Hw).
    unfold w_demand, w_supply. rewrite Eu, Eu', Ew, Ew'. unfold opt_lt. cbn [opt_gt].
    assert (A : forall a b, ok a -> ok b -> (forall q, a = Fin q -> - P < q /\ q < P) -> (forall q, b = Fin q -> - P < q /\ q < P) ->
      nltb (Fin (cap P a)) (Fin (cap P b)) = nltb a b) by (intros a b Oa Ob Ha Hb; exact (cap_ltb a b Oa Ob HP Ha Hb)).
    destruct Hw as [(j & r' & Nr' & _ & -> & ->)|(-> & -> & El)].
    - destruct (OL r' (nth_error_In _ _ Nr')) as (O1 & _ & O2). destruct Hu as [(i & r & Nr & _ & -> & ->)|(-> & -> & _)].
      + destruct (OB r (nth_error_In _ _ Nr)) as (O3 & _ & O4). rewrite !A by assumption. auto.
      + change (Fin 0) with (Fin (cap P (Fin 0))) at 1 3. rewrite !A; auto using Finz_bound, ok_Fin.
    - destruct Hu as [(i & r & Nr & Lr & -> & ->)|(-> & -> & _)]; [|auto].
      destruct (OB r (nth_error_In _ _ Nr)) as (O3 & Q3 & O4). split; [destruct (w_price r); reflexivity|].
      destruct (w_price r) eqn:Er; cbn [cap nltb]; try reflexivity; [|elim O3; reflexivity]. exfalso.
      pose proof (any_before i r Nr Er) as Ai. assert (Qi : 0 < qsumf w_qty (firstn (S i) B)).
      { rewrite (firstn_S_snoc _ _ _ Nr), qsumf_app, qsumf_cons, qsumf_nil.
        assert (0 <= qsumf w_qty (firstn i B)) by (apply qsumf_nonneg; intros z Hz; apply In_firstn in Hz; destruct (OB z Hz) as (_ & H & _); apply Qclt_le_weak, H). qlra. }
      destruct El as [->|El].
      + rewrite qsumf_nil in Flood. qlra.
      + apply (nlt_le_trans _ _ _ El), nlt_Fin in Lr. qlra.
  Qed.
End Cap.
