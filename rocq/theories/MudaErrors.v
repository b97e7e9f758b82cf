(** When [muda] raises. *)
From Verif Require Import QcTac Num ModelBase ModelCurves ModelHuang ModelMuda ListFacts StoreFacts
  Spec SpecTrade SpecMuda TradeFacts MudaSide MudaHalf MudaSolve MudaOutcome MudaFacts MudaPrice.

Lemma dup_spec d : labels_unique d -> dup_price_user d = true <->
  exists r1 r2, In r1 d /\ In r2 d /\ lbl r1 <> lbl r2 /\ price r1 = price r2 /\ user r1 = user r2.
Proof.
  unfold labels_unique. induction d as [|r d IH]; intro Hu; simpl.
  - split; [discriminate|]. intros (r1 & _ & [] & _).
  - inversion Hu as [|a l N Hu']; subst. rewrite orb_true_iff, (IH Hu'), existsb_exists. split.
    + intros [(s & Hs & E)|(r1 & r2 & H1 & H2 & H)].
      * apply andb_true_iff in E. destruct E as [E1 E2]. apply (proj1 (qeqb_eq _ _)) in E1. apply Z.eqb_eq in E2.
        exists s, r. split; [right; exact Hs|]. split; [left; reflexivity|]. split; [|auto]. intro El. apply N. rewrite <- El. apply in_map, Hs.
      * exists r1, r2. auto.
    + intros (r1 & r2 & H1 & H2 & Nl & Ep & Eu). destruct H1 as [<-|H1], H2 as [<-|H2].
      * contradiction.
      * left. exists r2. split; [exact H2|]. rewrite (proj2 (qeqb_eq _ _)), (proj2 (Z.eqb_eq _ _)); auto.
      * left. exists r1. split; [exact H1|]. rewrite (proj2 (qeqb_eq _ _)), (proj2 (Z.eqb_eq _ _)); auto.
      * right. exists r1, r2. auto.
Qed.

Lemma check_spec d : labels_unique d -> dup_price_user (buyers d) || dup_price_user (sellers d) = true <-> repeated_price d.
Proof.
  intro Hu. rewrite orb_true_iff, !dup_spec by (apply NoDup_filter_map, Hu). unfold repeated_price. split.
  - intros [H|H]; destruct H as (r1 & r2 & H1 & H2 & H); apply filter_In in H1; apply filter_In in H2; destruct H1 as [H1 B1], H2 as [H2 B2]; exists r1, r2.
    + repeat split; try tauto. congruence.
    + apply negb_true_iff in B1. apply negb_true_iff in B2. repeat split; try tauto. congruence.
  - intros (r1 & r2 & H1 & H2 & N & B & H). destruct (buying r1) eqn:E.
    + left. exists r1, r2. unfold buyers. rewrite !filter_In. auto.
    + right. exists r1, r2. unfold sellers. rewrite !filter_In, E, <- B. auto.
Qed.

Section Errors.
  Variables (S : sorter) (d : df) (fl : list bool).
  Hypothesis Hq : qty_nonneg d.
  Hypothesis Hp : price_nonneg d.
  Hypothesis Hu : labels_unique d.

  Lemma half_price ls : price_nonneg (rows_in ls d).
  Proof. intros r Hr. apply rows_in_In in Hr. apply Hp, Hr. Qed.
  Lemma side_err ls p fees e : solve_market_side S (rows_in ls d) p fees = Err e -> e = IndexError.
  Proof.
    destruct p as [q| | |]; [apply half_err, half_qty, Hq|..]; rewrite half_infinite by discriminate; discriminate.
  Qed.
  Lemma body_err e : muda_body S d fl = Err e -> e = IndexError.
  Proof.
    unfold muda_body. destruct (price_total S _ (half_qty (left_of d fl) d Hq) (half_price (left_of d fl))) as (pl & ->).
    destruct (price_total S _ (half_qty (right_of d fl) d Hq) (half_price (right_of d fl))) as (pr & ->). cbn [bind].
    destruct (solve_market_side S (rows_in (left_of d fl) d) pr (zero_fees d)) as [[tl f1]|e1] eqn:E1; cbn [bind].
    2: { intro H. injection H as <-. exact (side_err _ _ _ _ E1). }
    destruct (solve_market_side S (rows_in (right_of d fl) d) pl f1) as [[tr f2]|e2] eqn:E2; cbn [bind]; [discriminate|].
    intro H. injection H as <-. exact (side_err _ _ _ _ E2).
  Qed.
  Lemma muda_not_implemented : muda S d fl = Err NotImplementedError <-> repeated_price d.
  Proof.
    rewrite muda_eq by exact Hu. unfold check_equal_price. rewrite <- (check_spec d Hu). destruct (_ || _); [tauto|].
    split; [|discriminate]. intro H. apply body_err in H. discriminate.
  Qed.
  Lemma muda_err e : muda S d fl = Err e -> e = NotImplementedError \/ e = IndexError.
  Proof.
    rewrite muda_eq by exact Hu. unfold check_equal_price. destruct (_ || _); [intro H; left; congruence|]. intro H. right. exact (body_err e H).
  Qed.
  Lemma side_len ls p fees tm f1 : (forall r, In r d -> (0 <= user r)%Z) -> solve_market_side S (rows_in ls d) p fees = Ok (tm, f1) -> length f1 = length fees.
  Proof.
    intros Hn E. apply (half_res S) in E; [|apply half_qty, Hq | apply rows_in_unique, Hu].
    destruct p as [q| | |]; simpl in E; [|destruct E as [_ ->]; reflexivity..].
    apply (ho_fees _ _ _ _ _ E). intros r Hr. apply rows_in_In in Hr. apply Hn, Hr.
  Qed.
  Lemma side_total_ok ls p fees : (forall r, In r d -> (0 <= user r)%Z /\ (user r < Z.of_nat (length fees))%Z) ->
    exists tm f1, solve_market_side S (rows_in ls d) p fees = Ok (tm, f1).
  Proof.
    intro Hn. destruct p as [q| | |]; [|rewrite half_infinite by discriminate; eauto..].
    apply half_total; [apply half_qty, Hq | apply rows_in_unique, Hu|]. intros r Hr. apply rows_in_In in Hr. apply Hn, Hr.
  Qed.
  Lemma muda_total : ~ repeated_price d ->
    (forall r, In r d -> (0 <= user r)%Z /\ (user r < Z.of_nat (length (nodup Z.eq_dec (map user d))))%Z) ->
    exists tm ex, muda S d fl = Ok (tm, ex).
  Proof.
    intros Nr Hn. rewrite muda_eq by exact Hu. unfold check_equal_price. destruct (_ || _) eqn:E; [exfalso; apply Nr, (check_spec d Hu), E|].
    assert (El : length (uniqueZ (map user d)) = length (nodup Z.eq_dec (map user d))).
    { apply Permutation_length. apply NoDup_Permutation; [apply uniqueZ_NoDup | apply NoDup_nodup|]. intro x. rewrite uniqueZ_In, nodup_In. tauto. }
    rewrite <- El in Hn.
    assert (Lz : length (zero_fees d) = length (uniqueZ (map user d))) by apply repeat_length.
    unfold muda_body. destruct (price_total S _ (half_qty (left_of d fl) d Hq) (half_price (left_of d fl))) as (pl & ->).
    destruct (price_total S _ (half_qty (right_of d fl) d Hq) (half_price (right_of d fl))) as (pr & ->). cbn [bind].
    destruct (side_total_ok (left_of d fl) pr (zero_fees d)) as (tl & f1 & E1); [rewrite Lz; exact Hn|].
    pose proof (side_len _ _ _ _ _ (fun r Hr => proj1 (Hn r Hr)) E1) as L1. rewrite E1. cbn [bind].
    destruct (side_total_ok (right_of d fl) pl f1) as (tr & f2 & E2); [rewrite L1, Lz; exact Hn|]. rewrite E2. cbn [bind]. eauto.
  Qed.
End Errors.
