(** When MUDA raises IndexError. *)
From Verif Require Import QcTac Num ModelBase ModelCurves ModelHuang ModelMuda ListFacts Spec SpecTrade SpecMuda SpecFee
  StoreFacts MudaSide MudaHalf MudaSolve MudaOutcome MudaFacts MudaErrors MudaTop MudaPrice.

Lemma set_fee_valid fees u f : valid_index (length fees) u -> exists fees', set_fee fees u f = Ok fees' /\ length fees' = length fees.
Proof.
  unfold valid_index, set_fee. intros [H1 H2]. destruct (Z.leb_spec 0 u), (Z.ltb_spec u (Z.of_nat (length fees))); simpl; try lia;
  try (eexists; split; [reflexivity | apply set_nth_length]).
  destruct (Z.leb_spec (- Z.of_nat (length fees)) u), (Z.ltb_spec u 0); simpl; try lia. eexists; split; [reflexivity | apply set_nth_length].
Qed.
Lemma set_fee_invalid fees u f : ~ valid_index (length fees) u -> set_fee fees u f = Err IndexError.
Proof.
  unfold valid_index, set_fee. intro H. destruct (Z.leb_spec 0 u), (Z.ltb_spec u (Z.of_nat (length fees))); simpl; try lia;
  destruct (Z.leb_spec (- Z.of_nat (length fees)) u), (Z.ltb_spec u 0); simpl; try lia; reflexivity.
Qed.
Lemma valid_dec n u : valid_index n u \/ ~ valid_index n u.
Proof. unfold valid_index. lia. Qed.
Lemma charge_valid ls li q p us : forall fees, (forall u, In u us -> valid_index (length fees) u) ->
  exists fees', charge_users ls li q p us fees = Ok fees' /\ length fees' = length fees.
Proof.
  induction us as [|u us IH]; intros fees H; simpl; [eauto|].
  destruct (set_fee_valid fees u (compute_fee (indexed ls) li u q p)) as (f1 & -> & L1); [apply H; left; reflexivity|]. cbn [bind].
  destruct (IH f1) as (f2 & E & L2); [intros v Hv; rewrite L1; apply H; right; exact Hv|]. exists f2. split; [exact E | congruence].
Qed.
Lemma charge_invalid ls li q p us u : forall fees, In u us -> ~ valid_index (length fees) u ->
  charge_users ls li q p us fees = Err IndexError.
Proof.
  induction us as [|v us IH]; intros fees Hi H; [contradiction|]. simpl.
  destruct (valid_dec (length fees) v) as [V|V].
  - destruct (set_fee_valid fees v (compute_fee (indexed ls) li v q p) V) as (f1 & -> & L1). cbn [bind].
    destruct Hi as [->|Hi]; [contradiction|]. apply IH; [exact Hi|]. rewrite L1. exact H.
  - rewrite (set_fee_invalid _ _ _ V). reflexivity.
Qed.

(** [solve_trade] with cuts that do not depend on the fees *)
Lemma solve_trade_all S d p : qty_nonneg d -> 0 < Q d p ->
  exists preS rS postS qS preL rL postL qL, Cut S d p (negb (lb d p)) preS rS postS qS /\ Cut S d p (lb d p) preL rL postL qL /\
  forall fees, trade S d p fees = (fees' <- charge_users (won preL rL qL ++ leftover rL qL postL) (length preL) (Q d p) p (uniqueZ (map user (won preL rL qL))) fees ;;
    Ok (add_all (add_all tm_init (map (mk p) (won preS rS qS))) (map (mk p) (won preL rL qL)), fees')).
Proof.
  intros Hq HQ. unfold trade.
  destruct (trading_cut (Ls S d p (lb d p)) (Q d p) (Ls_qty S d p Hq (lb d p)) HQ) as (preL & rL & postL & qL & L1 & L2 & L3 & L4 & L5); [rewrite Ls_sum; apply Q_le|].
  destruct (trading_cut (Ls S d p (negb (lb d p))) (Q d p) (Ls_qty S d p Hq (negb (lb d p))) HQ) as (preS & rS & postS & qS & S1 & S2 & S3 & S4 & S5); [rewrite Ls_sum; apply Q_le|].
  exists preS, rS, postS, qS, preL, rL, postL, qL. split; [unfold Cut; auto|]. split; [unfold Cut; auto|]. intro fees.
  rewrite L5, S5. cbn [bind]. cbv zeta. rewrite !firstn_win. reflexivity.
Qed.

Lemma half_index S h p : qty_nonneg h -> labels_unique h -> exists tl, forall fees,
  ((forall u, charged h p tl u -> valid_index (length fees) u) ->
     exists tm fees', solve_market_side S h p fees = Ok (tm, fees') /\ tm_trans tm = tl /\ length fees' = length fees) /\
  (forall u, charged h p tl u -> ~ valid_index (length fees) u -> solve_market_side S h p fees = Err IndexError).
Proof.
  intros Hq Hu. destruct p as [q| | |].
  2-4: exists []; intro fees; rewrite half_infinite by discriminate; split; [intros _; exists tm_init, fees; auto | intros u []].
  destruct (qlt_spec 0 (Q h q)) as [L|L].
  - destruct (solve_trade_all S h q Hq L) as (preS & rS & postS & qS & preL & rL & postL & qL & CS & CL & E).
    set (tl := map (mk q) (won preS rS qS) ++ map (mk q) (won preL rL qL)). exists tl. intro fees.
    assert (U : forall u, In u (uniqueZ (map user (won preL rL qL))) <-> charged h (Fin q) tl u) by (intro u; apply (tl_users S h q Hq Hu _ _ _ _ _ _ _ _ CS CL)).
    rewrite (solve_eq S h q Hq), (proj2 (qltb_lt _ _) L), E. split.
    + intro V. destruct (charge_valid (won preL rL qL ++ leftover rL qL postL) (length preL) (Q h q) q (uniqueZ (map user (won preL rL qL))) fees) as (f1 & -> & L1).
      { intros u H. apply V, U, H. }
      cbn [bind]. eexists _, f1. split; [reflexivity|]. split; [|exact L1]. rewrite !add_all_trans. reflexivity.
    + intros u Hc V. rewrite (charge_invalid _ _ _ _ _ u fees (proj2 (U u) Hc) V). reflexivity.
  - exists []. intro fees. rewrite (solve_eq S h q Hq), (proj2 (qltb_ge _ _) L). split; [intros _; exists tm_init, fees; auto|].
    intros u (t & r & [] & _).
Qed.

Theorem muda_index S d fl : qty_nonneg d -> price_nonneg d -> labels_unique d -> ~ repeated_price d ->
  exists l r pl pr tlL tlR,
    Permutation (l ++ r) (map lbl d) /\ (forall n x, nth_error d n = Some x -> (In (lbl x) l <-> nth n fl false = true)) /\
    find_competitive_price S (rows_in l d) = Ok pl /\ find_competitive_price S (rows_in r d) = Ok pr /\
    let n := length (nodup Z.eq_dec (map user d)) in
    ((forall u, charged (rows_in l d) pr tlL u \/ charged (rows_in r d) pl tlR u -> valid_index n u) ->
       exists tm fees, muda S d fl = Ok (tm, XMuda l r pl pr fees) /\ tm_trans tm = tlL ++ tlR /\ length fees = n) /\
    (forall u, charged (rows_in l d) pr tlL u \/ charged (rows_in r d) pl tlR u -> ~ valid_index n u ->
       muda S d fl = Err IndexError).
Proof.
  intros Hq Hp Hu Nr. rewrite muda_eq by exact Hu. unfold check_equal_price.
  destruct (_ || _) eqn:E; [exfalso; apply Nr, (check_spec d Hu), E|].
  assert (El : length (uniqueZ (map user d)) = length (nodup Z.eq_dec (map user d))).
  { apply Permutation_length. apply NoDup_Permutation; [apply uniqueZ_NoDup | apply NoDup_nodup|]. intro x. rewrite uniqueZ_In, nodup_In. tauto. }
  assert (Lz : length (zero_fees d) = length (nodup Z.eq_dec (map user d))) by (rewrite <- El; apply repeat_length).
  destruct (price_total S _ (half_qty (left_of d fl) d Hq) (half_price d Hp (left_of d fl))) as (pl & Pl).
  destruct (price_total S _ (half_qty (right_of d fl) d Hq) (half_price d Hp (right_of d fl))) as (pr & Pr).
  destruct (half_index S (rows_in (left_of d fl) d) pr (half_qty _ d Hq) (rows_in_unique _ d Hu)) as (tlL & HL).
  destruct (half_index S (rows_in (right_of d fl) d) pl (half_qty _ d Hq) (rows_in_unique _ d Hu)) as (tlR & HR).
  exists (left_of d fl), (right_of d fl), pl, pr, tlL, tlR.
  split; [apply halves_perm, Hu|]. split.
  { intros n x Hx. apply (left_spec (map lbl d) Hu fl n (lbl x)). apply map_nth_error, Hx. }
  split; [exact Pl|]. split; [exact Pr|]. cbv zeta. unfold muda_body. rewrite Pl, Pr. cbn [bind]. split.
  - intro V. destruct (proj1 (HL (zero_fees d))) as (tmL & f1 & -> & EL & L1); [intros u Hc; rewrite Lz; apply V; left; exact Hc|]. cbn [bind].
    destruct (proj1 (HR f1)) as (tmR & f2 & -> & ER & L2); [intros u Hc; rewrite L1, Lz; apply V; right; exact Hc|]. cbn [bind].
    eexists _, f2. split; [reflexivity|]. split; [rewrite tm_merge_trans; congruence | congruence].
  - intros u Hc V.
    destruct (solve_market_side S (rows_in (left_of d fl) d) pr (zero_fees d)) as [[tmL f1]|e] eqn:Es.
    2:{ rewrite (side_err S d Hq _ _ _ _ Es). reflexivity. }
    assert (D : forall v, charged (rows_in (left_of d fl) d) pr tlL v -> valid_index (length (zero_fees d)) v).
    { intros v Hv. destruct (valid_dec (length (zero_fees d)) v) as [|N]; [assumption|].
      rewrite (proj2 (HL (zero_fees d)) v Hv N) in Es. discriminate Es. }
    destruct (proj1 (HL (zero_fees d)) D) as (tmL' & f1' & E1 & EL & L1). rewrite Es in E1. assert (f1' = f1) by congruence. subst f1'. cbn [bind].
    destruct Hc as [Hc|Hc]; [exfalso; apply V; rewrite <- Lz; apply D, Hc|].
    rewrite (proj2 (HR f1) u Hc); [reflexivity|]. rewrite L1, Lz. exact V.
Qed.
