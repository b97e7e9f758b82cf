(** The fees of one half of MUDA and of the whole mechanism in rounded arithmetic. *)
From Verif Require Import QcTac Num NumFacts ModelBase ModelCurves ModelHuang ModelMuda ModelRound ListFacts StoreFacts
  Spec SpecTrade SpecMuda SpecRound SpecRoundFee FillFacts CurveFacts IntersectFacts TradeFacts Sorter MudaSide MudaHalf MudaSolve MudaFacts MudaErrors
  MergeFacts UpdateFacts RoundFacts RoundHuang RoundError RoundMuda RoundStats RoundFee RoundFeeHalf RoundFeeTop.

Section Half.
  Variables (R : rounding) (A : adder R) (S : sorter) (h : df) (p : num).
  Hypothesis Hq : qty_nonneg h.
  Hypothesis Hu : labels_unique h.
  Notation L b := (side_r S h p b).
  Definition lb_r : bool := negb (qltb (A (map qty (L true))) (A (map qty (L false)))).
  Notation lb := lb_r.
  Lemma total_short : total_r R A S h p = A (map qty (L (negb lb))).
  Proof. unfold total_r, lb_r. destruct (qltb _ _); reflexivity. Qed.

  Lemma solve_r_long fees tm fees' : solve_market_side_r R A S h p fees = Ok (tm, fees') ->
    (tm = tm_init /\ fees' = fees) \/
    exists pr preL rL postL qL preS rS postS qS,
      p = Fin pr /\ 0 < total_r R A S h p /\
      CutR R A (L lb) (total_r R A S h p) preL rL postL qL /\ CutR R A (L (negb lb)) (total_r R A S h p) preS rS postS qS /\
      Permutation (tm_trans tm) (map (mk pr) (won_r preL rL qL ++ won_r preS rS qS)) /\
      charge_users_r R A (won_r preL rL qL ++ leftover_r R rL qL postL) (length preL) (total_r R A S h p) pr
        (uniqueZ (map user (won_r preL rL qL))) fees = Ok fees'.
  Proof.
    unfold solve_market_side_r.
    destruct (buyers h) as [|b0 bs] eqn:Eb; [intro E; injection E as <- <-; left; auto|].
    destruct (sellers h) as [|s0 ss] eqn:Es; [intro E; injection E as <- <-; left; auto|].
    rewrite <- Eb, <- Es. change (s_desc S (filter _ (buyers h))) with (L true). change (s_asc S (filter _ (sellers h))) with (L false).
    cbv zeta. change (if qltb (A (map qty (L true))) (A (map qty (L false))) then A (map qty (L true)) else A (map qty (L false))) with (total_r R A S h p).
    destruct (qlt_spec 0 (total_r R A S h p)) as [Lt|Lt]; [|intro E; injection E as <- <-; left; auto].
    assert (Ne : forall b, L b <> []).
    { intros b E. pose proof (total_le R A S h p b) as T. rewrite E in T. cbn [map] in T. rewrite (sum_nil_zero R A) in T. qlra. }
    assert (Fp : exists pr, p = Fin pr).
    { destruct p as [pr| | |] eqn:Ep; [eauto|..]; exfalso; (destruct (side_nil S h p) as (b & E); [intro q; rewrite Ep; discriminate | rewrite Ep in E; exact (Ne b E)]). }
    destruct Fp as (pr & Ep). rewrite Ep at 1.
    destruct (trading_r_rest R A (L lb) (total_r R A S h p) (Ne lb)) as (preL & rL & postL & qL & CL & EL).
    destruct (trading_r_rest R A (L (negb lb)) (total_r R A S h p) (Ne (negb lb))) as (preS & rS & postS & qS & CS & ES).
    intro E. right. exists pr, preL, rL, postL, qL, preS, rS, postS, qS.
    split; [exact Ep|]. split; [exact Lt|]. split; [exact CL|]. split; [exact CS|].
    replace (if qltb (A (map qty (L true))) (A (map qty (L false))) then L false else L true) with (L lb) in E by (unfold lb_r; destruct (qltb _ _); reflexivity).
    replace (if qltb (A (map qty (L true))) (A (map qty (L false))) then L true else L false) with (L (negb lb)) in E by (unfold lb_r; destruct (qltb _ _); reflexivity).
    rewrite EL in E. cbn [bind] in E. rewrite ES in E. cbn [bind] in E. rewrite !firstn_win in E.
    fold (won_r preL rL qL) in E. fold (won_r preS rS qS) in E.
    destruct (charge_users_r R A _ _ _ _ _ fees) as [f|]; [|discriminate]. cbn [bind] in E. injection E as <- <-.
    split; [|reflexivity]. rewrite !add_all_trans. cbn [tm_trans tm_init app]. rewrite map_app. apply Permutation_app_comm.
  Qed.

  (** ** Sums over the transactions of one side *)
  Section Trades.
    Variables (pr : Qc) (preL : df) (rL : row) (postL : df) (qL : Qc) (preS : df) (rS : row) (postS : df) (qS : Qc) (Q : Qc) (tl : list trans).
    Hypothesis CL : CutR R A (L lb) Q preL rL postL qL.
    Hypothesis CS : CutR R A (L (negb lb)) Q preS rS postS qS.
    Let wL := won_r preL rL qL.
    Let wS := won_r preS rS qS.
    Hypothesis P : Permutation tl (map (mk pr) (wL ++ wS)).
    Lemma won_source b pre r post q y : CutR R A (L b) Q pre r post q -> In y (won_r pre r q) ->
      exists x, In x h /\ buying x = b /\ lbl x = lbl y /\ y = with_qty x (qty y) /\ In x (L b).
    Proof.
      intros (E & _) Hy. unfold won_r in Hy. apply in_app_or in Hy. destruct Hy as [Hy|[<-|[]]].
      - assert (I : In y (L b)) by (rewrite E; apply in_or_app; left; exact Hy). pose proof (side_r_in S h p b y I) as (I1 & I2 & _).
        exists y. rewrite with_qty_same. auto.
      - assert (I : In r (L b)) by (rewrite E; apply in_or_app; right; left; reflexivity). pose proof (side_r_in S h p b r I) as (I1 & I2 & _).
        exists r. auto.
    Qed.
    Lemma tlr_bridge b (f : row -> Qc) : (forall r q, f (with_qty r q) = f r) ->
      qsumf (fun x => f x * traded_by (lbl x) tl) (side_of b h) = qsumf (fun y => f y * qty y) (if Bool.eqb b lb then wL else wS).
    Proof.
      intro Hf. set (f' := fun x => if Bool.eqb (buying x) b then f x else 0).
      transitivity (qsumf (fun x => f' x * traded_by (lbl x) (map (mk pr) (wL ++ wS))) h).
      { unfold side_of. rewrite qsumf_filter. apply qsumf_ext. intros x _. unfold f'. rewrite (traded_by_perm _ _ _ P). destruct (Bool.eqb (buying x) b); ring. }
      rewrite bridge; [|exact Hu|].
      - rewrite qsumf_app.
        assert (V : forall c pre r post q, CutR R A (L c) Q pre r post q -> qsumf (fun y => f' y * qty y) (won_r pre r q) = if Bool.eqb c b then qsumf (fun y => f y * qty y) (won_r pre r q) else 0).
        { intros c pre r post q HC. destruct (Bool.eqb c b) eqn:Ec; [apply qsumf_ext | apply qsumf_zero]; intros y Hy;
          destruct (won_source c pre r post q y HC Hy) as (x & _ & H2 & _ & H4 & _); unfold f'; rewrite H4; cbn [with_qty buying]; rewrite H2, Ec; [reflexivity | ring]. }
        unfold wL, wS. rewrite (V _ _ _ _ _ CL), (V _ _ _ _ _ CS). destruct b, lb; cbn [Bool.eqb negb]; ring.
      - intros y Hy. apply in_app_or in Hy.
        assert (G : exists c x, In x h /\ buying x = c /\ lbl x = lbl y /\ y = with_qty x (qty y)).
        { destruct Hy as [Hy|Hy]; [destruct (won_source _ _ _ _ _ _ CL Hy) as (x & H1 & H2 & H3 & H4 & _) | destruct (won_source _ _ _ _ _ _ CS Hy) as (x & H1 & H2 & H3 & H4 & _)]; eauto 8. }
        destruct G as (c & x & H1 & H2 & H3 & H4). exists x. split; [exact H1|]. split; [exact H3|]. rewrite H4. unfold f'. cbn [with_qty buying]. rewrite Hf. reflexivity.
    Qed.
    Lemma tlr_users v : In v (uniqueZ (map user wL)) <-> trades_on lb h tl v.
    Proof.
      rewrite uniqueZ_In, in_map_iff. split.
      - intros (y & <- & Hy). destruct (won_source _ _ _ _ _ _ CL Hy) as (x & H1 & H2 & H3 & H4 & _). exists (mk pr y), x.
        split; [apply (Permutation_in _ (Permutation_sym P)), in_map, in_or_app; left; exact Hy|]. split; [exact H1|]. split; [exact H3|]. split; [exact H2|].
        rewrite H4. reflexivity.
      - intros (t & r & Ht & Hr & E1 & E2 & E3). apply (Permutation_in _ P), in_map_iff in Ht. destruct Ht as (y & <- & Hy). cbn [mk t_bid] in E1.
        apply in_app_or in Hy. destruct Hy as [Hy|Hy].
        + destruct (won_source _ _ _ _ _ _ CL Hy) as (x & H1 & H2 & H3 & H4 & _). exists y. split; [|exact Hy].
          assert (x = r) by (apply (NoDup_map_in lbl h); auto; congruence). subst x. rewrite H4. exact E3.
        + destruct (won_source _ _ _ _ _ _ CS Hy) as (x & H1 & H2 & H3 & H4 & _).
          assert (x = r) by (apply (NoDup_map_in lbl h); auto; congruence). subst x. rewrite H2 in E2. destruct lb; discriminate.
    Qed.
    Lemma tlr_others v : fill_gain (not_by v (side_of lb h)) pr (fun i => traded_by i tl) = qsumf (fun x => gain pr x * qty x) (not_by v wL).
    Proof.
      set (g := fun r => if Z.eqb (user r) v then 0 else gain pr r).
      unfold fill_gain, not_by. rewrite !qsumf_filter.
      transitivity (qsumf (fun x => g x * traded_by (lbl x) tl) (side_of lb h)).
      - apply qsumf_ext. intros x _. unfold g. destruct (Z.eqb (user x) v); cbn [negb]; ring.
      - rewrite (tlr_bridge lb g (fun _ _ => eq_refl)), eqb_reflx.
        apply qsumf_ext. intros x _. unfold g. destruct (Z.eqb (user x) v); cbn [negb]; ring.
    Qed.
    Hypothesis Hp : p = Fin pr.
    Hypothesis qS0 : 0 <= qS.
    Lemma side_gain b x : In x (L b) -> In x h /\ buying x = b /\ 0 <= gain pr x.
    Proof.
      intro Hx. apply side_r_in in Hx. destruct Hx as (H1 & H2 & H3). rewrite Hp in H3. split; [exact H1|]. split; [exact H2|].
      unfold gain. rewrite H2. destruct b; apply nle_Fin in H3; qlra.
    Qed.
    Lemma tlr_profit v : qsumf (fun x => gain pr x * qty x) (by_user v wL) <= profit h v tl.
    Proof.
      rewrite (profit_price v h tl pr).
      2:{ intros t Ht. apply (Permutation_in _ P), in_map_iff in Ht. destruct Ht as (y & <- & _). reflexivity. }
      set (g := fun r => if Z.eqb (user r) v then gain pr r else 0).
      assert (E : fill_gain (by_user v h) pr (fun i => traded_by i tl) =
        qsumf (fun x => g x * traded_by (lbl x) tl) (side_of lb h) + qsumf (fun x => g x * traded_by (lbl x) tl) (side_of (negb lb) h)).
      { unfold fill_gain, by_user, side_of. rewrite !qsumf_filter. rewrite <- qsumf_plus. apply qsumf_ext. intros x _.
        unfold g. destruct (Z.eqb (user x) v), (buying x), lb; cbn [Bool.eqb negb]; ring. }
      rewrite E, !(tlr_bridge _ g (fun _ _ => eq_refl)), eqb_reflx.
      replace (Bool.eqb (negb lb) lb) with false by (destruct lb; reflexivity).
      assert (E1 : qsumf (fun y => g y * qty y) wL = qsumf (fun x => gain pr x * qty x) (by_user v wL)).
      { unfold by_user. rewrite qsumf_filter. apply qsumf_ext. intros x _. unfold g. destruct (Z.eqb (user x) v); ring. }
      rewrite E1. assert (0 <= qsumf (fun y => g y * qty y) wS); [|qlra].
      apply qsumf_nonneg. intros y Hy. assert (Qy : 0 <= qty y).
      { unfold wS, won_r in Hy. apply in_app_or in Hy. destruct Hy as [Hy|[<-|[]]]; [|exact qS0]. apply Hq.
        assert (I : In y (L (negb lb))) by (destruct CS as (-> & _); apply in_or_app; left; exact Hy). apply side_r_in in I. apply I. }
      destruct (won_source _ _ _ _ _ _ CS Hy) as (x & H1 & H2 & H3 & H4 & H5). unfold g. destruct (Z.eqb (user y) v); [|rewrite Qcmult_0_l; qlra].
      apply qmult_nonneg; [|exact Qy]. rewrite H4. apply (side_gain (negb lb) x H5).
    Qed.
  End Trades.

  (** ** The fees *)
  Variable k : nat.
  Hypothesis Hk : forall b, (length (side_of b h) <= k)%nat.
  Hypothesis Hm : machine_qty R h.
  Hypothesis Hseq : forall l, (length l <= k + 1)%nat -> A l = seq_sum R l.
  Variable u : Qc.
  Hypothesis Hrel : rel_error R u.
  Notation n := (k + 1)%nat.
  Notation E := (E_f n u).
  Notation eps := (fee_eps k u h).
  Lemma eps_eq : eps = E * qsumf qty h.
  Proof. unfold fee_eps, E_f. replace (k + 1 + 2)%nat with (k + 3)%nat by lia. replace (k + 1 + 3)%nat with (k + 4)%nat by lia. reflexivity. Qed.
  Lemma E_nonneg : 0 <= E.
  Proof. pose proof (E_r_nonneg R n u Hrel). pose proof (E_f_ge R n u Hrel). qlra. Qed.
  Lemma side_all b x : In x (L b) -> 0 <= qty x /\ machine R (qty x).
  Proof. intro Hx. apply side_r_in in Hx. split; [apply Hq | apply Hm]; apply Hx. Qed.
  Lemma side_length b : (length (L b) <= k)%nat.
  Proof.
    etransitivity; [|exact (Hk b)]. unfold side_r. destruct b.
    - rewrite (Permutation_length (s_desc_perm S _)). rewrite (side_true h). apply filter_len.
    - rewrite (Permutation_length (s_asc_perm S _)). rewrite (side_false h). apply filter_len.
  Qed.
  Lemma side_total b : near (A (map qty (L b))) (qsumf qty (L b)) (E * qsumf qty (L b)).
  Proof.
    rewrite Hseq by (rewrite map_length; pose proof (side_length b); lia).
    assert (Hf : forall x, In x (map qty (L b)) -> 0 <= x /\ machine R x) by (intros x Hx; apply in_map_iff in Hx; destruct Hx as (y & <- & Hy); apply (side_all b), Hy).
    pose proof (sums_near R u Hrel _ _ n (seq_sum_ok R (map qty (L b))) Hf ltac:(rewrite map_length; pose proof (side_length b); lia)) as N.
    apply (near_weaken _ _ _ _ N). fold (qsumf qty (L b)). apply qmult_le_r; [apply qsumf_nonneg; intros; apply (side_all b); assumption|].
    pose proof (E_r_pos R n u Hrel) as P1. pose proof (E_f_ge R n u Hrel) as P2. rewrite Nat.add_1_r in P1 at 1. rewrite qnat_S in P1.
    assert (0 <= u * (1 + u) ^ n) by (apply qmult_nonneg; [apply (u_nonneg R u Hrel) | pose proof (B_ge1 R u Hrel n); qlra]).
    replace ((qnat n + 1) * (u * (1 + u) ^ n)) with (qnat n * (u * (1 + u) ^ n) + u * (1 + u) ^ n) in P1 by ring. qlra.
  Qed.
  Lemma sides_sum : qsumf qty (L lb) + qsumf qty (L (negb lb)) <= qsumf qty h.
  Proof.
    assert (G : qsumf qty (L true) + qsumf qty (L false) <= qsumf qty h).
    { unfold side_r. rewrite (qsumf_perm qty _ _ (s_desc_perm S _)), (qsumf_perm qty _ _ (s_asc_perm S _)).
      rewrite !qsumf_filter. unfold buyers, sellers. rewrite !qsumf_filter.
      rewrite <- qsumf_plus. apply qsumf_le. intros r Hr. pose proof (Hq r Hr).
      destruct (buying r); cbn [negb]; [destruct (nleb p (Fin (price r))) | destruct (nleb (Fin (price r)) p)]; qlra. }
    destruct lb; cbn [negb]; qlra.
  Qed.
  Lemma side_sum_nn b : 0 <= qsumf qty (L b).
  Proof. apply qsumf_nonneg. intros x Hx. apply (side_all b), Hx. Qed.
  Lemma half_nearly_long : nearly_long h p lb eps.
  Proof.
    intros q Ep. rewrite <- !(Ls_sum S h q). rewrite eps_eq.
    assert (EL : forall b, Ls S h q b = L b) by (intro b; rewrite Ep; reflexivity). rewrite !EL.
    destruct (side_total lb) as [T1 T2]. destruct (side_total (negb lb)) as [T3 T4].
    pose proof (total_le R A S h p lb) as T5. rewrite total_short in T5.
    pose proof (qmult_le_l _ _ _ E_nonneg sides_sum) as M.
    replace (E * (qsumf qty (L lb) + qsumf qty (L (negb lb)))) with (E * qsumf qty (L lb) + E * qsumf qty (L (negb lb))) in M by ring. qlra.
  Qed.
  Hypothesis Hn : forall r, In r h -> (0 <= user r)%Z.
  Theorem half_fees_r fees tm fees' : solve_market_side_r R A S h p fees = Ok (tm, fees') -> half_fees h p lb (tm_trans tm) eps fees fees'.
  Proof.
    intros Es v Hv. destruct (solve_r_long fees tm fees' Es) as [[-> ->]|(pr & preL & rL & postL & qL & preS & rS & postS & qS & Ep & HQ & CL & CS & P & Ec)].
    { split; [|reflexivity]. intros (t & r & [] & _). }
    set (Q := total_r R A S h p) in *. pose proof (side_length lb) as Ln. pose proof (side_length (negb lb)) as LnS.
    assert (Hus : forall x, In x (uniqueZ (map user (won_r preL rL qL))) -> (0 <= x)%Z).
    { intros x Hx. apply (tlr_users pr _ _ _ _ _ _ _ _ _ (tm_trans tm) CL CS P) in Hx. destruct Hx as (t & r & _ & Hr & _ & _ & <-). apply Hn, Hr. }
    destruct (charge_r_fees R A _ _ _ _ _ Hus _ _ Ec) as [C1 C2].
    split; [|intro N; apply C2; [exact Hv|]; intro I; apply N; exact (proj1 (tlr_users pr _ _ _ _ _ _ _ _ _ (tm_trans tm) CL CS P v) I)].
    intro Tr. exists pr. split; [exact Ep|]. intros W HW.
    pose proof (proj2 (tlr_users pr _ _ _ _ _ _ _ _ _ (tm_trans tm) CL CS P v) Tr) as Iv. rewrite (C1 v Iv). clear C1 C2.
    assert (W0 : 0 <= W).
    { destruct Tr as (t & r & _ & Hr & _). pose proof (HW r Hr). pose proof (qabs_nonneg (price r - pr)). qlra. }
    assert (H : forall b x, In x (L b) -> (0 <= qty x /\ machine R (qty x)) /\ buying x = b /\ 0 <= gain pr x /\ gain pr x <= W).
    { intros b x Hx. destruct (side_gain pr Ep b x Hx) as (H1 & H2 & H3). split; [apply (side_all b), Hx|]. split; [exact H2|]. split; [exact H3|].
      destruct (gain_abs b pr x H2 H3) as [<- _]. apply HW, H1. }
    pose proof (total_le R A S h p lb) as QL. pose proof (total_le R A S h p (negb lb)) as QS. fold Q in QL, QS.
    assert (qS0 : 0 <= qS).
    { apply (cut_nonneg R A n Hseq _ _ _ _ _ _ CS); [lia | intros x Hx; apply (side_all (negb lb)), Hx | exact HQ | exact QS]. }
    pose proof (fee_r_cut R A n Hseq u Hrel lb (L lb) preL rL postL qL Q pr W CL ltac:(lia) (H lb) W0 HQ QL v) as [F1 F2].
    pose proof (won_gain R A n Hseq u Hrel lb (L lb) preL rL postL qL Q pr W CL ltac:(lia) (H lb) W0 HQ QL) as [G1 G2].
    fold (won_r preL rL qL) in F1, F2, G1, G2. set (wL := won_r preL rL qL) in *.
    set (fee := compute_fee_r R A _ _ v Q pr) in *.
    rewrite (tlr_others pr _ _ _ _ _ _ _ _ _ _ CL CS P v). fold wL.
    set (go := qsumf (fun x => gain pr x * qty x) (not_by v wL)) in *.
    (* the short side *)
    assert (EL : forall b, Ls S h pr b = L b) by (intro b; rewrite Ep; reflexivity).
    assert (Nq : near Q (side_qty (negb lb) h pr) (E * qsumf qty (L (negb lb)))).
    { rewrite <- (Ls_sum S h pr), EL. unfold Q. rewrite total_short. apply side_total. }
    assert (Hoq : forall x, In x (not_by v (L lb)) -> 0 <= qty x) by (intros x Hx; apply (oth_in v) in Hx; apply (side_all lb), Hx).
    assert (Hog : forall x, In x (not_by v (L lb)) -> 0 <= gain pr x /\ gain pr x <= W) by (intros x Hx; apply (oth_in v) in Hx; apply (H lb), Hx).
    assert (Sn : 0 <= side_qty (negb lb) h pr) by apply (side_qty_nonneg S h pr Hq).
    assert (Bo : forall q, 0 <= q -> best_gain (not_by v (side_of lb h)) pr q (fillsum qty (gain pr) q (not_by v (L lb)))).
    { intros q q0. apply best_fill.
      - intros x Hx. apply Hq. unfold not_by, side_of in Hx. do 2 (apply filter_In in Hx; destruct Hx as [Hx _]). exact Hx.
      - unfold not_by, side_of. do 2 apply NoDup_filter_map. exact Hu.
      - exact q0.
      - rewrite <- EL. unfold not_by. etransitivity; [apply filter_perm, Ls_perm|]. rewrite !filter_filter.
        rewrite (filter_ext _ (fun x => negb (Z.eqb (user x) v) && qleb 0 (gain pr x))); [reflexivity|]. intro x. apply andb_comm.
      - rewrite <- EL. apply sorted_filter, Ls_sorted. }
    assert (Ba : forall q, 0 <= q -> best_gain (side_of lb h) pr q (fillsum qty (gain pr) q (L lb))).
    { intros q q0. apply best_fill.
      - intros x Hx. apply Hq. unfold side_of in Hx. apply filter_In in Hx; destruct Hx as [Hx _]. exact Hx.
      - unfold side_of. apply NoDup_filter_map. exact Hu.
      - exact q0.
      - rewrite <- EL. apply Ls_perm.
      - rewrite <- EL. apply Ls_sorted. }
    pose proof (fill_near qty (gain pr) W (not_by v (L lb)) Q (side_qty (negb lb) h pr) _ Hoq Hog W0 ltac:(qlra) Sn Nq) as [K1 K2].
    pose proof (side_sum_nn lb) as T1. pose proof (side_sum_nn (negb lb)) as T2. pose proof sides_sum as T3. pose proof E_nonneg as E0.
    set (a := qsumf qty (L lb)) in *. set (c := qsumf qty (L (negb lb))) in *.
    assert (Ab : E * a * W + E * c * W <= eps * W).
    { rewrite eps_eq. replace (E * a * W + E * c * W) with (E * (a + c) * W) by ring. apply qmult_le_r; [exact W0|]. apply qmult_le_l; [exact E0 | exact T3]. }
    assert (Z1 : 0 <= E * a * W) by (apply qmult_nonneg; [apply qmult_nonneg|]; assumption).
    assert (Z2 : 0 <= E * c * W) by (apply qmult_nonneg; [apply qmult_nonneg|]; assumption).
    rewrite q5 in F1, F2. rewrite q5, q7. split.
    - intros g Hg. rewrite (best_unique _ _ _ _ _ Hg (Bo _ Sn)). apply near_abs. split; qlra.
    - assert (Le : fillsum qty (gain pr) Q (not_by v (L lb)) <= fillsum qty (gain pr) Q (L lb)).
      { apply (best_sub (side_of lb h) (fun r => negb (Z.eqb (user r) v)) pr Q).
        - intros x Hx. apply Hq. unfold side_of in Hx. apply filter_In in Hx. apply Hx.
        - apply NoDup_filter_map, Hu.
        - apply Ba. qlra.
        - apply Bo. qlra. }
      pose proof (tlr_profit pr _ _ _ _ _ _ _ _ _ _ CL CS P Ep qS0 v) as Pf. fold wL in Pf.
      pose proof (oth_split (u := v) (d := wL) (fun x => gain pr x * qty x)) as Sp. fold (by_user v wL) in Sp. fold go in Sp. qlra.
  Qed.
End Half.

(** ** The whole mechanism *)
Section Top.
  Variables (R : rounding) (A : adder R) (S : sorter) (d : df) (fl : list bool).
  Hypothesis Hq : qty_nonneg d.
  Hypothesis Hu : labels_unique d.
  Hypothesis Hm : machine_qty R d.
  Hypothesis Hn : forall r, In r d -> (0 <= user r)%Z.
  Variable k : nat.
  Hypothesis Hk : forall b, (length (side_of b d) <= k)%nat.
  Hypothesis Hseq : forall l, (length l <= k + 1)%nat -> A l = seq_sum R l.
  Variable u : Qc.
  Hypothesis Hrel : rel_error R u.
  Theorem muda_fees_r tm ex : muda_r R A S d fl = Ok (tm, ex) ->
    exists l r pl pr fees tlL tlR bl br fees1, ex = XMuda l r pl pr fees /\ tm_trans tm = tlL ++ tlR /\
      (forall t, In t tlL -> In (t_bid t) l) /\ (forall t, In t tlR -> In (t_bid t) r) /\
      nearly_long (rows_in l d) pr bl (fee_eps k u (rows_in l d)) /\ nearly_long (rows_in r d) pl br (fee_eps k u (rows_in r d)) /\
      half_fees (rows_in l d) pr bl tlL (fee_eps k u (rows_in l d)) [] fees1 /\
      half_fees (rows_in r d) pl br tlR (fee_eps k u (rows_in r d)) fees1 fees.
  Proof.
    intro E. destruct (muda_r_parts R A S d fl Hu tm ex E) as (tl & tr & pl & pr & f1 & f2 & P1 & P2 & S1 & S2 & Et & Ex).
    assert (G : forall ls, qty_nonneg (rows_in ls d) /\ labels_unique (rows_in ls d) /\ (forall b, length (side_of b (rows_in ls d)) <= k)%nat /\ machine_qty R (rows_in ls d) /\
              (forall r, In r (rows_in ls d) -> (0 <= user r)%Z)).
    { intro ls. split; [apply half_qty, Hq|]. split; [apply rows_in_unique, Hu|]. split; [intro b; etransitivity; [|exact (Hk b)]; unfold side_of, rows_in; rewrite filter_filter, (filter_ext _ (fun x => Bool.eqb (buying x) b && existsb (Nat.eqb (lbl x)) ls)) by (intro; apply andb_comm); rewrite <- filter_filter; apply filter_len|].
      split; intros x Hx; apply rows_in_In in Hx; [apply Hm | apply Hn]; apply Hx. }
    destruct (G (left_of d fl)) as (G1 & G2 & G3 & G4 & G5). destruct (G (right_of d fl)) as (K1 & K2 & K3 & K4 & K5).
    exists (left_of d fl), (right_of d fl), pl, pr, f2, (tm_trans tl), (tm_trans tr), (lb_r R A S (rows_in (left_of d fl) d) pr), (lb_r R A S (rows_in (right_of d fl) d) pl), f1.
    split; [exact Ex|]. split; [exact Et|].
    pose proof (half_r R A S _ pr G2 _ _ _ S1) as H1. pose proof (half_r R A S _ pl K2 _ _ _ S2) as H2.
    split; [intros t Ht; destruct (hr_refer _ _ _ H1 t Ht) as (x & Hx & <-); apply rows_in_In in Hx; apply Hx|].
    split; [intros t Ht; destruct (hr_refer _ _ _ H2 t Ht) as (x & Hx & <-); apply rows_in_In in Hx; apply Hx|].
    split; [apply (half_nearly_long R A S _ pr G1 k G3 G4 Hseq u Hrel)|].
    split; [apply (half_nearly_long R A S _ pl K1 k K3 K4 Hseq u Hrel)|].
    split.
    - intros v Hv. destruct (half_fees_r R A S _ pr G1 G2 k G3 G4 Hseq u Hrel G5 _ _ _ S1 v Hv) as [Y1 Y2]. split; [exact Y1|].
      intro N. rewrite (Y2 N). unfold zero_fees, fee_of. destruct (nth_in_or_default (Z.to_nat v) (repeat 0 (length (uniqueZ (map user d)))) 0) as [I|I].
      + apply repeat_spec in I. rewrite I. destruct (Z.to_nat v); reflexivity.
      + rewrite I. destruct (Z.to_nat v); reflexivity.
    - exact (half_fees_r R A S _ pl K1 K2 k K3 K4 Hseq u Hrel K5 _ _ _ S2).
  Qed.
End Top.

(** ** Double precision with numpy's sums, at most six bids on each side *)
From Verif Require Import ModelFloat Conform MudaWitness RoundTop RoundWitness.
Theorem muda_fees_small (S : sorter) (d : df) (fl : list bool) tm ex : qty_nonneg d -> labels_unique d -> machine_qty f64 d ->
  (forall r, In r d -> (0 <= user r)%Z) -> (forall b, (length (side_of b d) < 7)%nat) -> muda_r f64 (np_adder f64) S d fl = Ok (tm, ex) ->
  exists l r pl pr fees tlL tlR bl br fees1, ex = XMuda l r pl pr fees /\ tm_trans tm = tlL ++ tlR /\
    (forall t, In t tlL -> In (t_bid t) l) /\ (forall t, In t tlR -> In (t_bid t) r) /\
    nearly_long (rows_in l d) pr bl (fee_eps 6 (p2 (-53)) (rows_in l d)) /\
    nearly_long (rows_in r d) pl br (fee_eps 6 (p2 (-53)) (rows_in r d)) /\
    half_fees (rows_in l d) pr bl tlL (fee_eps 6 (p2 (-53)) (rows_in l d)) [] fees1 /\
    half_fees (rows_in r d) pl br tlR (fee_eps 6 (p2 (-53)) (rows_in r d)) fees1 fees.
Proof. intros Hq Hu Hm Hn Hl. apply muda_fees_r; auto; [|intros l L; apply np_short; lia|exact f64_rel]. intro b. specialize (Hl b). lia. Qed.

(** without an error in the arithmetic there is none in the fees *)
Lemma fee_eps_zero k h : fee_eps k 0 h = 0.
Proof. unfold fee_eps. ring. Qed.
Lemma close_fee_exact h q b tl v f : close_fee h q b tl v 0 f ->
  (forall g, best_gain (not_by v (side_of b h)) q (side_qty (negb b) h q) g -> f = g - fill_gain (not_by v (side_of b h)) q (fun i => traded_by i tl)) /\ f <= profit h v tl.
Proof.
  intro C. set (W := qsumf (fun r => qabs (price r - q)) h).
  destruct (C W) as [C1 C2]; [intros r Hr; apply (qsumf_in_le (fun r => qabs (price r - q))); [intros; apply qabs_nonneg | exact Hr]|].
  rewrite q7, Qcmult_0_l in C2. split; [|qlra].
  intros g Hg. pose proof (C1 g Hg) as A1. rewrite q5, Qcmult_0_l in A1. apply abs_near in A1. destruct A1 as [A1 A2]. qlra.
Qed.

(** a seller of 0.3 for 0.5 who trades at 5 is charged more than six times what it gains: the pairwise sum of the eight sellers
    is larger than their running sum, so that the rest is cut off at the first one *)
Lemma lost_fee : exists (S : sorter) (d : df) (fl : list bool) tm l r pl pr fees v, labels_unique d /\ qty_nonneg d /\ price_nonneg d /\
  machine_qty f64 d /\ machine_price f64 d /\ muda_r f64 (np_adder f64) S d fl = Ok (tm, XMuda l r pl pr fees) /\
  0 < profit d v (tm_trans tm) /\ qz 6 * profit d v (tm_trans tm) < fee_of fees v.
Proof.
  destruct (good_ok lost) as (G1 & G2 & G3 & G4); [vm_compute; reflexivity|].
  destruct (muda_r f64 NP SS lost lost_flips) as [[tm ex]|e] eqn:E; [|vm_compute in E; discriminate].
  assert (F : match muda_r f64 NP SS lost lost_flips with
    | Ok (tm, XMuda l r pl pr f) => qltb 0 (profit lost 0 (tm_trans tm)) && qltb (qz 6 * profit lost 0 (tm_trans tm)) (fee_of f 0) | _ => false end = true)
    by (vm_compute; reflexivity).
  rewrite E in F. destruct ex as [| |l r pl pr f| |]; try discriminate F. apply andb_true_iff in F. destruct F as [F1 F2].
  exists SS, lost, lost_flips, tm, l, r, pl, pr, f, 0%Z. split; [no_dup|]. repeat (split; [assumption|]).
  split; apply (proj1 (qltb_lt _ _)); assumption.
Qed.

(** three sellers and a buyer of 0.6 at the price of the other half: the two sellers who trade pay for the third *)
Definition small : df := frame [A (tenth 3) (tenth 11) 0; A (tenth 4) (tenth 23) 1; A (tenth 5) (tenth 31) 2; B (tenth 6) (qz 9) 3; B (qz 1) (qz 7) 4; A (qz 1) (tenth 43) 5].
Definition small_flips : list bool := [true; true; true; true; false; false].
