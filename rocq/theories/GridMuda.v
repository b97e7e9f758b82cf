(** MUDA on data on which a rounding makes no error. *)
From Verif Require Import QcTac Num NumFacts ModelBase ModelCurves ModelHuang ModelMuda ModelRound ListFacts MergeFacts Spec SpecMuda FillFacts
  MudaSide MudaFacts RoundFacts RoundFeeHalf SpecGrid GridFacts.

Section Cut.
  Variables (gq T : Qc) (R : rounding) (A : adder R).
  Hypothesis Nq : no_error R gq T.
  Definition okq (l : list Qc) : Prop := (forall x, In x l -> on_grid gq x /\ 0 <= x) /\ qsum l <= T.
  Lemma okq_sum l : okq l -> A l = qsum l.
  Proof. intros [H L]. apply (asum_free R gq T Nq); [apply H|]. rewrite abs_sum_nonneg; [exact L | apply H]. Qed.
  Lemma okq_nonneg l : okq l -> 0 <= qsum l.
  Proof. intros [H _]. rewrite <- (abs_sum_nonneg l) by apply H. apply abs_sum_nn. Qed.
  Lemma okq_firstn n l : okq l -> okq (firstn n l).
  Proof.
    intros [H L]. rewrite <- (firstn_skipn n l) in H, L. rewrite qsum_app in L.
    assert (Z : 0 <= qsum (skipn n l)) by (rewrite <- (abs_sum_nonneg (skipn n l)); [apply abs_sum_nn | intros x Hx; apply H, in_or_app; auto]).
    split; [intros x Hx; apply H, in_or_app; auto | qlra].
  Qed.
  Lemma okq_grid l : okq l -> on_grid gq (qsum l).
  Proof. intros [H _]. apply grid_sum. apply H. Qed.
  (** the position of the cut, in exact arithmetic *)
  Definition cut_index (l : list Qc) (Q : Qc) : nat :=
    if qltb Q (qsum l) then argmax_bool (map (fun c => qleb Q c) (cumsum l)) else (length l - 1)%nat.
  Lemma cut_index_le l Q : okq l -> l <> [] -> 0 < Q -> (cut_index l Q < length l)%nat /\ qsum (firstn (cut_index l Q) l) <= Q.
  Proof.
    intros O Hn HQ. unfold cut_index. destruct (qlt_spec Q (qsum l)) as [L|L].
    - destruct (argmax_cum l Q HQ ltac:(qlra)) as (K1 & K2 & _). split; [exact K1 | qlra].
    - split; [destruct l; [congruence | cbn [length]; lia]|]. 
      assert (E : qsum l = qsum (firstn (length l - 1) l) + qsum (skipn (length l - 1) l)) by (rewrite <- qsum_app, firstn_skipn; reflexivity).
      assert (0 <= qsum (skipn (length l - 1) l)); [|qlra].
      rewrite <- abs_sum_nonneg; [apply abs_sum_nn|]. intros x Hx. apply (proj1 O). rewrite <- (firstn_skipn (length l - 1) l). apply in_or_app; auto.
  Qed.
  Lemma diff_free l Q : okq l -> l <> [] -> 0 < Q -> Q <= T -> on_grid gq Q ->
    R (Q - qsum (firstn (cut_index l Q) l)) = Q - qsum (firstn (cut_index l Q) l) /\ 0 <= Q - qsum (firstn (cut_index l Q) l).
  Proof.
    intros O Hn HQ HT GQ. destruct (cut_index_le l Q O Hn HQ) as [_ L]. pose proof (okq_firstn (cut_index l Q) l O) as O'.
    split; [|qlra]. apply Nq; [apply grid_sub; [exact GQ | apply okq_grid, O']|]. pose proof (okq_nonneg _ O'). rewrite qabs_pos by qlra. qlra.
  Qed.
End Cut.

Section Muda.
  Variables (gq gp T P : Qc) (R : rounding) (A : adder R).
  Notation fine := (gridded gq gp T P).
  Hypothesis Nq : no_error R gq T.
  Hypothesis P0 : 0 <= P.
  Hypothesis Np : no_error R (gp * qf 1 2) (P + P).
  Hypothesis Hh : R (qf 1 2) = qf 1 2.
  Hypothesis Npq : no_error R (gp * qf 1 2 * gq) ((P + P) * T).

  Lemma fine_okq d : fine d -> okq gq T (map qty d).
  Proof.
    intros [H L]. split; [|exact L]. intros x Hx. apply in_map_iff in Hx. destruct Hx as (r & <- & Hr). destruct (H r Hr) as (H0 & H1 & _). auto.
  Qed.
  Lemma trading_free L Q : fine L -> 0 < Q -> Q <= qsumf qty L -> on_grid gq Q -> get_trading_bids_r R A L Q = get_trading_bids L Q.
  Proof.
    intros F HQ HL GQ. pose proof (fine_okq L F) as O. unfold get_trading_bids_r, get_trading_bids.
    rewrite !(okq_sum gq T R A Nq _ O). rewrite (fine_cumsum gq gp T P R Nq L F).
    replace (if qltb Q (qsum (map qty L)) then argmax_bool (map (fun c => qleb Q c) (cumsum (map qty L))) else (length L - 1)%nat) with (cut_index (map qty L) Q)
      by (unfold cut_index; rewrite map_length; reflexivity).
    set (k := cut_index (map qty L) Q). cbv zeta. rewrite <- !firstn_map. rewrite (okq_sum gq T R A Nq) by (apply okq_firstn, O).
    assert (Hn : map qty L <> []) by (destruct L; [unfold qsumf in HL; cbn [map qsum] in HL; exfalso; qlra | discriminate]).
    assert (HT : Q <= T) by (destruct F as [_ F2]; qlra).
    destruct (diff_free gq T R Nq _ Q O Hn HQ HT GQ) as [E D]. fold k in E, D. rewrite E.
    destruct (nth_error L k) as [r|] eqn:Er; [|reflexivity]. destruct (qltb _ (qty r)) eqn:Eq; [|reflexivity]. apply (proj1 (qltb_lt _ _)) in Eq.
    assert (I : In r L) by (eapply nth_error_In, Er). destruct (proj1 F r I) as (R0 & R1 & _).
    rewrite (Nq (qty r - _)); [reflexivity | apply grid_sub; [exact R1 | apply grid_sub; [exact GQ | apply okq_grid with (T := T), okq_firstn, O]]|].
    rewrite qabs_pos by qlra. assert (qty r <= qsumf qty L) by (apply (qsumf_in_le qty L r); [intros x Hx; apply (proj1 F x Hx) | exact I]). destruct F as [_ F2]. qlra.
  Qed.
  Lemma cut_fine L pre r post q : fine L -> L = pre ++ r :: post -> 0 <= q -> q <= qty r -> on_grid gq q -> fine ((pre ++ [with_qty r q]) ++ leftover r q post).
  Proof.
    intros F -> Q0 Q1 Gq. destruct F as [H L].
    assert (Hr : In r (pre ++ r :: post)) by (apply in_or_app; right; left; reflexivity). destruct (H r Hr) as (R0 & R1 & R2 & R3). split.
    - intros x Hx. apply in_app_or in Hx. destruct Hx as [Hx|Hx].
      + apply in_app_or in Hx. destruct Hx as [Hx|[<-|[]]]; [apply H, in_or_app; auto|]. cbn [with_qty qty price]. auto.
      + unfold leftover in Hx. destruct (qlt_spec q (qty r)) as [Lt|Lt].
        * destruct Hx as [<-|Hx]; [|apply H, in_or_app; right; right; exact Hx]. cbn [with_qty qty price]. split; [qlra|]. split; [apply grid_sub; assumption|]. auto.
        * apply H, in_or_app; right; right; exact Hx.
    - rewrite !qsumf_app, qsumf_cons in *. unfold leftover. rewrite qsumf_nil. cbn [with_qty qty]. destruct (qlt_spec q (qty r)); [rewrite qsumf_cons; cbn [with_qty qty]; qlra | qlra].
  Qed.
  Lemma idx_fine (O : list (nat * row)) n : fine (map snd O) -> fine (map snd (firstn n O)).
  Proof. intro F. rewrite <- firstn_map. apply fine_firstn, F. Qed.

  Lemma set_last_snd l q : map snd (set_last_qty l q) = match rev (map snd l) with [] => [] | r :: t => rev t ++ [with_qty r q] end.
  Proof. unfold set_last_qty. rewrite <- map_rev. destruct (rev l) as [|[j r] t]; cbn [map]; [reflexivity|]. rewrite map_app, map_rev. reflexivity. Qed.
  Lemma fee_free d i u Q p : fine (map snd d) -> 0 < Q -> Q <= T -> on_grid gq Q -> on_grid (gp * qf 1 2) p -> qabs p <= P ->
    compute_fee_r R A d i u Q p = compute_fee d i u Q p.
  Proof.
    intros F HQ HT GQ Gp Lp. unfold compute_fee_r, compute_fee.
    assert (FO : fine (map snd (filter (fun ir => negb (Z.eqb (user (snd ir)) u)) d))).
    { rewrite <- (filter_map (fun r => negb (Z.eqb (user r) u)) snd). apply fine_filter, F. }
    destruct (filter (fun ir => negb (Z.eqb (user (snd ir)) u)) d) as [|o O'] eqn:EO; [reflexivity|]. set (O := o :: O') in *.
    assert (Mq : forall l, map (fun ir : nat * row => qty (snd ir)) l = map qty (map snd l)) by (intro l; rewrite map_map; reflexivity).
    assert (Hn : map qty (map snd O) <> []) by discriminate.
    clearbody O. clear EO. cbv zeta. rewrite !Mq. pose proof (fine_okq _ FO) as OO.
    rewrite (okq_sum gq T R A Nq _ OO), (fine_cumsum gq gp T P R Nq _ FO).
    replace (if qltb Q (qsum (map qty (map snd O))) then argmax_bool (map (fun c => qleb Q c) (cumsum (map qty (map snd O)))) else (length O - 1)%nat)
      with (cut_index (map qty (map snd O)) Q) by (unfold cut_index; rewrite !map_length; reflexivity).
    set (k := cut_index (map qty (map snd O)) Q). rewrite <- !firstn_map. rewrite (okq_sum gq T R A Nq _ (okq_firstn gq T k _ OO)).
    destruct (diff_free gq T R Nq _ Q OO Hn HQ HT GQ) as [E D]. fold k in E, D. rewrite E.
    destruct (cut_index_le gq T _ Q OO Hn HQ) as [Lk _]. fold k in Lk. rewrite !map_length in Lk.
    set (q := Q - qsum (firstn k (map qty (map snd O)))) in *.
    set (w := match nth_error O k with Some (_, r) => if qltb q (qty r) then set_last_qty (firstn (S k) O) q else firstn (S k) O | None => firstn (S k) O end).
    assert (Fw : fine (map snd w)).
    { destruct (nth_error O k) as [[j r]|] eqn:Er; [|apply nth_error_None in Er; lia].
      unfold w. destruct (qlt_spec q (qty r)) as [Lt|Lt]; [|rewrite <- firstn_map; apply fine_firstn, FO].
      assert (E2 : firstn (S k) O = firstn k O ++ [(j, r)]) by (apply firstn_split, Er).
      rewrite set_last_snd, E2, map_app, rev_app_distr. cbn [map snd rev app]. rewrite rev_involutive, <- firstn_map.
      destruct FO as [H L]. assert (Hr : In r (map snd O)) by (apply in_map_iff; exists (j, r); split; [reflexivity | eapply nth_error_In, Er]).
      destruct (H r Hr) as (R0 & R1 & R2 & R3). split.
      - intros x Hx. apply in_app_or in Hx. destruct Hx as [Hx|[<-|[]]]; [apply H; apply In_firstn in Hx; exact Hx|]. cbn [with_qty qty price]. split; [exact D|]. split; [|auto].
        unfold q. apply grid_sub; [exact GQ | apply okq_grid with (T := T), okq_firstn, OO].
      - rewrite qsumf_app, qsumf_cons, qsumf_nil. cbn [with_qty qty]. unfold q, qsumf. rewrite <- firstn_map. qlra. }
    clearbody w. f_equal.
    set (v := filter (fun ir => Nat.ltb i (fst ir)) w).
    assert (Hv : forall x, In x v -> In (snd x) (map snd w)) by (intros x Hx; unfold v in Hx; apply filter_In in Hx; apply in_map, Hx).
    assert (B : forall r, In r (map snd w) -> R (price r - p) = price r - p /\ on_grid (gp * qf 1 2) (price r - p) /\ qabs (price r - p) <= P + P).
    { intros r Hr. destruct (proj1 Fw r Hr) as (_ & _ & R2 & R3).
      assert (G : on_grid (gp * qf 1 2) (price r - p)) by (apply grid_sub; [apply grid_half, R2 | exact Gp]).
      assert (L : qabs (price r - p) <= P + P) by (pose proof (qabs_add (price r) (- p)) as Z; replace (qabs (- p)) with (qabs p) in Z by (unfold qabs; repeat qcase; qlra); unfold Qcminus; qlra).
      split; [apply Np; assumption | auto]. }
    assert (Z : 0 <= P + P) by qlra.
    assert (SW : qsumf (fun x => qty (snd x)) v <= T).
    { assert (qsumf (fun x => qty (snd x)) v <= qsumf qty (map snd w)); [|destruct Fw as [_ F2]; qlra].
      unfold v. rewrite qsumf_filter, qsumf_map. apply qsumf_le. intros x Hx. assert (I : In (snd x) (map snd w)) by (apply in_map, Hx). destruct (proj1 Fw _ I) as (I0 & _). destruct (Nat.ltb _ _); qlra. }
    assert (M : map (fun ir => R (R (price (snd ir) - p) * qty (snd ir))) v = map (fun ir => (price (snd ir) - p) * qty (snd ir)) v).
    { apply map_ext_in. intros x Hx. pose proof (Hv x Hx) as I. destruct (B _ I) as (B1 & B2 & B3). rewrite B1. destruct (proj1 Fw _ I) as (I0 & I1 & _).
      apply Npq; [apply grid_mul; assumption|]. rewrite qabs_scale by exact I0.
      assert (qty (snd x) <= T).
      { assert (qty (snd x) <= qsumf (fun x => qty (snd x)) v); [|qlra]. apply (qsumf_in_le (fun x => qty (snd x)) v x); [|exact Hx]. intros y Hy. apply (proj1 Fw _ (Hv y Hy)). }
      pose proof (qmult_le_l (P + P) _ _ Z H). pose proof (qmult_le_r (qty (snd x)) _ _ I0 B3). qlra. }
    rewrite M. apply (asum_free R _ _ Npq).
    - intros y Hy. apply in_map_iff in Hy. destruct Hy as (x & <- & Hx). pose proof (Hv x Hx) as I. destruct (B _ I) as (_ & B2 & _). apply grid_mul; [exact B2 | apply (proj1 Fw _ I)].
    - rewrite qsumf_map. assert (L : qsumf (fun x => qabs ((price (snd x) - p) * qty (snd x))) v <= qsumf (fun x => (P + P) * qty (snd x)) v).
      { apply qsumf_le. intros x Hx. pose proof (Hv x Hx) as I. destruct (B _ I) as (_ & _ & B3). destruct (proj1 Fw _ I) as (I0 & _). rewrite qabs_scale by exact I0. apply qmult_le_r; assumption. }
      rewrite qsumf_scale in L. pose proof (qmult_le_l (P + P) _ _ Z SW). qlra.
  Qed.
  Lemma charge_free L i Q p us : fine L -> 0 < Q -> Q <= T -> on_grid gq Q -> on_grid (gp * qf 1 2) p -> qabs p <= P -> forall fees,
    charge_users_r R A L i Q p us fees = charge_users L i Q p us fees.
  Proof.
    intros F HQ HT GQ Gp Lp. induction us as [|u us IH]; intro fees; [reflexivity|]. cbn [charge_users_r charge_users].
    rewrite fee_free; auto; [|change (indexed L) with (idx 0 L); rewrite idx_snd; exact F]. destruct (set_fee _ _ _); [|reflexivity]. cbn [bind]. apply IH.
  Qed.
  Lemma solve_free S d p fees : fine d -> fine_value P (gp * qf 1 2) p -> solve_market_side_r R A S d p fees = solve_market_side S d p fees.
  Proof.
    intros F Fp. unfold solve_market_side_r, solve_market_side. destruct (buyers d) as [|b B] eqn:Eb; [reflexivity|].
    destruct (sellers d) as [|s L] eqn:Es; [reflexivity|]. rewrite <- Eb, <- Es. cbv zeta.
    set (dm := s_desc S (filter (fun r => nleb p (Fin (price r))) (buyers d))). set (sp := s_asc S (filter (fun r => nleb (Fin (price r)) p) (sellers d))).
    assert (F1 : fine dm) by (apply fine_desc, fine_filter, fine_buyers, F). assert (F2 : fine sp) by (apply fine_asc, fine_filter, fine_sellers, F).
    pose proof (okq_sum gq T R A Nq _ (fine_okq _ F1)) as E1. pose proof (okq_sum gq T R A Nq _ (fine_okq _ F2)) as E2. rewrite E1, E2.
    pose proof (okq_grid gq T _ (fine_okq _ F1)) as G1. pose proof (okq_grid gq T _ (fine_okq _ F2)) as G2.
    destruct (qlt_spec (qsum (map qty dm)) (qsum (map qty sp))) as [Lt|Lt].
    - destruct (qlt_spec 0 (qsum (map qty dm))) as [Q0|Q0]; [|reflexivity]. destruct p as [pr| | |]; try reflexivity. destruct Fp as [Gp Lp].
      rewrite (trading_free sp _ F2 Q0 ltac:(unfold qsumf; qlra) G1), (trading_free dm _ F1 Q0 ltac:(unfold qsumf; qlra) G1).
      destruct (trading_cut sp _ (fun r Hr => proj1 (proj1 F2 r Hr)) Q0 ltac:(unfold qsumf; qlra)) as (pre & r & post & q & C1 & C2 & C3 & C4 & ->). cbn [bind].
      destruct (get_trading_bids dm _) as [[l2 i2]|]; [|reflexivity]. cbn [bind].
      rewrite charge_free; auto; [|destruct F1 as [_ F1]; exact F1]. apply (cut_fine sp pre r post q F2 C1 C3 C4).
      replace q with (qsum (map qty dm) - qsumf qty pre) by (rewrite <- C2; ring). apply grid_sub; [exact G1|]. apply grid_sumf. intros x Hx. apply (proj1 F2). rewrite C1. apply in_or_app; auto.
    - destruct (qlt_spec 0 (qsum (map qty sp))) as [Q0|Q0]; [|reflexivity]. destruct p as [pr| | |]; try reflexivity. destruct Fp as [Gp Lp].
      rewrite (trading_free dm _ F1 Q0 ltac:(unfold qsumf; qlra) G2), (trading_free sp _ F2 Q0 ltac:(unfold qsumf; qlra) G2).
      destruct (trading_cut dm _ (fun r Hr => proj1 (proj1 F1 r Hr)) Q0 ltac:(unfold qsumf; qlra)) as (pre & r & post & q & C1 & C2 & C3 & C4 & ->). cbn [bind].
      destruct (get_trading_bids sp _) as [[l2 i2]|]; [|reflexivity]. cbn [bind].
      rewrite charge_free; auto; [|destruct F2 as [_ F2]; exact F2]. apply (cut_fine dm pre r post q F1 C1 C3 C4).
      replace q with (qsum (map qty sp) - qsumf qty pre) by (rewrite <- C2; ring). apply grid_sub; [exact G2|]. apply grid_sumf. intros x Hx. apply (proj1 F1). rewrite C1. apply in_or_app; auto.
  Qed.
  Theorem muda_free S d fl : labels_unique d -> fine d -> muda_r R A S d fl = muda S d fl.
  Proof.
    intros Hu F. unfold muda_r, muda. f_equal. cbv zeta. fold (left_of d fl). fold (right_of d fl). rewrite (loc_left d fl Hu), (loc_right d fl Hu).
    assert (F1 : fine (rows_in (left_of d fl) d)) by (apply fine_filter, F). assert (F2 : fine (rows_in (right_of d fl) d)) by (apply fine_filter, F).
    destruct (price_free gq gp T P R Nq P0 Np Hh S _ F1) as [-> V1]. destruct (price_free gq gp T P R Nq P0 Np Hh S _ F2) as [-> V2].
    destruct (find_competitive_price S (rows_in (left_of d fl) d)) as [pl|]; [|reflexivity]. cbn [bind].
    destruct (find_competitive_price S (rows_in (right_of d fl) d)) as [pr|]; [|reflexivity]. cbn [bind].
    rewrite (solve_free S _ pr _ F1 (V2 _ eq_refl)). destruct (solve_market_side _ _ pr _) as [[t1 f1]|]; [|reflexivity]. cbn [bind].
    rewrite (solve_free S _ pl _ F2 (V1 _ eq_refl)). reflexivity.
  Qed.
End Muda.
