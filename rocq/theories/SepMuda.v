(** On separated halves the rounded MUDA makes the trades of the exact one, up to small differences of the quantities. *)
From Coq Require Import Permutation Sorted.
From Verif Require Import QcTac Num NumFacts ListFacts ModelBase ModelCurves ModelHuang ModelMuda ModelRound Spec SpecRound SpecMuda SpecSep Sorter StoreFacts
  RoundFacts RoundHuang RoundError RoundMuda MudaHalf MudaSide MudaFacts SepFacts SepUpdate SepHuang SepPrice.

Lemma bool_map {X Y} (P : X -> Y -> Prop) (f : X -> bool) (g : Y -> bool) l l' : Forall2 P l l' -> (forall x y, P x y -> f x = g y) -> map f l = map g l'.
Proof. intros H E. induction H; cbn [map]; [reflexivity|]. f_equal; auto. Qed.

Lemma list_eq_nil_dec {X} (l : list X) : {l = []} + {l <> []}.
Proof. destruct l; [left; reflexivity | right; discriminate]. Qed.

Section Half.
  Variables (R : rounding) (u : Qc).
  Hypothesis Hrel : rel_error R u.
  Variables (A : adder R) (S : sorter) (d : df).
  Hypothesis Hq : qty_nonneg d.
  Hypothesis Hm : machine_qty R d.
  Hypothesis Hs : separated (slack u d) d.
  Let n := length d.
  Let W := qsumf qty d.
  Let e := u * (1 + u) ^ (2 * n).
  Let err := qnat n * e * W.
  Notation B k := ((1 + u) ^ k).
  Let AE := seq_adder exact.

  Lemma sums_pairs L : Forall2 (fun c c' => exists i, firstn i L <> [] /\ c = qsumf qty (firstn i L) /\ c' = run R (map qty (firstn i L))) (cumsum_r exact (map qty L)) (cumsum_r R (map qty L)).
  Proof.
    assert (K : forall l pre, L = pre ++ l -> Forall2 (fun c c' => exists i, firstn i L <> [] /\ c = qsumf qty (firstn i L) /\ c' = run R (map qty (firstn i L)))
      (cumsum_from_r exact (qsumf qty pre) (map qty l)) (cumsum_from_r R (run R (map qty pre)) (map qty l))).
    { induction l as [|r l IH]; intros pre E; [constructor|]. cbn [map cumsum_from_r]. change (exact (qsumf qty pre + qty r)) with (qsumf qty pre + qty r).
      assert (E' : L = (pre ++ [r]) ++ l) by (rewrite E, <- app_assoc; reflexivity).
      assert (Q1 : qsumf qty pre + qty r = qsumf qty (pre ++ [r])) by (rewrite qsumf_app, qsumf_cons, qsumf_nil; ring).
      assert (Q2 : R (run R (map qty pre) + qty r) = run R (map qty (pre ++ [r]))) by (rewrite map_app; cbn [map]; rewrite run_snoc; reflexivity).
      rewrite Q1, Q2. constructor; [|apply IH, E']. exists (length (pre ++ [r])).
      assert (F : firstn (length (pre ++ [r])) L = pre ++ [r]) by (rewrite E', firstn_app, firstn_all, Nat.sub_diag, firstn_O, app_nil_r; reflexivity).
      rewrite F. split; [destruct pre; discriminate|]. split; reflexivity. }
    exact (K L [] eq_refl).
  Qed.
  Lemma qmin_near a b b' t : 0 <= t -> near b' b t -> near (qmin a b') (qmin a b) t.
  Proof. intros T [N1 N2]. destruct (qmin_case a b) as [[-> ?]|[-> ?]], (qmin_case a b') as [[-> ?]|[-> ?]]; split; qlra. Qed.
  Lemma cut_value R0 A0 L Q pre r post q : CutR R0 A0 L Q pre r post q -> q = qmin (qty r) (R0 (Q - A0 (map qty pre))).
  Proof. intros (_ & [[-> H]|[-> H]] & _); match goal with |- _ = qmin ?a ?b => destruct (qmin_case a b) as [[-> ?]|[-> ?]] end; qlra. Qed.
  Lemma cut_rows R0 A0 L Q pre r post q : CutR R0 A0 L Q pre r post q -> pre = firstn (length pre) L /\ nth_error L (length pre) = Some r.
  Proof.
    intros (E & _ & _). rewrite E. split; [rewrite firstn_app, firstn_all, Nat.sub_diag, firstn_O, app_nil_r; reflexivity|]. rewrite nth_error_app2, Nat.sub_diag by lia. reflexivity.
  Qed.
  (** a sorted side, cut where the total of the other is reached *)
  Lemma cut_same L L' T Tr pre r post q pre' r' post' q' : Permutation d (L ++ L') -> near Tr T err -> 0 <= Tr -> Tr <= B n * W ->
    ((forall i, firstn i L <> [] -> slack u d < qabs (qsumf qty (firstn i L) - T)) /\ T + slack u d < qsumf qty L \/ T = qsumf qty L /\ Tr = A (map qty L)) ->
    CutR exact AE L T pre r post q -> CutR R A L Tr pre' r' post' q' -> pre' = pre /\ r' = r /\ near q' q (slack u d).
  Proof.
    intros P NT T0 TB C H H'. pose proof (u_nonneg R u Hrel) as U.
    destruct (slack_ge R u Hrel d Hq) as (SG & S0 & _). fold n e W err in SG.
    destruct (part_le d Hq L L' P) as (X0 & XW & Lx & Ix). fold n W in XW, Lx.
    assert (P2 : forall i, Permutation d (firstn i L ++ (skipn i L ++ L'))) by (intro i; rewrite app_assoc, firstn_skipn; exact P).
    assert (El : length pre' = length pre).
    { destruct H as (_ & _ & ->). destruct H' as (_ & _ & ->). change (AE (map qty L)) with (asum exact AE (map qty L)). rewrite (asum_exact AE). change (qsum (map qty L)) with (qsumf qty L).
      destruct C as [[Cs Ct]|[-> ->]].
      - rewrite (proj2 (qltb_lt T (qsumf qty L))) by qlra. destruct (part_near_err R u Hrel d Hq Hm L L' _ P (asum_ok R A _)) as [N1 N2]. fold n e W err in N1, N2.
        destruct NT as [T1 T2]. rewrite (proj2 (qltb_lt Tr (asum R A (map qty L)))) by qlra. f_equal. symmetry. apply (bool_map _ _ _ _ _ (sums_pairs L)).
        intros c c' (i & Ne & -> & ->). specialize (Cs i Ne).
        assert (Ns : near (run R (map qty (firstn i L))) (qsumf qty (firstn i L)) err).
        { apply (part_near_err R u Hrel d Hq Hm _ _ _ (P2 i)). apply run_sums. intros x Hx. apply in_map_iff in Hx. destruct Hx as (y & <- & Hy). apply Hm, Ix, (In_firstn i), Hy. }
        destruct Ns as [M1 M2]. unfold qabs in Cs. destruct (qle_spec 0 (qsumf qty (firstn i L) - T)).
        + rewrite !(proj2 (qleb_le _ _)) by qlra. reflexivity.
        + rewrite (proj2 (qleb_gt T _)), (proj2 (qleb_gt Tr _)) by qlra. reflexivity.
      - rewrite (proj2 (qltb_ge (qsumf qty L) (qsumf qty L))) by qlra. rewrite (proj2 (qltb_ge (asum R A (map qty L)) (asum R A (map qty L)))) by qlra. reflexivity. }
    destruct (cut_rows _ _ _ _ _ _ _ _ H) as [E1 E2]. destruct (cut_rows _ _ _ _ _ _ _ _ H') as [E3 E4]. rewrite El in E3, E4.
    assert (Ep : pre' = pre) by (rewrite E1; exact E3). assert (Er : r' = r) by congruence. split; [exact Ep|]. split; [exact Er|].
    rewrite (cut_value _ _ _ _ _ _ _ _ H), (cut_value _ _ _ _ _ _ _ _ H'). rewrite Ep, Er. apply qmin_near; [exact S0|].
    change (AE (map qty pre)) with (asum exact AE (map qty pre)). rewrite (asum_exact AE). change (exact (T - qsum (map qty pre))) with (T - qsumf qty pre).
    pose proof (P2 (length pre)) as P3. rewrite <- E1 in P3. destruct (part_le d Hq _ _ P3) as (Y0 & YW & Ly & Iy). fold n W in YW, Ly.
    pose proof (part_near_err R u Hrel d Hq Hm _ _ _ P3 (asum_ok R A _)) as Np. fold n e W err in Np.
    assert (Bp : 0 <= A (map qty pre) /\ A (map qty pre) <= B n * W).
    { assert (Qx : forall z, In z (map qty pre) -> 0 <= z /\ machine R z) by (intros z Hz; apply in_map_iff in Hz; destruct Hz as (y & <- & Hy); split; [apply Hq | apply Hm]; apply Iy, Hy).
      destruct (sum_machine R u Hrel A d _ Qx ltac:(rewrite map_length; exact Ly) YW) as (_ & Z1 & Z2 & _). split; assumption. }
    destruct Bp as [Bp1 Bp2]. pose proof (rnd_near R u Hrel (Tr - A (map qty pre))) as Nr.
    assert (Ab : qabs (Tr - A (map qty pre)) <= B n * W) by (unfold qabs; destruct (qle_spec 0 (Tr - A (map qty pre))); qlra).
    pose proof (qmult_le_l _ _ _ U Ab) as Ua. assert (W0 : 0 <= W) by qlra.
    assert (Bu : u * (B n * W) <= e * W).
    { replace (e * W) with (u * (B (2 * n) * W)) by (unfold e; ring). apply qmult_le_l; [exact U|]. apply qmult_le_r; [exact W0|]. apply (B_mono R u Hrel). lia. }
    pose proof (slack_err u d) as SE. fold n e W err in SE. assert (EW : 0 <= e * W) by (apply qmult_nonneg; [exact (e_nonneg R u Hrel d) | exact W0]).
    replace (qz 6 * (e * W)) with (e * W + e * W + e * W + e * W + e * W + e * W) in SE by (replace (qz 6) with (1 + 1 + 1 + 1 + 1 + 1) by (apply Qc_is_canon; reflexivity); ring).
    destruct Nr, NT, Np. split; qlra.
  Qed.

  (** the bids that accept a price are best bids *)
  Lemma side_best_b p i : best_buyers d (firstn i (side_r S d (Fin p) true)).
  Proof.
    unfold side_r. set (F := filter (fun r => nleb (Fin p) (Fin (price r))) (buyers d)).
    exists (skipn i (s_desc S F) ++ filter (fun r => negb (nleb (Fin p) (Fin (price r)))) (buyers d)). split.
    - rewrite app_assoc, firstn_skipn. apply perm_trans with (F ++ filter (fun r => negb (nleb (Fin p) (Fin (price r)))) (buyers d)); [apply filter_negb_perm|].
      apply Permutation_app_tail, Permutation_sym, s_desc_perm.
    - intros x y Hx Hy. apply in_app_or in Hy. destruct Hy as [Hy|Hy]; [exact (sorted_split _ _ i (s_desc_sorted S F) x y Hx Hy)|].
      apply (In_firstn i), (Permutation_in x (s_desc_perm S F)), filter_In in Hx. destruct Hx as [_ Hx]. apply filter_In in Hy. destruct Hy as [_ Hy]. apply negb_true_iff in Hy.
      cbn [nleb] in Hx, Hy. apply qleb_le in Hx. apply qleb_gt in Hy. qlra.
  Qed.
  Lemma side_best_s p i : best_sellers d (firstn i (side_r S d (Fin p) false)).
  Proof.
    unfold side_r. set (F := filter (fun r => nleb (Fin (price r)) (Fin p)) (sellers d)).
    exists (skipn i (s_asc S F) ++ filter (fun r => negb (nleb (Fin (price r)) (Fin p))) (sellers d)). split.
    - rewrite app_assoc, firstn_skipn. apply perm_trans with (F ++ filter (fun r => negb (nleb (Fin (price r)) (Fin p))) (sellers d)); [apply filter_negb_perm|].
      apply Permutation_app_tail, Permutation_sym, s_asc_perm.
    - intros x y Hx Hy. apply in_app_or in Hy. destruct Hy as [Hy|Hy]; [exact (sorted_split _ _ i (s_asc_sorted S F) x y Hx Hy)|].
      apply (In_firstn i), (Permutation_in x (s_asc_perm S F)), filter_In in Hx. destruct Hx as [_ Hx]. apply filter_In in Hy. destruct Hy as [_ Hy]. apply negb_true_iff in Hy.
      cbn [nleb] in Hx, Hy. apply qleb_le in Hx. apply qleb_gt in Hy. qlra.
  Qed.
  Lemma side_perm p b : exists l, Permutation d (side_r S d p b ++ l).
  Proof.
    assert (P : Permutation d (buyers d ++ sellers d)) by (unfold buyers, sellers; apply filter_negb_perm).
    destruct b; unfold side_r.
    - exists (filter (fun r => negb (nleb p (Fin (price r)))) (buyers d) ++ sellers d). apply (perm_trans P). rewrite app_assoc. apply Permutation_app_tail.
      apply (perm_trans (filter_negb_perm (fun r => nleb p (Fin (price r))) _)). apply Permutation_app_tail, Permutation_sym, s_desc_perm.
    - exists (filter (fun r => negb (nleb (Fin (price r)) p)) (sellers d) ++ buyers d). apply (perm_trans P). apply (perm_trans (Permutation_app_comm _ _)). rewrite app_assoc. apply Permutation_app_tail.
      apply (perm_trans (filter_negb_perm (fun r => nleb (Fin (price r)) p) _)). apply Permutation_app_tail, Permutation_sym, s_asc_perm.
  Qed.
  Lemma charge_alike l i t p l' i' t' p' us : forall fees fees', length fees = length fees' ->
    match charge_users_r exact AE l i t p us fees, charge_users_r R A l' i' t' p' us fees' with
    | Ok f, Ok f' => length f = length f' | Err a, Err a' => a = a' | _, _ => False end.
  Proof.
    induction us as [|x us IH]; intros fees fees' E; [exact E|]. cbn [charge_users_r]. unfold set_fee. rewrite <- E.
    destruct ((0 <=? x)%Z && _); [cbn [bind]; apply IH; rewrite !set_nth_length; exact E|]. destruct (_ && _); [cbn [bind]; apply IH; rewrite !set_nth_length; exact E | reflexivity].
  Qed.
  Lemma won_alike pre r q q' pr : near q' q (slack u d) -> Forall2 (alike (slack u d)) (map (fun r => mkTrans (lbl r) (qty r) pr (-1) false) (pre ++ [with_qty r q])) (map (fun r => mkTrans (lbl r) (qty r) pr (-1) false) (pre ++ [with_qty r q'])).
  Proof.
    intro N. destruct (slack_ge R u Hrel d Hq) as (_ & S0 & _). rewrite !map_app. apply Forall2_app.
    - induction pre as [|y pre IH]; constructor; [|exact IH]. unfold alike. cbn. repeat (split; [reflexivity|]). replace (qty y - qty y) with 0 by ring. change (qabs 0) with 0. exact S0.
    - repeat constructor. cbn. apply near_qabs, N.
  Qed.
  Lemma won_users pre r q q' : map user (pre ++ [with_qty r q]) = map user (pre ++ [with_qty r q']).
  Proof. rewrite !map_app. reflexivity. Qed.
  Definition alike_half (x x' : res (transmgr * list Qc)) : Prop :=
    match x, x' with
    | Ok (tm, f), Ok (tm', f') => Forall2 (alike (slack u d)) (tm_trans tm) (tm_trans tm') /\ length f = length f'
    | Err a, Err a' => a = a' | _, _ => False end.
  Theorem half_alike p fees fees' : length fees = length fees' -> alike_half (solve_market_side S d p fees) (solve_market_side_r R A S d p fees').
  Proof.
    intro Lf. rewrite <- (solve_exact AE). unfold solve_market_side_r.
    assert (None' : alike_half (Ok (tm_init, fees)) (Ok (tm_init, fees'))) by (split; [constructor | exact Lf]).
    destruct (buyers d) as [|b0 bs] eqn:Eb; [exact None'|]. destruct (sellers d) as [|s0 ss] eqn:Es; [exact None'|].
    rewrite <- Eb, <- Es. change (s_desc S (filter _ (buyers d))) with (side_r S d p true). change (s_asc S (filter _ (sellers d))) with (side_r S d p false).
    cbv zeta. rewrite !(asum_exact AE). destruct (side_perm p true) as (lb & Pb). destruct (side_perm p false) as (ls & Ps).
    set (Bs := side_r S d p true) in *. set (Ss := side_r S d p false) in *. change (qsum (map qty Bs)) with (qsumf qty Bs). change (qsum (map qty Ss)) with (qsumf qty Ss).
    destruct (slack_ge R u Hrel d Hq) as (SG & S0 & _). fold n e W err in SG.
    assert (Part : forall l l', Permutation d (l ++ l') -> near (A (map qty l)) (qsumf qty l) err /\ 0 <= A (map qty l) /\ A (map qty l) <= B n * W /\ 0 <= qsumf qty l /\ (l <> [] -> slack u d < qsumf qty l)).
    { intros l l' P. destruct (part_le d Hq l l' P) as (X0 & XW & Lx & Ix).
      assert (Qx : forall z, In z (map qty l) -> 0 <= z /\ machine R z) by (intros z Hz; apply in_map_iff in Hz; destruct Hz as (y & <- & Hy); split; [apply Hq | apply Hm]; apply Ix, Hy).
      destruct (sum_machine R u Hrel A d _ Qx ltac:(rewrite map_length; exact Lx) XW) as (_ & Z1 & Z2 & _).
      split; [apply (part_near_err R u Hrel d Hq Hm l l' _ P (asum_ok R A _))|]. split; [exact Z1|]. split; [exact Z2|]. split; [exact X0|]. intro Ne. apply (sum_gt u d Hq Hs l Ne Ix). }
    destruct (Part Bs lb Pb) as (Nb & Ab & Bb & Xb & Gb). destruct (Part Ss ls Ps) as (Ns & As & Bs' & Xs & Gs).
    assert (Er0 : 0 <= err) by (exact (err_nonneg R u Hrel d Hq)).
    destruct (list_eq_nil_dec Bs) as [Zb|Zb].
    { rewrite Zb. cbn [map]. rewrite qsumf_nil, (sum_nil_zero R A).
      replace (if qltb 0 (qsumf qty Ss) then 0 else qsumf qty Ss) with 0 by (destruct (qlt_spec 0 (qsumf qty Ss)); qlra).
      replace (if qltb 0 (A (map qty Ss)) then 0 else A (map qty Ss)) with 0 by (destruct (qlt_spec 0 (A (map qty Ss))); qlra). exact None'. }
    destruct (list_eq_nil_dec Ss) as [Zs|Zs].
    { rewrite Zs. cbn [map]. rewrite qsumf_nil, (sum_nil_zero R A).
      rewrite (proj2 (qltb_ge (qsumf qty Bs) 0)) by exact Xb. rewrite (proj2 (qltb_ge (A (map qty Bs)) 0)) by exact Ab. exact None'. }
    specialize (Gb Zb). specialize (Gs Zs).
    destruct p as [pr| | |]; [|exfalso..].
    2-4: edestruct side_nil as ([|] & E); [|exact (Zb E)|exact (Zs E)]; discriminate.
    assert (Sep : forall i j, firstn i Bs <> [] -> firstn j Ss <> [] -> slack u d < qabs (qsumf qty (firstn i Bs) - qsumf qty (firstn j Ss))).
    { intros i j Ni Nj. destruct Hs as [_ Hsep]. apply Hsep; [exact Ni | exact Nj | apply side_best_b | apply side_best_s]. }
    assert (SepB : forall i, firstn i Bs <> [] -> slack u d < qabs (qsumf qty (firstn i Bs) - qsumf qty Ss)).
    { intros i Ni. specialize (Sep i (length Ss) Ni). rewrite firstn_all in Sep. exact (Sep Zs). }
    assert (SepS : forall j, firstn j Ss <> [] -> slack u d < qabs (qsumf qty (firstn j Ss) - qsumf qty Bs)).
    { intros j Nj. specialize (Sep (length Bs) j). rewrite firstn_all in Sep. specialize (Sep Zb Nj). unfold qabs in *. destruct (qle_spec 0 (qsumf qty Bs - qsumf qty (firstn j Ss))), (qle_spec 0 (qsumf qty (firstn j Ss) - qsumf qty Bs)); qlra. }
    pose proof (SepB (length Bs)) as D. rewrite firstn_all in D. specialize (D Zb). destruct Nb as [Nb1 Nb2], Ns as [Ns1 Ns2].
    assert (Dc : qsumf qty Bs + slack u d < qsumf qty Ss \/ qsumf qty Ss + slack u d < qsumf qty Bs) by (unfold qabs in D; destruct (qle_spec 0 (qsumf qty Bs - qsumf qty Ss)); [right | left]; qlra).
    destruct Dc as [L|L].
    - rewrite (proj2 (qltb_lt (qsumf qty Bs) (qsumf qty Ss))) by qlra. rewrite (proj2 (qltb_lt (A (map qty Bs)) (A (map qty Ss)))) by qlra.
      rewrite (proj2 (qltb_lt 0 (qsumf qty Bs))) by qlra. rewrite (proj2 (qltb_lt 0 (A (map qty Bs)))) by qlra.
      destruct (trading_r_cut exact AE Ss (qsumf qty Bs) Zs) as (pre1 & r1 & post1 & q1 & rest1 & C1 & E1). destruct (trading_r_cut R A Ss (A (map qty Bs)) Zs) as (pre1' & r1' & post1' & q1' & rest1' & C1' & E1').
      destruct (trading_r_cut exact AE Bs (qsumf qty Bs) Zb) as (pre2 & r2 & post2 & q2 & rest2 & C2 & E2). destruct (trading_r_cut R A Bs (A (map qty Bs)) Zb) as (pre2' & r2' & post2' & q2' & rest2' & C2' & E2').
      rewrite E1, E1', E2, E2'. cbn [bind]. rewrite !firstn_win.
      destruct (cut_same Ss ls _ _ _ _ _ _ _ _ _ _ Ps (conj Nb1 Nb2) Ab Bb ltac:(left; split; assumption) C1 C1') as (-> & -> & M1).
      destruct (cut_same Bs lb _ _ _ _ _ _ _ _ _ _ Pb (conj Nb1 Nb2) Ab Bb ltac:(right; split; reflexivity) C2 C2') as (-> & -> & M2).
      rewrite (won_users pre1 r1 q1 q1').
      match goal with |- alike_half (bind (charge_users_r exact AE ?a ?b ?c ?x ?us fees) _) (bind (charge_users_r R A ?a' ?b' ?c' ?x' _ fees') _) => pose proof (charge_alike a b c x a' b' c' x' us fees fees' Lf) as Ch end.
      destruct (charge_users_r exact AE _ _ _ _ _ fees); destruct (charge_users_r R A _ _ _ _ _ fees'); try contradiction; cbn [bind alike_half]; [|exact Ch]. split; [|exact Ch].
      rewrite !add_all_trans. cbn [tm_init tm_trans app]. apply Forall2_app; apply won_alike; assumption.
    - rewrite (proj2 (qltb_ge (qsumf qty Bs) (qsumf qty Ss))) by qlra. rewrite (proj2 (qltb_ge (A (map qty Bs)) (A (map qty Ss)))) by qlra.
      rewrite (proj2 (qltb_lt 0 (qsumf qty Ss))) by qlra. rewrite (proj2 (qltb_lt 0 (A (map qty Ss)))) by qlra.
      destruct (trading_r_cut exact AE Bs (qsumf qty Ss) Zb) as (pre1 & r1 & post1 & q1 & rest1 & C1 & E1). destruct (trading_r_cut R A Bs (A (map qty Ss)) Zb) as (pre1' & r1' & post1' & q1' & rest1' & C1' & E1').
      destruct (trading_r_cut exact AE Ss (qsumf qty Ss) Zs) as (pre2 & r2 & post2 & q2 & rest2 & C2 & E2). destruct (trading_r_cut R A Ss (A (map qty Ss)) Zs) as (pre2' & r2' & post2' & q2' & rest2' & C2' & E2').
      rewrite E1, E1', E2, E2'. cbn [bind]. rewrite !firstn_win.
      destruct (cut_same Bs lb _ _ _ _ _ _ _ _ _ _ Pb (conj Ns1 Ns2) As Bs' ltac:(left; split; assumption) C1 C1') as (-> & -> & M1).
      destruct (cut_same Ss ls _ _ _ _ _ _ _ _ _ _ Ps (conj Ns1 Ns2) As Bs' ltac:(right; split; reflexivity) C2 C2') as (-> & -> & M2).
      rewrite (won_users pre1 r1 q1 q1').
      match goal with |- alike_half (bind (charge_users_r exact AE ?a ?b ?c ?x ?us fees) _) (bind (charge_users_r R A ?a' ?b' ?c' ?x' _ fees') _) => pose proof (charge_alike a b c x a' b' c' x' us fees fees' Lf) as Ch end.
      destruct (charge_users_r exact AE _ _ _ _ _ fees); destruct (charge_users_r R A _ _ _ _ _ fees'); try contradiction; cbn [bind alike_half]; [|exact Ch]. split; [|exact Ch].
      rewrite !add_all_trans. cbn [tm_init tm_trans app]. apply Forall2_app; apply won_alike; assumption.
  Qed.
End Half.
