(** Facts for PropertiesMore.v: the cut of a side, dispatch of mechanisms, grid of the generator,
    traded volume of any list of transactions, extended numbers. *)
From Coq Require Import QArith.Qround.
From Verif Require Import QcTac Num NumFacts ModelBase ModelCurves ModelHuang ModelMuda ModelP2P ModelMerge ModelMarket ModelStats ModelDatasets
  ListFacts UpdateFacts HuangMarketFacts FillFacts Spec SpecTrade SpecAlloc SpecStats SpecMarket AllocFacts P2PFacts CoverFacts LPFacts StatsFacts MudaSide MarketFacts DatasetFacts StatsTop.

(** ** the cut *)
Lemma cut_empty Q : get_trading_bids [] Q = Err IndexError.
Proof. unfold get_trading_bids. destruct (qltb _ _); reflexivity. Qed.
Lemma cut_all (L : df) (Q : Qc) : L <> [] -> qsumf qty L < Q -> get_trading_bids L Q = Ok (L, (length L - 1)%nat).
Proof.
  intros N H. unfold get_trading_bids. fold (qsumf qty L).
  destruct (qlt_spec Q (qsumf qty L)) as [X|_]; [exfalso; qlra|].
  assert (Ln : (length L - 1 < length L)%nat) by (destruct L; [congruence | simpl; lia]).
  destruct (nth_error L (length L - 1)) as [r|] eqn:E; [|apply nth_error_None in E; lia].
  pose proof (sum_firstn_S L _ r E) as S1. rewrite firstn_all2 in S1 by lia. unfold qsumf in *.
  destruct (qlt_spec (Q - qsum (map qty (firstn (length L - 1) L))) (qty r)) as [X|_]; [exfalso; qlra | reflexivity].
Qed.
Lemma cut_inside (L : df) (Q : Qc) : (forall r, In r L -> 0 < qty r) -> 0 < Q -> Q <= qsumf qty L ->
  exists pre r post q, L = pre ++ r :: post /\ qsumf qty pre + q = Q /\ 0 < q /\
    (q = qty r -> get_trading_bids L Q = Ok (L, length pre)) /\
    (q <> qty r -> q < qty r /\
       get_trading_bids L Q = Ok (pre ++ [with_qty r q; with_qty r (qty r - q)] ++ post, length pre)).
Proof.
  intros H0 H1 H2. unfold get_trading_bids.
  assert (C : exists k r, k = (if qltb Q (qsum (map qty L)) then argmax_bool (map (fun c => qleb Q c) (cumsum (map qty L))) else (length L - 1)%nat) /\
     nth_error L k = Some r /\ qsumf qty (firstn k L) < Q /\ Q <= qsumf qty (firstn k L) + qty r).
  { destruct (qlt_spec Q (qsum (map qty L))) as [L1|L1].
    - destruct (argmax_cum (map qty L) Q H1 H2) as (K1 & K2 & K3). cbv zeta in K1.
      rewrite map_length in K1. set (k := argmax_bool _) in *. destruct (nth_error L k) as [r|] eqn:E; [|apply nth_error_None in E; lia].
      exists k, r. split; [reflexivity|]. split; [exact E|]. rewrite firstn_map in K2, K3. rewrite (sum_firstn_S L k r E) in K3.
      unfold qsumf. split; [exact K2 | exact K3].
    - destruct L as [|a L]; [unfold qsumf in H2; simpl in H2; exfalso; qlra|]. set (L' := a :: L) in *.
      assert (Ln : (length L' - 1 < length L')%nat) by (simpl; lia).
      destruct (nth_error L' (length L' - 1)) as [r|] eqn:E; [|apply nth_error_None in E; lia].
      exists (length L' - 1)%nat, r. split; [reflexivity|]. split; [exact E|].
      pose proof (sum_firstn_S L' _ r E) as S1. rewrite firstn_all2 in S1 by lia.
      assert (0 < qty r) by (apply H0; eapply nth_error_In; eauto). unfold qsumf in *. split; qlra. }
  destruct C as (k & r & <- & E & K1 & K2). rewrite E.
  exists (firstn k L), r, (skipn (Datatypes.S k) L), (Q - qsumf qty (firstn k L)).
  assert (Hk : length (firstn k L) = k) by (apply firstn_length_le; apply Nat.lt_le_incl, nth_error_Some; congruence).
  rewrite Hk. fold (qsumf qty (firstn k L)).
  split; [apply split_at, E|]. split; [ring|]. split; [qlra|].
  destruct (qlt_spec (Q - qsumf qty (firstn k L)) (qty r)) as [T|T]; split; intro X.
  - exfalso. qlra.
  - split; [exact T | reflexivity].
  - reflexivity.
  - exfalso. apply X. qlra.
Qed.

(** ** dispatch *)
Lemma run_unknown S m : snd (market_run S m AUnknown) = Err KeyError.
Proof. rewrite market_run_snd. reflexivity. Qed.
Lemma run0_two_sided f d : ~ one_sided d -> mech_run0 f d = f d.
Proof.
  intro H. unfold mech_run0. destruct (_ || _)%bool eqn:E; [|reflexivity]. exfalso. apply H. apply orb_true_iff in E. unfold buyers in E.
  destruct E as [E|E]; apply Nat.eqb_eq in E.
  - right. intros r Hr. apply length_zero_iff_nil in E. destruct (buying r) eqn:B; [|reflexivity].
    assert (I : In r (filter buying d)) by (apply filter_In; auto). rewrite E in I. destruct I.
  - left. clear H. induction d as [|x d IH]; intros r Hr; [destruct Hr|]. simpl in E. destruct (buying x) eqn:B.
    + simpl in E. destruct Hr as [<-|Hr]; [exact B | apply IH; [lia | exact Hr]].
    + exfalso. assert (G : (length (filter buying d) <= length d)%nat) by (clear; induction d as [|y d IH]; simpl; [lia | destruct (buying y); simpl; lia]). lia.
Qed.
Theorem run_dispatch S m : ~ one_sided (get_df (mk_bm m)) ->
  (forall fl, snd (market_run S m (AMuda fl)) = muda S (get_df (mk_bm m)) fl) /\
  (forall c r, snd (market_run S m (AP2P c r)) = p2p_random (get_df (mk_bm m)) c r).
Proof. intro H. split; intros; rewrite market_run_snd; cbn [run_algo mechanism]; apply run0_two_sided; exact H. Qed.

(** ** percentage_traded for any transactions *)
Lemma traded_any sv d tl : map lbl d = seq 0 (length d) -> qty_nonneg d -> solver_ok sv ->
  exists x vmax, alloc_ok d x /\ alloc_compat d x /\ volume d x = vmax /\
    (forall y, alloc_ok d y -> alloc_compat d y -> volume d y <= vmax) /\
    percentage_traded sv d tl = Ok (if qltb 0 vmax then Some (qsumf t_qty tl / qz 2 / vmax) else None).
Proof.
  intros Hl Hq Hsv. pose proof (labels_ok d Hl) as Hu. destruct (max_volume d Hl sv Hq Hsv) as (x & t & vars & E & X1 & X2 & X3 & _).
  exists x, (volume d x). split; [exact X1|]. split; [exact X2|]. split; [reflexivity|]. split.
  - intros y Y1 Y2. rewrite X3. apply volume_le_cover; assumption.
  - unfold percentage_traded. rewrite E. cbn [bind ratio]. destruct (qltb 0 (volume d x)); reflexivity.
Qed.

(** ** grid of the generator *)
Lemma arange_tight eps : 0 < eps -> exists n, arange_len eps = Datatypes.S n /\ qnat n * eps < 1 /\ 1 <= qnat (Datatypes.S n) * eps.
Proof.
  intro He. assert (P : 0 < 1 / eps) by (unfold Qcdiv; rewrite Qcmult_1_l; apply qinv_pos, He).
  assert (Z1 : (0 < Qceiling (this (1 / eps)%Qc))%Z).
  { unfold Qclt in P. pose proof (Qle_ceiling (this (1 / eps)%Qc)) as L. rewrite Zlt_Qlt. eapply Qlt_le_trans; [exact P | exact L]. }
  exists (arange_len eps - 1)%nat. assert (L : (1 <= arange_len eps)%nat) by (unfold arange_len; lia).
  split; [lia|]. split; [apply (arange_lt eps); [exact He | lia]|].
  replace (Datatypes.S (arange_len eps - 1)) with (arange_len eps) by lia.
  assert (E : 1 / eps * eps = 1) by (field; intro Z; rewrite Z in He; revert He; apply Qcle_not_lt, Qcle_refl).
  rewrite <- E at 1. apply Qcmult_le_compat_r; [|apply Qclt_le_weak, He].
  unfold Qcle, qnat. rewrite this_qz. unfold arange_len. rewrite Z2Nat.id by lia. apply Qle_ceiling.
Qed.
Theorem generate_grid nb ns os ob r eps : 0 < eps ->
  exists e n bs ss, generate nb ns os ob r eps = Ok (bs ++ ss) /\
    (qnat (Nat.max nb ns) <= 1 / eps -> e = eps) /\ (1 / eps < qnat (Nat.max nb ns) -> e = 1 / (qz 2 * qnat (Nat.max nb ns))) /\
    0 < e /\ (Nat.max nb ns <= n)%nat /\ 1 <= qnat n * e /\ (forall i, (i < n)%nat -> qnat i * e < 1) /\
    map b_qty bs = map (fun i => qnat i * e) (ch r 0 n nb) /\ map b_price bs = map (fun i => ob + qnat i * e) (ch r 1 n nb) /\
    map b_qty ss = map (fun i => qnat i * e) (ch r 2 n ns) /\ map b_price ss = map (fun i => os + qnat i * e) (ch r 3 n ns) /\
    length bs = nb /\ length ss = ns.
Proof.
  intro He. set (mx := Nat.max nb ns). destruct (eps_ok mx eps He) as [Hu Hm]. set (e := eps_used mx eps) in *.
  assert (Hb : (nb <= arange_len e)%nat) by (unfold mx in Hm; lia). assert (Hs : (ns <= arange_len e)%nat) by (unfold mx in Hm; lia).
  exists e, (arange_len e), (side_bids r e 0 ob nb true 0), (side_bids r e 2 os ns false (Z.of_nat nb)).
  assert (E : generate nb ns os ob r eps = Ok (side_bids r e 0 ob nb true 0 ++ side_bids r e 2 os ns false (Z.of_nat nb))).
  { unfold generate. fold mx. assert (qeqb eps 0 = false) as -> by (apply qeqb_neq; intro Z; rewrite Z in He; revert He; apply Qcle_not_lt, Qcle_refl).
    assert (E : (if qltb (1 / eps) (qnat mx) then (if Nat.eqb mx 0 then Err ZeroDivisionError else Ok (1 / qnat mx / qz 2)) else Ok eps) = Ok e).
    { unfold e, eps_used. destruct (qlt_spec (1 / eps) (qnat mx)) as [L|]; [|reflexivity]. destruct (Nat.eqb_spec mx 0) as [Z|]; [|reflexivity].
      exfalso. rewrite Z in L. assert (0 < 1 / eps) by (unfold Qcdiv; rewrite Qcmult_1_l; apply qinv_pos, He). change (qnat 0) with (0 : Qc) in L. qlra. }
    rewrite E. cbn [bind]. rewrite (gen_side_ok r e 0 ob nb true 0 Hb). cbn [bind]. rewrite (gen_side_ok r e 2 os ns false (Z.of_nat nb) Hs). reflexivity. }
  split; [exact E|]. split; [|split].
  - intro L. unfold e, eps_used. destruct (qlt_spec (1 / eps) (qnat mx)) as [X|]; [exfalso; qlra | reflexivity].
  - intro L. unfold e, eps_used. destruct (qlt_spec (1 / eps) (qnat mx)) as [X|]; [|exfalso; qlra].
    assert (P : 0 < 1 / eps) by (unfold Qcdiv; rewrite Qcmult_1_l; apply qinv_pos, He).
    field. split; [|intro Z; apply (f_equal this) in Z; vm_compute in Z; discriminate]. intro Z. rewrite Z in X. qlra.
  - destruct (arange_tight e Hu) as (n & En & N1 & N2).
    split; [exact Hu|]. split; [exact Hm|]. split; [rewrite En; exact N2|]. split; [intros i Hi; apply (arange_lt e i Hu Hi)|].
    assert (C : forall o l, map (fun i => arange_at e i + o) l = map (fun i => o + qnat i * e) l) by (intros o l; apply map_ext; intro; unfold arange_at; ring).
    rewrite !side_qty, !side_price, !C by assumption. repeat split; apply side_length; assumption.
Qed.

(** ** extended numbers *)
Definition is_nan (a : num) : Prop := a = NaN.
Lemma num_order : (forall a, nleb NaN a = false /\ nleb a NaN = false /\ nltb NaN a = false /\ nltb a NaN = false /\ neqb NaN a = false /\ neqb a NaN = false) /\
  (forall x y, nleb (Fin x) (Fin y) = qleb x y /\ nltb (Fin x) (Fin y) = qltb x y /\ neqb (Fin x) (Fin y) = qeqb x y) /\
  (forall a, a <> NaN -> nleb NInf a = true /\ nleb a PInf = true) /\
  (forall a b, a <> NaN -> b <> NaN -> nltb a b = negb (nleb b a) /\ neqb a b = (nleb a b && nleb b a)%bool /\ (neqb a b = true <-> a = b)) /\
  (forall a b c, nleb a b = true -> nleb b c = true -> nleb a c = true).
Proof.
  split; [intros []; repeat split; reflexivity|]. split; [repeat split; reflexivity|]. split; [intros [] H; split; try reflexivity; congruence|].
  split.
  - intros [x| | |] [y| | |] Ha Hb; try congruence; cbn; try (repeat split; try reflexivity; congruence).
    destruct (qlt_spec x y), (qle_spec y x), (qle_spec x y), (qeq_spec x y) as [E|E]; try (exfalso; subst; qlra); try (exfalso; apply E; qlra); repeat split; cbn; congruence.
  - intros [x| | |] [y| | |] [z| | |]; cbn; try congruence. destruct (qle_spec x y), (qle_spec y z), (qle_spec x z); try congruence. exfalso; qlra.
Qed.
Lemma num_arith : (forall x y, nadd (Fin x) (Fin y) = Fin (x + y) /\ nmul (Fin x) (Fin y) = Fin (x * y)) /\
  (forall a b, nadd a b = nadd b a /\ nmul a b = nmul b a) /\
  (forall a, nadd NaN a = NaN /\ nmul NaN a = NaN) /\
  (forall a, a <> NaN -> a <> NInf -> nadd PInf a = PInf) /\ (forall a, a <> NaN -> a <> PInf -> nadd NInf a = NInf) /\ nadd PInf NInf = NaN /\
  (forall a, nltb (Fin 0) a = true -> nmul PInf a = PInf /\ nmul NInf a = NInf) /\
  (forall a, nltb a (Fin 0) = true -> nmul PInf a = NInf /\ nmul NInf a = PInf) /\
  nmul PInf (Fin 0) = NaN /\ nmul NInf (Fin 0) = NaN.
Proof.
  assert (P : forall b x, 0 < x -> ninf_times b x = if b then PInf else NInf).
  { intros b x H. unfold ninf_times. destruct (qeq_spec x 0) as [->|_]; [exfalso; qlra|]. destruct (qlt_spec 0 x); [reflexivity | exfalso; qlra]. }
  assert (N : forall b x, x < 0 -> ninf_times b x = if b then NInf else PInf).
  { intros b x H. unfold ninf_times. destruct (qeq_spec x 0) as [->|_]; [exfalso; qlra|]. destruct (qlt_spec 0 x); [exfalso; qlra | reflexivity]. }
  repeat split; try reflexivity.
  - destruct a, b; try reflexivity. cbn. f_equal. ring.
  - destruct a, b; try reflexivity. cbn. f_equal. ring.
  - intros [] A B; try reflexivity; congruence.
  - intros [] A B; try reflexivity; congruence.
  - destruct a; cbn in *; try congruence. destruct (qlt_spec 0 q); [apply (P true); assumption | discriminate].
  - destruct a; cbn in *; try congruence. destruct (qlt_spec 0 q); [apply (P false); assumption | discriminate].
  - destruct a; cbn in *; try congruence. destruct (qlt_spec q 0); [apply (N true); assumption | discriminate].
  - destruct a; cbn in *; try congruence. destruct (qlt_spec q 0); [apply (N false); assumption | discriminate].
Qed.
Lemma num_extrema a b : (a = NaN \/ b = NaN -> nmax a b = NaN /\ nmin a b = NaN) /\
  (a <> NaN -> b <> NaN -> (nmax a b = a \/ nmax a b = b) /\ nleb a (nmax a b) = true /\ nleb b (nmax a b) = true /\
     (nmin a b = a \/ nmin a b = b) /\ nleb (nmin a b) a = true /\ nleb (nmin a b) b = true).
Proof.
  split.
  - intros [->| ->]; [split; reflexivity|]. destruct a; split; reflexivity.
  - destruct a as [x| | |], b as [y| | |]; intros Ha Hb; try congruence; cbn; try tauto.
    all: try (destruct (qle_spec x y); cbn; destruct (qle_spec x x), (qle_spec y y), (qle_spec x y), (qle_spec y x); try tauto; exfalso; qlra).
    all: try (destruct (qle_spec x x); try tauto; exfalso; qlra).
    all: try (destruct (qle_spec y y); try tauto; exfalso; qlra).
Qed.
