(** Runs on bids generated in rounded arithmetic; double precision. *)
From Verif Require Import QcTac Num ModelBase ModelHuang ModelMuda ModelP2P ModelDatasets ModelMarket ModelRound ModelFloat ModelRoundDatasets ListFacts StoreFacts RoundFacts DatasetFacts
  Spec SpecTrade SpecMuda SpecGen SpecRound SpecRoundGen HuangMarketFacts BookTop MarketOrder GenFacts GridFacts RoundMerge RoundP2P RoundMuda RoundTop MergeFacts RoundWitness RoundMarketWitness RoundGen RoundGenTop.

Section Runs.
  Variables (R : rounding) (A : adder R) (u : Qc).
  Hypothesis RE : rel_error R u.
  Hypothesis U4 : u <= qf 1 4.
  Variables (nb ns : nat) (os ob : Qc) (r : chooser) (eps : Qc).
  Hypothesis He : 0 < eps.
  Hypothesis W : whole R (Nat.max 1 (arange_len_r R (grid_step R (Nat.max nb ns) eps))).
  Hypothesis Wm : machine R (qnat (Nat.max nb ns)).
  Hypothesis Ms : machine R os.
  Hypothesis Mb : machine R ob.
  Variable bs : list bid.
  Hypothesis E : generate_r R nb ns os ob r eps = Ok bs.
  Let d := table_of bs.

  Lemma table_facts : map lbl d = seq 0 (length d) /\ length d = (nb + ns)%nat /\ map user d = map Z.of_nat (seq 0 (nb + ns)) /\
    forall x, In x d -> user x = Z.of_nat (lbl x) /\ (lbl x < nb + ns)%nat /\ 0 <= qty x /\ qty x <= 1 /\ machine R (qty x) /\ machine R (price x) /\
      if buying x then ob <= price x /\ price x <= R (1 + ob) else os <= price x /\ price x <= R (1 + os).
  Proof.
    destruct (generate_r_ok R u RE U4 nb ns os ob r eps He W Wm Ms Mb) as (B & L & E' & LB & LL & U & PB & PL & PA & _). rewrite E in E'. injection E' as E'.
    split; [apply get_df_lbl|]. unfold d. rewrite table_rows. assert (Len : length bs = (nb + ns)%nat) by (rewrite E', app_length; lia).
    split; [rewrite rows_from_length; exact Len|]. split.
    { rewrite <- U, <- E'. clear. generalize 0%nat. induction bs as [|b l IH]; intro i; [reflexivity|]. cbn [rows_from map]. rewrite IH. reflexivity. }
    intros x Hx. apply rows_In in Hx. destruct Hx as (k & b & Hk & ->). cbn [row_of lbl user qty price buying Nat.add].
    assert (Lk : (k < nb + ns)%nat) by (rewrite <- Len; apply nth_error_Some; congruence).
    assert (Ib : In b (B ++ L)) by (rewrite <- E'; exact (nth_error_In _ _ Hk)).
    destruct (PA b Ib) as (Q0 & Q1 & Mq & Mp & _). split.
    { pose proof (map_nth_error b_user _ _ Hk) as K. rewrite E', U in K.
      rewrite (map_nth_error Z.of_nat k (seq 0 (nb + ns)) (d := k)) in K; [injection K as K; symmetry; exact K|].
      rewrite nth_error_nth' with (d := 0%nat) by (rewrite seq_length; exact Lk). rewrite seq_nth by exact Lk. reflexivity. }
    repeat (split; [assumption|]). apply in_app_iff in Ib. destruct Ib as [Ib|Ib].
    - destruct (PB b Ib) as (-> & P). exact P.
    - destruct (PL b Ib) as (-> & P). exact P.
  Qed.
  Theorem gen_p2p c rr : exists tm gtl, p2p_random_r R A d c rr = Ok (tm, XP2P gtl).
  Proof.
    destruct table_facts as (F1 & _ & _ & F). destruct (p2p_r_safe R A d c rr F1) as (tm & gtl & X & _).
    - intros x Hx. apply (F x Hx).
    - intros x Hx. apply (F x Hx).
    - eauto.
  Qed.
  Theorem gen_muda S fl : 0 <= os -> 0 <= ob -> exists tm ex, muda_r R A S d fl = Ok (tm, ex).
  Proof.
    intros Ho Hb. destruct table_facts as (F1 & F2 & F3 & F). apply (muda_r_total R A S d fl).
    - intros x Hx. apply (F x Hx).
    - unfold labels_unique. rewrite F1. apply seq_NoDup.
    - intros x Hx. destruct (F x Hx) as (_ & _ & _ & _ & _ & _ & P). destruct (buying x); destruct P; qlra.
    - intros (r1 & r2 & I1 & I2 & N & _ & _ & X). apply N. destruct (F r1 I1) as (U1 & _). destruct (F r2 I2) as (U2 & _). rewrite U1, U2 in X. lia.
    - intros x Hx. destruct (F x Hx) as (-> & Lx & _).
      assert (En : length (nodup Z.eq_dec (map user d)) = (nb + ns)%nat).
      { rewrite nodup_fixed_point; rewrite F3; [rewrite map_length, seq_length; reflexivity|].
        apply FinFun.Injective_map_NoDup; [intros a b; lia | apply seq_NoDup]. }
      rewrite En. lia.
  Qed.
End Runs.

(** nothing to round: the same bids as with exact operations *)
Theorem generate_same R nb ns os ob r eps : 0 < eps -> machine R (1 / eps) -> qnat (Nat.max nb ns) <= 1 / eps ->
  (forall i, (i < arange_len eps)%nat -> machine R (arange_at eps i) /\ machine R (arange_at eps i + os) /\ machine R (arange_at eps i + ob)) ->
  generate_r R nb ns os ob r eps = generate nb ns os ob r eps.
Proof.
  intros He M1 Hm H. unfold generate_r, generate. destruct (qeqb eps 0); [reflexivity|]. rewrite M1.
  destruct (qlt_spec (1 / eps) (qnat (Nat.max nb ns))) as [L|_]; [exfalso; revert L; apply Qcle_not_lt, Hm|]. cbn [bind].
  assert (G : forall k o q b u0, (forall i, (i < arange_len eps)%nat -> machine R (arange_at eps i) /\ machine R (arange_at eps i + o)) ->
    gen_side_r R r eps k o q b u0 = gen_side r eps k o q b u0).
  { intros k o q b u0 K. unfold gen_side_r, gen_side. assert (EL : arange_len_r R eps = arange_len eps) by (unfold arange_len_r, arange_len; rewrite M1; reflexivity). rewrite EL. set (n := arange_len eps) in *.
    destruct (Nat.leb_spec q n) as [Lq|]; [|reflexivity].
    rewrite (map_ext_in (arange_at_r R eps) (arange_at eps)) by (intros i Hi; apply ch_range in Hi; [exact (proj1 (K i Hi)) | exact Lq]).
    rewrite (map_ext_in (fun i => R (arange_at_r R eps i + o)) (fun i => arange_at eps i + o)); [reflexivity|].
    intros i Hi. apply ch_range in Hi; [|exact Lq]. destruct (K i Hi) as [K1 K2]. unfold arange_at_r. unfold arange_at, machine in K1. rewrite K1. exact K2. }
  rewrite !G; [reflexivity| |]; intros i Hi; destruct (H i Hi) as (A1 & A2 & A3); auto.
Qed.

(** double precision *)
Lemma f64_whole n : (Z.of_nat n <= 2 ^ 53)%Z -> whole f64 n.
Proof. intros H i Hi. apply f64_int. lia. Qed.
Lemma f64_dyadic m k : (0 <= m <= 2 ^ 53)%Z -> machine f64 (qz m * p2 k).
Proof.
  intros [H0 H]. unfold machine. destruct (Z.eq_dec m 0) as [->|N].
  - replace (qz 0 * p2 k) with (0:Qc) by (replace (qz 0) with (0:Qc) by (apply Qc_is_canon; reflexivity); ring). apply rnd_zero.
  - change (f64_round (qz m * p2 k) = qz m * p2 k). unfold f64_round.
    assert (P : 0 < qz m * p2 k) by (apply qmult_pos; [change (0:Qc) with (qz 0); apply (proj1 (qz_lt _ _)); lia | apply p2_pos]).
    apply qltb_lt in P. rewrite P. apply f64_free_pos. lia.
Qed.
(** steps and offsets that are multiples of a power of two *)
Theorem generate_dyadic nb ns r (k ms mb : Z) : (0 <= k <= 52)%Z -> (0 <= ms)%Z -> (0 <= mb)%Z -> (ms + 2 ^ k <= 2 ^ 53)%Z -> (mb + 2 ^ k <= 2 ^ 53)%Z ->
  (Z.of_nat (Nat.max nb ns) <= 2 ^ k)%Z ->
  let eps := p2 (- k) in let os := qz ms * eps in let ob := qz mb * eps in
  generate_r f64 nb ns os ob r eps = generate nb ns os ob r eps.
Proof.
  intros Hk H1 H2 H3 H4 Hm. cbv zeta. assert (Pk : (0 < 2 ^ k)%Z) by (apply Z.pow_pos_nonneg; lia).
  assert (I : 1 / p2 (- k) = qz (2 ^ k)).
  { rewrite <- p2_nonneg_int by lia. assert (X : p2 k * p2 (- k) = 1) by (rewrite <- p2_plus, Z.add_opp_diag_r; apply p2_0). rewrite <- X. field. apply p2_nz. }
  assert (Lk : (2 ^ k <= 2 ^ 53)%Z) by lia.
  apply generate_same.
  - apply p2_pos.
  - rewrite I. apply f64_int. lia.
  - rewrite I. unfold qnat. apply (proj1 (qz_le _ _)). exact Hm.
  - intros i Hi. assert (Li : (Z.of_nat i < 2 ^ k)%Z).
    { unfold arange_len in Hi. rewrite I in Hi. assert (C : Qround.Qceiling (this (qz (2 ^ k))) = (2 ^ k)%Z) by (rewrite (Qround.Qceiling_comp _ _ (this_qz _)); apply Qround.Qceiling_Z). rewrite C in Hi. lia. }
    unfold arange_at, qnat.
    assert (S : forall m, qz (Z.of_nat i) * p2 (- k) + qz m * p2 (- k) = qz (Z.of_nat i + m) * p2 (- k)) by (intro m; rewrite qz_plus; ring).
    rewrite !S. repeat split; apply f64_dyadic; lia.
Qed.

Theorem generate_double nb ns os ob r eps : 0 < eps -> machine f64 os -> machine f64 ob ->
  let e := grid_step f64 (Nat.max nb ns) eps in (Z.of_nat (Nat.max nb ns) <= 2 ^ 53)%Z -> (Z.of_nat (arange_len_r f64 e) <= 2 ^ 53)%Z ->
  exists bs ss, generate_r f64 nb ns os ob r eps = Ok (bs ++ ss) /\ length bs = nb /\ length ss = ns /\
    (forall b, In b (bs ++ ss) -> 0 <= b_qty b /\ b_qty b <= 1) /\
    (forall b, In b bs -> ob <= b_price b /\ b_price b <= f64 (1 + ob)) /\ (forall b, In b ss -> os <= b_price b /\ b_price b <= f64 (1 + os)) /\
    (p2 (-52) < e -> NoDup (map b_qty bs) /\ NoDup (map b_qty ss)) /\
    (p2 (-52) * (qz 2 + qabs ob) < e -> NoDup (map b_price bs)) /\ (p2 (-52) * (qz 2 + qabs os) < e -> NoDup (map b_price ss)).
Proof.
  intros He Ms Mb e Hm Hn. assert (E2 : p2 (-53) + p2 (-53) = p2 (-52)) by (rewrite <- p2_succ; reflexivity).
  destruct (generate_r_ok f64 (p2 (-53)) f64_rel ltac:(vm_compute; discriminate) nb ns os ob r eps He) as (bs & ss & E & L1 & L2 & _ & PB & PL & PA & N1 & N2 & N3); try assumption.
  - apply f64_whole. fold e. lia.
  - apply f64_int. lia.
  - rewrite E2 in N1, N2, N3. fold e in N1, N2, N3. exists bs, ss. repeat (split; [assumption|]).
    split; [intros b Hb; destruct (PA b Hb) as (Q0 & Q1 & _); auto|].
    split; [intros b Hb; apply (PB b Hb)|]. split; [intros b Hb; apply (PL b Hb)|]. auto.
Qed.
