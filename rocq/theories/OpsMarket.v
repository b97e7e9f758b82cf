(** Merging, splitting and [Market.run("huang")] on doubles. *)
From Coq Require Import Floats.SpecFloat.
From Verif Require AllocFacts.
From Verif Require Import QcTac Num ModelMerge MergeFacts ModelBase ModelCurves ModelHuang ModelMuda ModelMarket ModelRound ModelRoundMarket ModelFloat ModelBounded
  Spec SpecGrid SpecDouble SpecIeee SpecOps SpecRoundMarket Sorter ListFacts StoreFacts RoundFacts RoundMerge BoundFacts DoubleFacts ModelOps ModelOpsMarket OpsFacts OpsRun.

(** ** With rounded operations: the rounded model *)
Lemma div_inv x c : c <> 0 -> x / (1 / c) = x * c.
Proof. intro N. field. split; [exact N | discriminate]. Qed.
Lemma pow10_pz k : (0 <= k)%Z -> 0 < qz (10 ^ k).
Proof. intro K. rewrite <- qz_0. apply (proj1 (qz_lt _ _)). apply Z.pow_pos_nonneg; lia. Qed.
Lemma np_round_rounded R prec x : np_round_o (rounded R) prec x = np_round_r R prec x.
Proof.
  unfold np_round_o, np_round_r, pow10. destruct (Z.leb_spec 0 prec) as [L|L]; [reflexivity|]. cbn [o_mul o_div rounded].
  assert (N : qz (10 ^ (- prec)) <> 0) by (pose proof (pow10_pz (- prec) ltac:(lia)) as P; intro Z; rewrite Z in P; discriminate P).
  rewrite div_inv by exact N. assert (E : x * (1 / qz (10 ^ (- prec))) = x / qz (10 ^ (- prec))) by (field; exact N). rewrite E. reflexivity.
Qed.
Lemma merge_groups_rounded R (G : adder R) prec smp side keys : forall g cnt, merge_groups_o (rounded R) G prec smp side keys g cnt = merge_groups_r R G prec smp side keys g cnt.
Proof.
  induction keys as [|k keys IH]; intros g cnt; [reflexivity|]. cbn [merge_groups_o merge_groups_r].
  rewrite (filter_ext (fun x => qeqb (np_round_o (rounded R) prec (price x)) k) (fun x => qeqb (np_round_r R prec (price x)) k)) by (intro x; rewrite np_round_rounded; reflexivity).
  destruct (new_id _ cnt) as [[u c]|]; [|reflexivity]. cbn [bind]. rewrite IH. reflexivity.
Qed.
Lemma merge_rounded R (G : adder R) prec smp d cnt : merge_same_price_o (rounded R) G prec smp d cnt = merge_same_price_r R G prec smp d cnt.
Proof.
  assert (K : forall s, side_keys_o (rounded R) prec s = side_keys_r R prec s) by (intro s; unfold side_keys_o, side_keys_r; f_equal; apply map_ext; intro x; apply np_round_rounded).
  unfold merge_same_price_o, merge_same_price_r. rewrite !K, merge_groups_rounded. destruct (merge_groups_r R G prec smp (buyers d) _ 0 _) as [[[mb g1] c1]|]; [|reflexivity]. cbn [bind]. rewrite merge_groups_rounded. reflexivity.
Qed.
Lemma split_rounded R (A : adder R) bids mp ts : forall acc, split_list_o (rounded R) A bids mp ts acc = split_list_r R A bids mp ts acc.
Proof. induction ts as [|t ts IH]; intro acc; [reflexivity|]. cbn [split_list_o split_list_r]. change (split_one_o (rounded R) A bids mp t) with (split_one_r R A bids mp t). destruct (split_one_r R A bids mp t); [apply IH | reflexivity]. Qed.
Theorem run_huang_rounded R (A G : adder R) S smp cnt d : run_huang_o (rounded R) A G S smp cnt d = run_huang_r R A G S smp cnt d.
Proof.
  unfold run_huang_o, run_huang_r. rewrite merge_rounded. destruct (merge_same_price_r R G 5 smp d cnt) as [[[nb mp] c]|]; [|reflexivity]. cbn [bind].
  assert (E : merged_run (huang_auction_o (rounded R) A S) nb = merged_run (huang_auction_r R A S) nb) by (unfold merged_run, mech_run0; rewrite huang_rounded; reflexivity).
  rewrite E. clear E. destruct (merged_run _ nb) as [[tm ex]|]; [|reflexivity]. cbn [bind]. unfold split_transactions_o, split_transactions_r. rewrite (split_rounded R A d mp (tm_trans tm) tm_init). reflexivity.
Qed.

(** ** Rounding to an integer *)
Lemma int_machine z : (Z.abs z <= 2 ^ 53)%Z -> binary64 (qz z) = qz z.
Proof.
  assert (W : forall n, (0 <= n <= 2 ^ 53)%Z -> binary64 (qz n) = qz n).
  { intros n H. pose proof (grid_machine 0 n ltac:(unfold okE; lia) H) as G. rewrite p2_0, Qcmult_1_r in G. exact G. }
  intro H. destruct (Z.le_ge_cases 0 z) as [K|K]; [apply W; lia|]. assert (E : qz z = - qz (- z)) by (apply Qc_is_canon; rewrite this_opp, !this_qz; unfold Qeq; simpl; lia).
  rewrite E, (rnd_opp binary64), W by lia. reflexivity.
Qed.
Lemma rint_machine x : binary64 x = x -> binary64 (qz (rint x)) = qz (rint x).
Proof.
  intro M. pose proof (proj1 (rounds_machine _ _ binary64_rounds x) M) as N. destruct (number_step _ x 53 N) as [[m E]|L].
  - change (p2 (53 - 52)) with (p2 1) in E. rewrite (p2_nonneg_int 1), <- qz_mult in E by lia. rewrite E, rint_int, <- E. exact M.
  - apply int_machine. rewrite p2_nonneg_int in L by lia. assert (L' : - qz (2 ^ 53) <= x /\ x <= qz (2 ^ 53)) by (revert L; unfold qabs; destruct (qle_spec 0 x); generalize (qz (2 ^ 53)); intros; split; qlra).
    destruct L' as [L1 L2]. assert (E : - qz (2 ^ 53) = qz (- 2 ^ 53)) by (apply Qc_is_canon; reflexivity). rewrite E in L1. apply ModelFloat.rint_ge_int in L1. apply ModelFloat.rint_le_int in L2. lia.
Qed.
Lemma rint_in e x : (0 <= e)%Z -> inb e 1 x -> inb e 1 (qz (rint x)).
Proof.
  intros He [M L]. split; [apply rint_machine, M|]. rewrite qz_1, Qcmult_1_l in L |- *. rewrite p2_nonneg_int in L |- * by exact He. set (n := (2 ^ e)%Z) in *. clearbody n.
  assert (E : forall z, qz (- z) = - qz z) by (intro z; apply Qc_is_canon; rewrite this_opp, !this_qz; reflexivity).
  assert (L1 : qz (- n) <= x) by (rewrite E; revert L; unfold qabs; destruct (qle_spec 0 x); intro; qlra). assert (L2 : x <= qz n) by (revert L; unfold qabs; destruct (qle_spec 0 x); intro; qlra).
  apply ModelFloat.rint_ge_int in L1. apply ModelFloat.rint_le_int in L2. apply (proj1 (qz_le _ _)) in L1, L2. rewrite E in L1. unfold qabs. destruct (qle_spec 0 (qz (rint x))); qlra.
Qed.

(** ** Doubles *)
Section Doubles.
  Variable j : Qc.
  Notation D := (doubles j).
  Notation B := binary64.
  Variables a b : Z.
  Hypothesis Ha : (0 <= a)%Z.
  Hypothesis Hb : (0 <= b)%Z.
  Hypothesis Hab : (a + b <= 700)%Z.
  Ltac oke := unfold okE; lia.
  Variable prec : Z.
  Hypothesis Hprec : (-15 <= prec <= 15)%Z.

  Lemma ten_in k : (0 <= k <= 15)%Z -> inb 50 1 (qz (10 ^ k)) /\ exists N, qz (10 ^ k) = qnat N /\ (0 < N)%nat /\ (Z.of_nat N <= 2 ^ 53)%Z.
  Proof.
    intro K. pose proof (Z.pow_pos_nonneg 10 k ltac:(lia) ltac:(lia)) as P. pose proof (Z.pow_le_mono_r 10 k 15 ltac:(lia) ltac:(lia)) as L. change (10 ^ 15)%Z with 1000000000000000%Z in L. set (t := (10 ^ k)%Z) in *. clearbody t. split.
    - split; [apply int_machine; lia|]. rewrite qz_1, Qcmult_1_l, p2_nonneg_int by lia. rewrite qabs_pos by (rewrite <- qz_0; apply (proj1 (qz_le _ _)); lia). apply (proj1 (qz_le _ _)). lia.
    - exists (Z.to_nat t). unfold qnat. rewrite Z2Nat.id by lia. split; [reflexivity|]. split; lia.
  Qed.
  Lemma round_in x : inb b 1 x -> np_round_o D prec x = np_round_r B prec x /\ inb (b + 50) 1 (np_round_r B prec x).
  Proof.
    intro X. rewrite <- np_round_rounded. unfold np_round_o. destruct (Z.leb_spec 0 prec) as [L|L]; cbn [o_mul o_div rounded].
    - destruct (ten_in prec ltac:(lia)) as [T (N & EN & N0 & N1)]. destruct (o_mul_in j b 50 1 1 x _ ltac:(oke) X T ltac:(lia) ltac:(lia) ltac:(lia)) as [E1 I1]. cbn [Z.mul Pos.mul] in I1. rewrite E1.
      apply (rint_in (b + 50) _ ltac:(lia)) in I1. rewrite EN in *. apply (o_div_in j (b + 50) ltac:(oke) 1 _ N I1); [lia | exact N0 | exact N1].
    - destruct (ten_in (- prec) ltac:(lia)) as [T (N & EN & N0 & N1)]. rewrite EN in T |- *. destruct (o_div_in j b ltac:(oke) 1 x N X ltac:(lia) N0 N1) as [E1 I1]. rewrite E1. apply (rint_in b _ Hb) in I1.
      apply (o_mul_in j b 50 1 1 _ _ ltac:(oke) I1 T); lia.
  Qed.
  Definition price_side (side : df) : Prop := forall r, In r side -> inb b 1 (price r).
  Lemma group_eq side k : price_side side -> filter (fun x => qeqb (np_round_o D prec (price x)) k) side = filter (fun x => qeqb (np_round_r B prec (price x)) k) side.
  Proof. intro H. apply filter_ext_in. intros x Hx. rewrite (proj1 (round_in _ (H x Hx))). reflexivity. Qed.
  Lemma keys_eq side : price_side side -> side_keys_o D prec side = side_keys_r B prec side.
  Proof. intro H. unfold side_keys_o, side_keys_r. f_equal. apply map_ext_in. intros x Hx. apply round_in, H, Hx. Qed.
  Lemma keys_in side k : price_side side -> In k (side_keys_r B prec side) -> inb (b + 50) 1 k.
  Proof. intros H K. unfold side_keys_r in K. rewrite group_keys_In, in_map_iff in K. destruct K as (x & <- & Hx). apply round_in, H, Hx. Qed.
  Lemma keys_len side : (length (side_keys_r B prec side) <= length side)%nat.
  Proof.
    unfold side_keys_r. rewrite <- (map_length (fun x => np_round_r B prec (price x)) side). set (l := map (fun x => np_round_r B prec (price x)) side). clearbody l.
    apply NoDup_incl_length; [apply sorted_lt_NoDup, group_keys_sorted | intros x Hx; apply group_keys_In, Hx].
  Qed.
  Lemma group_sum d : table_in a b d -> seq_sum_o D (map qty d) = seq_sum B (map qty d) /\ inb (a + 40) 1 (seq_sum B (map qty d)).
  Proof.
    intro H. pose proof (table_qty a b d H) as F. destruct H as [_ L]. destruct (seq_in j a ltac:(oke) _ F ltac:(rewrite map_length; lia)) as [E I]. split; [exact E|].
    rewrite map_length in I. apply (inb_up a (zlen d) 40); [exact I | lia | exact L].
  Qed.
  Lemma groups_in smp side : table_in a b side -> forall keys g cnt,
    merge_groups_o D (seq_sum_o D) prec smp side keys g cnt = merge_groups_r B (seq_adder B) prec smp side keys g cnt.
  Proof.
    intros H keys. assert (P : price_side side) by (intros r Hr; destruct H as [F _]; rewrite Forall_forall in F; apply F, Hr).
    induction keys as [|k keys IH]; intros g cnt; [reflexivity|]. cbn [merge_groups_o merge_groups_r]. rewrite group_eq by exact P.
    destruct (new_id _ cnt) as [[u c]|]; [|reflexivity]. cbn [bind]. rewrite IH. rewrite (proj1 (group_sum _ (table_filter a b (fun x => qeqb (np_round_r B prec (price x)) k) side H))). reflexivity.
  Qed.
  Lemma table_sides d : table_in a b d -> table_in a b (buyers d) /\ table_in a b (sellers d).
  Proof. intro H. split; apply table_filter, H. Qed.
  Lemma table_price d : table_in a b d -> price_side d.
  Proof. intros [F _] r Hr. rewrite Forall_forall in F. apply F, Hr. Qed.
  Lemma merge_in smp d cnt : table_in a b d -> merge_same_price_o D (seq_sum_o D) prec smp d cnt = merge_same_price_r B (seq_adder B) prec smp d cnt /\
    forall md mp c, merge_same_price_r B (seq_adder B) prec smp d cnt = Ok (md, mp, c) -> table_in (a + 40) (b + 50) md /\ (forall rows, In rows mp -> (length rows <= length d)%nat).
  Proof.
    intro H. destruct (table_sides d H) as [H1 H2]. split.
    - unfold merge_same_price_o, merge_same_price_r. rewrite !keys_eq by (apply table_price; assumption). rewrite groups_in by exact H1.
      destruct (merge_groups_r B (seq_adder B) prec smp (buyers d) _ 0 _) as [[[mb g1] c1]|]; [|reflexivity]. cbn [bind]. rewrite groups_in by exact H2. reflexivity.
    - intros md mp c E. destruct (merge_r_ok B (seq_adder B) prec smp d cnt) as (mb & ms & c2 & E' & M). rewrite E' in E. injection E as <- <- <-.
      assert (En : forall (s : df) bb k rm, table_in a b s -> (length s <= length d)%nat -> In k (side_keys_r B prec s) -> entry_r B (seq_adder B) prec s bb k rm -> row_in (a + 40) (b + 50) (fst rm) /\ (length (snd rm) <= length d)%nat).
      { intros s bb k rm Hs Ls Hk (P & Q & _ & R & _). split.
        - split; [|rewrite P; apply (keys_in s); [apply table_price, Hs | exact Hk]]. rewrite Q. unfold grp_r. apply (proj2 (group_sum _ (table_filter a b (fun x => qeqb (np_round_r B prec (price x)) k) s Hs))).
        - rewrite R, map_length. unfold grp_r. pose proof (OpsRun.filter_len (fun x => qeqb (np_round_r B prec (price x)) k) s). lia. }
      pose proof (side_len d) as SL.
      assert (All : forall rm, In rm (mb ++ ms) -> row_in (a + 40) (b + 50) (fst rm) /\ (length (snd rm) <= length d)%nat).
      { intros rm Hr. apply in_app_or in Hr. destruct Hr as [Hr|Hr].
        - destruct (mbr_in _ _ _ _ _ _ _ _ M rm Hr) as (k & Hk & Ek). apply (En (buyers d) true k rm H1); [lia | exact Hk | exact Ek].
        - destruct (msr_in _ _ _ _ _ _ _ _ M rm Hr) as (k & Hk & Ek). apply (En (sellers d) false k rm H2); [lia | exact Hk | exact Ek]. }
      split; [split|].
      + apply Forall_forall. intros r Hr. apply in_map_iff in Hr. destruct Hr as (rm & <- & Hr). apply All, Hr.
      + rewrite map_length, app_length. rewrite <- (Forall2_len _ _ _ (mor_b _ _ _ _ _ _ _ _ M)), <- (Forall2_len _ _ _ (mor_s _ _ _ _ _ _ _ _ M)).
        pose proof (keys_len (buyers d)). pose proof (keys_len (sellers d)). destruct H as [_ L]. lia.
      + intros rows Hr. apply in_map_iff in Hr. destruct Hr as (rm & <- & Hr). apply All, Hr.
  Qed.

  (** ** Splitting *)
  Variable c : Z.
  Hypothesis Hc : (0 <= c <= 900)%Z.
  Lemma iloc_in d rows : forall rs, iloc d rows = Ok rs -> (forall r, In r rs -> In r d) /\ length rs = length rows.
  Proof.
    induction rows as [|i rows IH]; intros rs E; cbn [iloc] in E; [injection E as <-; split; [intros r [] | reflexivity]|].
    destruct (nth_error d i) as [x|] eqn:N; [|discriminate]. destruct (iloc d rows) as [xs|]; [|discriminate]. cbn [bind] in E. injection E as <-. destruct (IH xs eq_refl) as [I1 I2].
    split; [intros r [<-|Hr]; [eapply nth_error_In; exact N | apply I1, Hr] | simpl; rewrite I2; reflexivity].
  Qed.
  Lemma share_in rs x t : Forall (fun r => row_in a b r /\ 0 <= qty r) rs -> (zlen rs <= 2 ^ 40)%Z -> In x rs -> np_sum B (map qty rs) <> 0 -> inb c 1 t ->
    np_sum_o D (map qty rs) = np_sum B (map qty rs) /\
    o_mul D t (o_div D (qty x) (np_sum B (map qty rs))) = B (t * B (qty x / np_sum B (map qty rs))) /\ inb c 1 (B (t * B (qty x / np_sum B (map qty rs)))).
  Proof.
    intros F L Hx N T. rewrite Forall_forall in F. assert (F1 : Forall (inb a 1) (map qty rs)).
    { apply Forall_forall. intros y Hy. apply in_map_iff in Hy. destruct Hy as (r & <- & Hr). apply F, Hr. }
    destruct (np_in j a ltac:(oke) _ F1 ltac:(rewrite map_length; lia)) as [E I]. split; [exact E|].
    assert (G : qty x <= np_sum B (map qty rs)).
    { apply (sums_ge B _ _ (np_sum_ok B (map qty rs))); [|apply in_map, Hx]. intros y Hy. apply in_map_iff in Hy. destruct Hy as (r & <- & Hr). destruct (F r Hr) as [[Q _] Z]. split; [exact Z | apply Q]. }
    destruct (F x Hx) as [[Qx _] Zx]. set (s := np_sum B (map qty rs)) in *. clearbody s.
    assert (P : 0 < s) by (destruct (Qclt_le_dec 0 s) as [P|P]; [exact P | exfalso; apply N, Qcle_antisym; [exact P | exact (Qcle_trans _ _ _ Zx G)]]).
    assert (R0 : 0 <= qty x / s).
    { unfold Qcdiv. apply qmult_nonneg; [exact Zx | apply Qclt_le_weak, AllocFacts.qinv_pos, P]. }
    assert (R1 : qty x / s <= 1).
    { replace 1 with (s / s) by (field; exact N). unfold Qcdiv. apply qmult_le_r; [apply Qclt_le_weak, AllocFacts.qinv_pos, P | exact G]. }
    assert (V : qabs (qty x / s) <= qz 1 * p2 0) by (rewrite qz_1, p2_0, Qcmult_1_l, qabs_pos by exact R0; exact R1).
    destruct (inb_round 0 1 (qty x / s) ltac:(oke) ltac:(lia) V) as [I2 I3].
    assert (E2 : o_div D (qty x) s = B (qty x / s)) by (apply d_div; [apply Qx | apply I | exact N | exact I3]). rewrite E2.
    destruct (o_mul_in j c 0 1 1 t _ ltac:(oke) T I2 ltac:(lia) ltac:(lia) ltac:(lia)) as [E3 I4]. rewrite Z.add_0_r in I4. split; [exact E3 | exact I4].
  Qed.
  Lemma split_in d mp ts : table_in a b d -> (forall r, In r d -> 0 <= qty r) -> (forall rows, In rows mp -> (zlen rows <= 2 ^ 40)%Z) -> (forall t, In t ts -> inb c 1 (t_qty t)) ->
    forall acc, split_list_o D (np_sum_o D) d mp ts acc = split_list_r B (np_adder B) d mp ts acc /\
    forall tm, (forall t, In t (tm_trans acc) -> inb c 1 (t_qty t)) -> split_list_r B (np_adder B) d mp ts acc = Ok tm -> forall t, In t (tm_trans tm) -> inb c 1 (t_qty t).
  Proof.
    intros H Hq Hm. induction ts as [|t ts IH]; intros Ht acc; [split; [reflexivity|]; intros tm Ac E; injection E as <-; exact Ac|].
    cbn [split_list_o split_list_r].
    assert (K : split_one_o D (np_sum_o D) d mp t = split_one_r B (np_adder B) d mp t /\ forall l, split_one_r B (np_adder B) d mp t = Ok l -> forall u, In u l -> inb c 1 (t_qty u)).
    { unfold split_one_o, split_one_r. destruct (nth_error mp (t_bid t)) as [rows|] eqn:En; [|split; [reflexivity | discriminate]]. apply nth_error_In, Hm in En.
      destruct (iloc d rows) as [rs|] eqn:Ei; [|split; [reflexivity | discriminate]]. destruct (iloc_in d rows rs Ei) as [I1 I2]. cbn [bind].
      assert (Fr : Forall (fun r => row_in a b r /\ 0 <= qty r) rs).
      { destruct H as [F _]. rewrite Forall_forall in F |- *. intros r Hr. split; [apply F, I1, Hr | apply Hq, I1, Hr]. }
      assert (Lr : (zlen rs <= 2 ^ 40)%Z) by (rewrite I2; exact En). pose proof (Ht t (or_introl eq_refl)) as T.
      assert (Es : np_sum_o D (map qty rs) = np_sum B (map qty rs)).
      { apply (np_in j a); [oke | | rewrite map_length; lia]. apply Forall_forall. intros y Hy. apply in_map_iff in Hy. destruct Hy as (r & <- & Hr). rewrite Forall_forall in Fr. apply Fr, Hr. }
      change (np_adder B (map qty rs)) with (np_sum B (map qty rs)). rewrite Es.
      destruct (qeqb (np_sum B (map qty rs)) 0) eqn:Z.
      - destruct rows; (split; [reflexivity|]); [intros l E; injection E as <-; intros u [] | discriminate].
      - assert (N : np_sum B (map qty rs) <> 0) by (intro N; rewrite (proj2 (qeqb_eq _ _) N) in Z; discriminate). split.
        + f_equal. apply map_ext_in. intros [i r] Hi. apply in_combine_r in Hi. cbn [fst snd]. rewrite (proj1 (proj2 (share_in rs r (t_qty t) Fr Lr Hi N T))). reflexivity.
        + intros l E. injection E as <-. intros u Hu. apply in_map_iff in Hu. destruct Hu as ([i r] & <- & Hi). apply in_combine_r in Hi. cbn [t_qty fst snd]. apply (share_in rs r (t_qty t) Fr Lr Hi N T). }
    destruct K as [K1 K2]. rewrite K1. destruct (split_one_r B (np_adder B) d mp t) as [l|]; [|split; [reflexivity | discriminate]]. cbn [bind].
    destruct (IH (fun u Hu => Ht u (or_intror Hu)) (add_all acc l)) as [J1 J2]. split; [exact J1|]. intros tm Ac E. apply J2; [|exact E]. intros u Hu. rewrite add_all_trans in Hu. apply in_app_or in Hu.
    destruct Hu as [Hu|Hu]; [apply Ac, Hu | apply (K2 l eq_refl), Hu].
  Qed.
End Doubles.
