(** The statements about [Market.run("huang")] in rounded arithmetic put together. *)
From Verif Require Import QcTac Num NumFacts ModelBase ModelCurves ModelHuang ModelMerge ModelMarket ModelRound ModelRoundMarket ListFacts StoreFacts
  Spec SpecAlloc SpecTrade SpecRound SpecRoundMarket UpdateFacts TradeFacts HuangFacts MergeFacts RoundFacts RoundHuang RoundError RoundMerge P2PTrades RoundMarket SpecMerge HuangMarketFacts.

Lemma peers_group R prec d r x : buying x = buying r -> np_round_r R prec (price x) = price r -> peers R prec d x = group_of_r R prec d r.
Proof. intros H1 H2. unfold peers, group_of_r. rewrite H1, H2. reflexivity. Qed.

Lemma filter_le {X} (p : X -> bool) l : (length (filter p l) <= length l)%nat.
Proof. induction l as [|x l IH]; simpl; [lia|]. destruct (p x); simpl; lia. Qed.
Lemma qsumf_sides d : qsumf qty d = qsumf qty (all_b d) + qsumf qty (all_s d).
Proof.
  unfold all_b, all_s. induction d as [|r l IH]; cbn [filter]; [rewrite !qsumf_nil; ring|]. rewrite qsumf_cons, IH.
  destruct (buying r); cbn [negb]; rewrite qsumf_cons; ring.
Qed.
Lemma qsumf_incl {X} (f : X -> Qc) l l' : NoDup l -> incl l l' -> (forall x, In x l' -> 0 <= f x) -> qsumf f l <= qsumf f l'.
Proof.
  intro H. revert l'. induction H as [|x l Hx H IH]; intros l' Hi Hn.
  - rewrite qsumf_nil. apply qsumf_nonneg, Hn.
  - assert (I : In x l') by (apply Hi; left; reflexivity). apply in_split in I. destruct I as (l1 & l2 & ->).
    rewrite qsumf_cons, qsumf_app, qsumf_cons.
    assert (K : qsumf f l <= qsumf f (l1 ++ l2)).
    { apply IH.
      - intros y Hy. assert (J : In y (l1 ++ x :: l2)) by (apply Hi; right; exact Hy). apply in_app_or in J. apply in_or_app.
        destruct J as [J|[J|J]]; [left; exact J | subst y; contradiction | right; exact J].
      - intros y Hy. apply Hn. apply in_app_or in Hy. apply in_or_app. destruct Hy; [left | right; right]; assumption. }
    rewrite qsumf_app in K. qlra.
Qed.
(** ** The rounding of the prices *)
Section Key.
  Variables (R : rounding) (u : Qc) (prec : Z).
  Hypothesis Hrel : rel_error R u.
  Notation c := (pow10 prec).
  Notation key := (np_round_r R prec).
  Notation half := (qf 1 2 / c).
  Let pos := pow10_pos prec.
  Lemma c_inv x : x * c / c = x.
  Proof. field. intro Z. pose proof pos as P. rewrite Z in P. qlra. Qed.
  Lemma key_frac x : near (qz (rint (R (x * c))) / c) x (u * qabs x + half).
  Proof.
    pose proof pos as P. destruct (rint_near (R (x * c))) as [H1 H2]. destruct (rnd_near R u Hrel (x * c)) as [N1 N2].
    assert (E : qabs (x * c) = qabs x * c).
    { unfold qabs. destruct (qle_spec 0 x) as [L|L].
      - destruct (qle_spec 0 (x * c)) as [K|K]; [reflexivity|]. pose proof (qmult_nonneg x c L ltac:(qlra)). qlra.
      - assert (0 < (- x) * c) by (apply qmult_pos; qlra). replace (- x * c) with (- (x * c)) in * by ring.
        destruct (qle_spec 0 (x * c)); [qlra | reflexivity]. }
    rewrite E in *. set (m := qz (rint (R (x * c)))) in *. clearbody m. set (z := R (x * c)) in *. clearbody z.
    assert (Hc : x * c + (u * (qabs x * c) + qf 1 2) = (x + (u * qabs x + half)) * c) by (field; intro Z; rewrite Z in P; qlra).
    split.
    - rewrite <- (c_inv (x + _)). apply div_mono; [exact P|]. qlra.
    - rewrite <- (c_inv x) at 1. replace (m / c + (u * qabs x + half)) with ((m + (u * (qabs x * c) + qf 1 2)) / c) by (field; intro Z; rewrite Z in P; qlra).
      apply div_mono; [exact P|]. qlra.
  Qed.
  Lemma half_pos : 0 < half.
  Proof. pose proof pos as P. unfold Qcdiv. apply qmult_pos; [apply qltb_lt; vm_compute; reflexivity | apply AllocFacts.qinv_pos, P]. Qed.
  (** the rounded price against the price *)
  Theorem key_near x : near (key x) x (((1 + u) ^ 2 - 1) * qabs x + (1 + u) * half).
  Proof.
    pose proof (u_nonneg R u Hrel) as U. pose proof (key_frac x) as N1. pose proof half_pos as Hh.
    change (key x) with (R (qz (rint (R (x * c))) / c)). set (m := qz (rint (R (x * c))) / c) in *.
    pose proof (rnd_near R u Hrel m) as N2.
    assert (L : qabs m <= qabs x + (u * qabs x + half)).
    { clear N2. clearbody m. destruct N1 as [N1 N1']. unfold qabs in *.
      destruct (qle_spec 0 m); destruct (qle_spec 0 x); qlra. }
    apply (near_weaken _ _ _ _ (near_trans _ _ _ _ _ N2 N1)).
    pose proof (qmult_le_l _ _ _ U L) as K.
    replace (((1 + u) ^ 2 - 1) * qabs x + (1 + u) * half) with (u * (qabs x + (u * qabs x + half)) + (u * qabs x + half)) by (simpl; ring). qlra.
  Qed.
  Lemma key_lt_frac x y : key y < key x -> qz (rint (R (y * c))) + 1 <= qz (rint (R (x * c))).
  Proof.
    intro H. rewrite <- qz_1, <- qz_plus. apply (proj1 (qz_le _ _)).
    destruct (Z.le_gt_cases (rint (R (x * c))) (rint (R (y * c)))) as [L|L]; [|lia]. exfalso.
    assert (key x <= key y); [|qlra]. apply rnd_mono, div_mono; [apply pos | apply (proj1 (qz_le _ _)), L].
  Qed.
  Lemma key_int_nonneg y : 0 <= y -> 0 <= qz (rint (R (y * c))) / c.
  Proof.
    intro H. pose proof pos as P. unfold Qcdiv. apply qmult_nonneg; [|apply Qclt_le_weak, AllocFacts.qinv_pos, P].
    rewrite <- qz_0. apply (proj1 (qz_le _ _)). rewrite <- rint_0. apply rint_mono, rnd_nonneg, qmult_nonneg; [exact H | qlra].
  Qed.
  (** a price whose rounding is larger than another rounded price is larger than that, and conversely,
      for prices that are small compared with the precision of the arithmetic *)
  Definition fine (x : Qc) : Prop := 0 <= x /\ small_price u prec x.
  Lemma fine_half x : fine x -> u * x + u * x + u * x < (1 - u) * half.
  Proof.
    intros [H0 H]. unfold small_price in H. pose proof pos as P.
    apply Qcnot_le_lt. intro L. pose proof (qmult_le_r (c + c) _ _ ltac:(qlra) L) as K.
    replace ((1 - u) * half * (c + c)) with ((1 - u) * (qf 1 2 + qf 1 2)) in K by (field; intro Z; rewrite Z in P; qlra).
    replace (qf 1 2 + qf 1 2) with 1 in K by (apply Qc_is_canon; reflexivity). rewrite Qcmult_1_r in K.
    replace ((u * x + u * x + u * x) * (c + c)) with (qz 6 * u * x * c) in K; [set (v := qz 6 * u * x * c) in *; clearbody v; qlra|].
    replace (qz 6) with (1 + 1 + 1 + 1 + 1 + 1) by (apply Qc_is_canon; reflexivity). ring.
  Qed.
  Theorem key_above x y : 0 <= y -> fine x -> key y < key x -> key y < x.
  Proof.
    pose proof (u_nonneg R u Hrel) as U. pose proof half_pos as Hh. intros Y0 F H. pose proof (fine_half x F) as F1. destruct F as [X0 F]. unfold small_price in F.
    pose proof (key_lt_frac x y H) as L. pose proof (key_int_nonneg y Y0) as N0. pose proof pos as P.
    destruct (rint_near (R (x * c))) as [_ B]. destruct (rnd_near_pos R u Hrel (x * c) ltac:(apply qmult_nonneg; qlra)) as [R1 _].
    destruct (rnd_near_pos R u Hrel _ N0) as [R2 _]. change (R (qz (rint (R (y * c))) / c)) with (key y) in R2.
    set (n := qz (rint (R (y * c)))) in *. set (m := qz (rint (R (x * c)))) in *. set (z := R (x * c)) in *. clearbody n m z.
    assert (D : qf 1 2 + qf 1 2 = 1) by (apply Qc_is_canon; reflexivity).
    assert (Ln : n / c <= x + u * x - half).
    { rewrite <- (c_inv (x + u * x - half)). apply div_mono; [exact P|].
      replace ((x + u * x - half) * c) with (x * c + u * (x * c) - qf 1 2) by (field; intro Z; rewrite Z in P; qlra). qlra. }
    set (f := n / c) in *. clearbody f. pose proof (qmult_le_l _ _ _ U Ln) as K.
    assert (Ub : 0 <= u * x) by (apply qmult_nonneg; assumption).
    assert (U1 : u <= 1). { assert (0 <= qz 6 * u * x * c); [|qlra]. apply qmult_nonneg; [|qlra]. apply qmult_nonneg; [|exact X0].
      apply qmult_nonneg; [apply qleb_le; vm_compute; reflexivity | exact U]. }
    assert (K2 : u * (u * x) <= u * x) by (pose proof (qmult_le_r _ _ _ Ub U1) as Q; rewrite Qcmult_1_l in Q; exact Q).
    replace (u * (x + u * x - half)) with (u * x + u * (u * x) - u * half) in K by ring.
    replace ((1 - u) * half) with (half - u * half) in F1 by ring.
    assert (0 <= u * half) by (apply qmult_nonneg; qlra).
    set (h := half) in *. clearbody h. qlra.
  Qed.
  Theorem key_below x y : 0 <= y -> fine x -> key x < key y -> x < key y.
  Proof.
    pose proof (u_nonneg R u Hrel) as U. pose proof half_pos as Hh. intros Y0 F H. pose proof (fine_half x F) as F1. destruct F as [X0 F]. unfold small_price in F.
    pose proof (key_lt_frac y x H) as L. pose proof (key_int_nonneg y Y0) as N0. pose proof pos as P.
    destruct (rint_near (R (x * c))) as [B _]. destruct (rnd_near_pos R u Hrel (x * c) ltac:(apply qmult_nonneg; qlra)) as [_ R1].
    destruct (rnd_near_pos R u Hrel _ N0) as [_ R2]. change (R (qz (rint (R (y * c))) / c)) with (key y) in R2.
    set (n := qz (rint (R (y * c)))) in *. set (m := qz (rint (R (x * c)))) in *. set (z := R (x * c)) in *. clearbody n m z.
    assert (D : qf 1 2 + qf 1 2 = 1) by (apply Qc_is_canon; reflexivity).
    assert (Ln : x - u * x + half <= n / c).
    { rewrite <- (c_inv (x - u * x + half)). apply div_mono; [exact P|].
      replace ((x - u * x + half) * c) with (x * c - u * (x * c) + qf 1 2) by (field; intro Z; rewrite Z in P; qlra). qlra. }
    set (f := n / c) in *. clearbody f.
    assert (U1 : u <= 1). { assert (0 <= qz 6 * u * x * c); [|qlra]. apply qmult_nonneg; [|qlra]. apply qmult_nonneg; [|exact X0].
      apply qmult_nonneg; [apply qleb_le; vm_compute; reflexivity | exact U]. }
    pose proof (qmult_le_l (1 - u) _ _ ltac:(qlra) Ln) as K.
    assert (Ub : 0 <= u * x) by (apply qmult_nonneg; assumption).
    assert (Uu : 0 <= u * (u * x)) by (apply qmult_nonneg; assumption).
    replace ((1 - u) * (x - u * x + half)) with (x - u * x - u * x + u * (u * x) + (1 - u) * half) in K by ring.
    replace ((1 - u) * f) with (f - u * f) in K by ring.
    set (h := (1 - u) * half) in *. clearbody h. set (uf := u * f) in *. clearbody uf. qlra.
  Qed.
End Key.

(** for prices that are machine numbers, without any condition on their size *)
Section KeyWeak.
  Variables (R : rounding) (prec : Z).
  Hypothesis Hi : rints R.
  Notation c := (pow10 prec).
  Notation key := (np_round_r R prec).
  Lemma weak_lt x y : key y < key x -> Z.lt (rint (R (y * c))) (rint (R (x * c))).
  Proof.
    intro H. destruct (Z.le_gt_cases (rint (R (x * c))) (rint (R (y * c)))) as [L|L]; [|lia]. exfalso.
    assert (key x <= key y); [|qlra]. apply rnd_mono, div_mono; [apply pow10_pos | apply (proj1 (qz_le _ _)), L].
  Qed.
  Lemma weak_int y : 0 <= y -> R (qz (rint (R (y * c)))) = qz (rint (R (y * c))).
  Proof.
    intro H. pose proof (pow10_pos prec). apply Hi; [apply rnd_nonneg, qmult_nonneg; qlra | apply rnd_idem].
  Qed.
  Lemma key_above_weak x y : 0 <= y -> machine R x -> key y < key x -> key y <= x.
  Proof.
    intros Y0 Mx H. apply weak_lt in H. pose proof (weak_int y Y0) as E. pose proof (pow10_pos prec) as P.
    rewrite <- Mx. apply rnd_mono. destruct (Qclt_le_dec (x * c) (qz (rint (R (y * c))))) as [L|L].
    - exfalso. pose proof (rnd_mono R _ _ (Qclt_le_weak _ _ L)) as K. rewrite E in K. apply rint_mono in K. rewrite rint_int in K. lia.
    - apply (div_mono _ _ c P) in L. rewrite c_inv in L. exact L.
  Qed.
  Lemma key_below_weak x y : 0 <= y -> machine R x -> key x < key y -> x <= key y.
  Proof.
    intros Y0 Mx H. apply weak_lt in H. pose proof (weak_int y Y0) as E. pose proof (pow10_pos prec) as P.
    rewrite <- Mx. apply rnd_mono. destruct (Qclt_le_dec (qz (rint (R (y * c)))) (x * c)) as [L|L].
    - exfalso. pose proof (rnd_mono R _ _ (Qclt_le_weak _ _ L)) as K. rewrite E in K. apply rint_mono in K. rewrite rint_int in K. lia.
    - apply (div_mono _ _ c P) in L. rewrite c_inv in L. exact L.
  Qed.
End KeyWeak.

(** ** The run *)
Section Run.
  Variables (R : rounding) (A G : adder R) (S : sorter) (smp : nat -> nat) (cnt : Z) (d : df).
  Hypothesis Hl : map lbl d = seq 0 (length d).
  Hypothesis Hq : qty_pos d.
  Hypothesis Hp : price_nonneg d.
  Hypothesis Hm : machine_qty R d.

  (** merged table [md], clearing [tm0], parts [ls] *)
  Definition parts_of (mb ms : list (row * list nat)) c2 tm0 ex ls : Prop :=
    merge_r R G 5 d (user_max d + 1)%Z mb ms c2 /\
    mech_run0 (huang_auction_r R A S) (map fst (mb ++ ms)) = Ok (tm0, ex) /\
    Forall2 (fun t l => exists rows, nth_error (map snd (mb ++ ms)) (t_bid t) = Some rows /\ Split_r R A d rows t l) (tm_trans tm0) ls.
  Lemma d_unique : labels_unique d.
  Proof. unfold labels_unique. rewrite Hl. apply seq_NoDup. Qed.
  Lemma mdr_lone c0 mb ms c2 : merge_r R G 5 d c0 mb ms c2 -> lone_buyer (map fst (mb ++ ms)) = true <-> lone_price (np_round_r R 5) d.
  Proof.
    intro M. pose proof d_unique as Hu.
    apply lone_iff; [exact (mergr_distinct _ _ _ _ _ _ _ _ M) | exact (mergr_price_round _ _ _ _ _ _ _ _ M)|].
    intros x Hx. pose proof (mergr_partition _ _ _ _ _ _ _ _ M) as P.
    assert (I : In (lbl x) (concat (map snd (mb ++ ms)))) by (apply (Permutation_in _ (Permutation_sym P)), in_map, Hx).
    apply in_concat in I. destruct I as (rows & I1 & I2). apply In_nth_error in I1. destruct I1 as (i & I1).
    assert (Er : exists r, nth_error (map fst (mb ++ ms)) i = Some r).
    { destruct (nth_error (map fst (mb ++ ms)) i) eqn:E; [eauto|]. apply nth_error_None in E.
      assert (i < length (map snd (mb ++ ms)))%nat by (apply nth_error_Some; congruence). rewrite map_length in *. lia. }
    destruct Er as (r & Er). destruct (mergr_nth _ _ _ _ _ _ _ _ M i r rows Er I1) as (_ & _ & _ & ->).
    apply in_map_iff in I2. destruct I2 as (y & Ey & Hy). exists r. split; [eapply nth_error_In; eauto|].
    apply filter_In in Hy. destruct Hy as [Hy1 Hy2]. assert (y = x) by (apply (NoDup_map_in lbl d); auto). subst y.
    apply andb_true_iff in Hy2. destruct Hy2 as [H1 H2]. apply eqb_prop in H1. apply qeqb_eq in H2. auto.
  Qed.
  Lemma run_r_cases : run_huang_r R A G S smp cnt d = Err ValueError \/ lone_price (np_round_r R 5) d /\ run_huang_r R A G S smp cnt d = Err KeyError \/
    exists mb ms c2 tm0 ex ls tm, run_huang_r R A G S smp cnt d = Ok (tm, ex) /\ tm_trans tm = concat ls /\ parts_of mb ms c2 tm0 ex ls.
  Proof.
    unfold run_huang_r. pose proof d_unique as Hu.
    assert (Hq0 : qty_nonneg d) by (intros r Hr; apply Qclt_le_weak, Hq, Hr).
    destruct (merge_r_ok R G 5 smp d cnt) as (mb & ms & c2 & E & M). rewrite E. cbn [bind].
    set (md := map fst (mb ++ ms)). set (mp := map snd (mb ++ ms)).
    pose proof (mergr_qty_nonneg _ _ _ _ _ _ _ _ M Hq0) as Mq. pose proof (mergr_price_nonneg _ _ _ _ _ _ _ _ M Hp) as Mp.
    pose proof (mergr_labels _ _ _ _ _ _ _ _ M) as Mu. pose proof (mergr_machine _ _ _ _ _ _ _ _ M Hm) as Mm.
    pose proof (mergr_distinct _ _ _ _ _ _ _ _ M) as Md. fold md in Mq, Mp, Mu, Mm, Md.
    pose proof (mdr_lone _ _ _ _ M) as Lo. fold md in Lo. unfold merged_run. destruct (lone_buyer md); [right; left; split; [apply Lo|]; reflexivity|].
    assert (T : mech_run0 (huang_auction_r R A S) md = Err ValueError \/ exists tm0 ex, mech_run0 (huang_auction_r R A S) md = Ok (tm0, ex)).
    { unfold mech_run0. destruct (Nat.eqb _ 0 || _); [eauto|]. apply huang_r_total; assumption. }
    destruct T as [T|(tm0 & ex & T)]; rewrite T; cbn [bind]; [left; reflexivity|]. right. right.
    destruct (huang_r_strict R A S md tm0 ex Mq Mp Mm Mu Md T) as (_ & B3 & _).
    unfold split_transactions_r.
    destruct (split_list_r_spec R A d mp (tm_trans tm0) tm_init Hl) as (ls & Es & F).
    { intros t Ht. destruct (B3 t Ht) as (r & Hr & El).
      destruct (mergr_row _ _ _ _ _ _ _ _ M r Hr) as (rows & E1 & E2).
      destruct (mergr_nth _ _ _ _ _ _ _ _ M _ _ _ E2 E1) as (_ & N & Eq & ->).
      exists (map lbl (group_of_r R 5 d r)), (group_of_r R 5 d r).
      split; [rewrite <- El; exact E1|]. split; [reflexivity|].
      split; [intros x Hx; apply filter_In in Hx; tauto|].
      pose proof (group_sum_pos R G d 5 _ _ mb ms M Hq Hm A r Hr) as P. intro Z. rewrite Z in P. qlra. }
    rewrite Es. cbn [bind]. exists mb, ms, c2, tm0, ex, ls. eexists. split; [reflexivity|].
    split; [rewrite add_all_trans; reflexivity|]. split; [exact M|]. split; [exact T | exact F].
  Qed.
  Theorem run_r_total : run_huang_r R A G S smp cnt d = Err ValueError \/ lone_price (np_round_r R 5) d /\ run_huang_r R A G S smp cnt d = Err KeyError \/ exists tm ex, run_huang_r R A G S smp cnt d = Ok (tm, ex).
  Proof. destruct run_r_cases as [E|[E|(mb & ms & c2 & tm0 & ex & ls & tm & E & _)]]; eauto 7. Qed.

  Theorem run_r_safe tm ex : run_huang_r R A G S smp cnt d = Ok (tm, ex) ->
    once (tm_trans tm) /\ refer d (tm_trans tm) /\
    (forall t, In t (tm_trans tm) -> 0 <= t_qty t /\ t_source t = (-1)%Z /\ t_active t = false) /\
    (tm_trans tm = [] \/ exists ps pb q, ex = XHuang ps pb q /\ ps < pb /\
      (exists y z, In y d /\ buying y = false /\ ps = np_round_r R 5 (price y) /\ In z d /\ buying z = true /\ pb = np_round_r R 5 (price z)) /\
      forall t r, In t (tm_trans tm) -> In r d -> lbl r = t_bid t ->
        if buying r then t_price t = pb /\ pb < np_round_r R 5 (price r) else t_price t = ps /\ np_round_r R 5 (price r) < ps).
  Proof.
    intro E0. pose proof d_unique as Hu.
    assert (Hq0 : qty_nonneg d) by (intros r Hr; apply Qclt_le_weak, Hq, Hr).
    destruct run_r_cases as [E|[[_ E]|(mb & ms & c2 & tm0 & ex0 & ls & tm' & E & Et & M & T & F)]]; [congruence|congruence|].
    rewrite E0 in E. injection E as <- <-. rewrite Et.
    pose proof (mergr_qty_nonneg _ _ _ _ _ _ _ _ M Hq0) as Mq. pose proof (mergr_price_nonneg _ _ _ _ _ _ _ _ M Hp) as Mp.
    pose proof (mergr_labels _ _ _ _ _ _ _ _ M) as Mu. pose proof (mergr_machine _ _ _ _ _ _ _ _ M Hm) as Mm.
    pose proof (mergr_distinct _ _ _ _ _ _ _ _ M) as Md.
    destruct (huang_r_strict R A S _ tm0 ex Mq Mp Mm Mu Md T) as (B1 & B2 & B3 & B4 & B5).
    split; [exact (parts_once_r R A G d 5 _ _ mb ms _ ls M Hu B2 F B1)|].
    split; [exact (parts_refer_r R A G d 5 _ _ mb ms _ ls M Hu B2 F)|]. split.
    - intros t' Ht'. destruct (parts_in_r R A G d 5 _ _ mb ms _ ls M Hu B2 F t' Ht') as (t & r & x & Ht & Hr & El & Eq & Hx & ->).
      simpl. destruct (B4 t Ht) as [B4a B4b]. split; [|auto]. apply rnd_nonneg, qmult_nonneg; [apply B3, Ht|]. apply rnd_nonneg.
      pose proof (group_sum_pos R G d 5 _ _ mb ms M Hq Hm A r Hr) as P. unfold Qcdiv.
      apply qmult_nonneg; [apply Hq0; apply filter_In in Hx; tauto | apply Qclt_le_weak, AllocFacts.qinv_pos, P].
    - destruct B5 as [Z|(ps & pb & q & rs & rb & -> & Lp & Irs & Brs & -> & Irb & Brb & -> & Pr)].
      + left. rewrite Z in F. inversion F. reflexivity.
      + destruct (concat ls) as [|t1 tl1] eqn:Ec; [left; reflexivity|]. right. rewrite <- Ec in *.
        destruct (mergr_price_round _ _ _ _ _ _ _ _ M rs Irs) as (zs & Hzs & Bzs & Es').
        destruct (mergr_price_round _ _ _ _ _ _ _ _ M rb Irb) as (zb & Hzb & Bzb & Eb').
        exists (price rs), (price rb), q. split; [reflexivity|]. split; [exact Lp|].
        split; [exists zs, zb; rewrite Bzs, Bzb; auto 10|].
        intros t' y Ht' Hy Ely. destruct (parts_in_r R A G d 5 _ _ mb ms _ ls M Hu B2 F t' Ht') as (t & r & x & Ht & Hr & El & _ & Hx & ->).
        simpl in *. destruct (group_in R d 5 r x Hx) as (Hx1 & Hx2 & Hx3).
        assert (y = x) by (apply (NoDup_map_in lbl d); auto). subst y.
        specialize (Pr t r Ht Hr El). rewrite Hx2, Hx3. exact Pr.
  Qed.

  (** *** Prices *)
  Theorem run_r_rational_weak tm ex : rints R -> machine_price R d -> run_huang_r R A G S smp cnt d = Ok (tm, ex) ->
    forall t r, In t (tm_trans tm) -> In r d -> lbl r = t_bid t ->
      if buying r then t_price t <= price r else price r <= t_price t.
  Proof.
    intros Hi Hmp E t r Ht Hr El. destruct (run_r_safe tm ex E) as (_ & _ & _ & [Z|(ps & pb & q & _ & _ & (y & z & Hy & _ & -> & Hz & _ & ->) & Pr)]).
    - rewrite Z in Ht. contradiction.
    - specialize (Pr t r Ht Hr El). destruct (buying r); destruct Pr as [-> L].
      + apply (key_above_weak R 5 Hi); [apply Hp, Hz | apply Hmp, Hr | exact L].
      + apply (key_below_weak R 5 Hi); [apply Hp, Hy | apply Hmp, Hr | exact L].
  Qed.
  Variable u : Qc.
  Hypothesis Hrel : rel_error R u.
  Notation B n := ((1 + u) ^ n).
  Theorem run_r_rational tm ex : run_huang_r R A G S smp cnt d = Ok (tm, ex) ->
    forall t r, In t (tm_trans tm) -> In r d -> lbl r = t_bid t -> small_price u 5 (price r) ->
      if buying r then t_price t < price r else price r < t_price t.
  Proof.
    intros E t r Ht Hr El Sm. destruct (run_r_safe tm ex E) as (_ & _ & _ & [Z|(ps & pb & q & _ & _ & (y & z & Hy & _ & -> & Hz & _ & ->) & Pr)]).
    - rewrite Z in Ht. contradiction.
    - specialize (Pr t r Ht Hr El). assert (F : fine u 5 (price r)) by (split; [apply Hp, Hr | exact Sm]).
      destruct (buying r); destruct Pr as [-> L].
      + apply (key_above R u 5 Hrel); [apply Hp, Hz | exact F | exact L].
      + apply (key_below R u 5 Hrel); [apply Hp, Hy | exact F | exact L].
  Qed.

  (** *** Quantities *)
  Lemma sums_single l s : sums_to R l s -> forall x, Permutation l [x] -> machine R x -> s = x.
  Proof.
    induction 1 as [|x|l1 l2 a b S1 IH1 S2 IH2|l l' s P _ IH]; intros z Pz Mz.
    - apply Permutation_nil in Pz. discriminate.
    - apply Permutation_length_1 in Pz. congruence.
    - pose proof (Permutation_length Pz) as Ln. rewrite app_length in Ln. simpl in Ln.
      destruct l1 as [|y1 l1].
      + assert (a = 0) by (apply (sums_zero R _ _ S1); intros ? []). subst a.
        simpl in Pz. rewrite (IH2 z Pz Mz). replace (0 + z) with z by ring. exact Mz.
      + destruct l2 as [|y2 l2]; [|simpl in Ln; lia].
        assert (b = 0) by (apply (sums_zero R _ _ S2); intros ? []). subst b.
        rewrite app_nil_r in Pz. rewrite (IH1 z Pz Mz). replace (z + 0) with z by ring. exact Mz.
    - apply IH; [|exact Mz]. etransitivity; eassumption.
  Qed.
  Lemma asum_single (X : adder R) x : machine R x -> X [x] = x.
  Proof. intro H. exact (sums_single _ _ (asum_ok R X [x]) x (Permutation_refl _) H). Qed.

  Lemma run_r_share tm ex t x : run_huang_r R A G S smp cnt d = Ok (tm, ex) -> In t (tm_trans tm) -> In x d -> lbl x = t_bid t ->
    let qs := map qty (peers R 5 d x) in In x (peers R 5 d x) /\ 0 < A qs /\
    exists tq, 0 <= tq /\ tq <= G qs /\ t_qty t = R (tq * R (qty x / A qs)).
  Proof.
    intros E0 Ht' Hx El'. pose proof d_unique as Hu. intro qs.
    assert (Hq0 : qty_nonneg d) by (intros r Hr; apply Qclt_le_weak, Hq, Hr).
    destruct run_r_cases as [E|[[_ E]|(mb & ms & c2 & tm0 & ex0 & ls & tm' & E & Et & M & T & F)]]; [congruence|congruence|].
    rewrite E0 in E. injection E as <- <-. rewrite Et in Ht'.
    pose proof (mergr_qty_nonneg _ _ _ _ _ _ _ _ M Hq0) as Mq. pose proof (mergr_price_nonneg _ _ _ _ _ _ _ _ M Hp) as Mp.
    pose proof (mergr_labels _ _ _ _ _ _ _ _ M) as Mu. pose proof (mergr_machine _ _ _ _ _ _ _ _ M Hm) as Mm.
    pose proof (mergr_distinct _ _ _ _ _ _ _ _ M) as Md.
    destruct (huang_r_strict R A S _ tm0 ex Mq Mp Mm Mu Md T) as (B1 & B2 & [B3 B3'] & _ & _).
    destruct (parts_in_r R A G d 5 _ _ mb ms _ ls M Hu B2 F t Ht') as (t0 & r & x' & Ht & Hr & El & Eq & Hx' & ->).
    destruct (group_in R d 5 r x' Hx') as (Hx1 & Hx2 & Hx3). simpl in El'.
    assert (x' = x) by (apply (NoDup_map_in lbl d); auto). subst x'.
    assert (Eg : peers R 5 d x = group_of_r R 5 d r) by (apply peers_group; assumption).
    unfold qs. rewrite Eg. split; [exact Hx'|]. split; [exact (group_sum_pos R G d 5 _ _ mb ms M Hq Hm A r Hr)|].
    exists (t_qty t0). split; [apply B3, Ht|]. split; [|reflexivity].
    specialize (B3' r Hr). rewrite El, traded_by_once in B3' by assumption. congruence.
  Qed.
  Theorem run_r_quantity tm ex t x : run_huang_r R A G S smp cnt d = Ok (tm, ex) -> In t (tm_trans tm) -> In x d -> lbl x = t_bid t ->
    let k := length (peers R 5 d x) in
    t_qty t * (1 + 1 - B (k - 1)) <= qty x * B (k + 1) /\
    (A (map qty (peers R 5 d x)) = G (map qty (peers R 5 d x)) -> t_qty t <= qty x * B 2) /\
    (k = 1%nat -> machine R 1 -> t_qty t <= qty x).
  Proof.
    pose proof (u_nonneg R u Hrel) as U. intros E Ht Hx El k.
    destruct (run_r_share tm ex t x E Ht Hx El) as (Ix & T0 & tq & Q0 & Q1 & Eq).
    pose proof (Hq x Hx) as Xp. pose proof (Hm x Hx) as Xm.
    assert (Pm : forall z, In z (map qty (peers R 5 d x)) -> 0 <= z /\ machine R z).
    { intros z Hz. apply in_map_iff in Hz. destruct Hz as (y & <- & Hy). apply filter_In in Hy. split; [apply Qclt_le_weak, Hq | apply Hm]; tauto. }
    pose proof (share_le R u Hrel (qty x) (A (map qty (peers R 5 d x))) tq ltac:(qlra) T0 Q0) as Sl. rewrite <- Eq in Sl.
    assert (t0 : 0 <= t_qty t) by (apply (run_r_safe tm ex E), Ht).
    pose proof (B_ge1 R u Hrel 2) as B2.
    split; [|split].
    - pose proof (sums_err R u Hrel _ _ (asum_ok R A (map qty (peers R 5 d x))) Pm) as [_ N1].
      pose proof (sums_err R u Hrel _ _ (asum_ok R G (map qty (peers R 5 d x))) Pm) as [N2 _].
      rewrite map_length in N1, N2. fold k in N1, N2.
      assert (Xs : qty x <= qsum (map qty (peers R 5 d x))).
      { apply (qsumf_in_le qty); [|exact Ix]. intros y Hy. apply Pm. apply in_map, Hy. }
      set (Q := qsum (map qty (peers R 5 d x))) in *. set (T := asum R A (map qty (peers R 5 d x))) in *.
      set (Gs := asum R G (map qty (peers R 5 d x))) in *. clearbody Q T Gs.
      assert (Ek : B (k + 1) = B (k - 1) * B 2).
      { assert (K1 : (1 <= k)%nat) by (unfold k; destruct (peers R 5 d x); [contradiction | simpl; lia]).
        replace (k + 1)%nat with (Datatypes.S (Datatypes.S (k - 1))) by lia. rewrite !B_S. change (B 0) with 1. ring. }
      rewrite Ek. pose proof (B_ge1 R u Hrel (k - 1)) as Bk. set (b := B (k - 1)) in *. clearbody b. set (b2 := B 2) in *. clearbody b2.
      destruct (Qclt_le_dec (1 + 1) b) as [Lb|Lb].
      + assert (0 <= qty x * (b * b2)) by (apply qmult_nonneg; [qlra | apply qmult_nonneg; qlra]).
        assert (0 <= t_qty t * (b - (1 + 1))) by (apply qmult_nonneg; [exact t0 | qlra]).
        replace (t_qty t * (1 + 1 - b)) with (- (t_qty t * (b - (1 + 1)))) by ring. qlra.
      + assert (K1 : t_qty t * (Q * (1 + 1 - b)) <= t_qty t * T).
        { apply qmult_le_l; [exact t0|]. replace (Q * (1 + 1 - b)) with (Q - (b - 1) * Q) by ring. qlra. }
        assert (K2 : tq * qty x * b2 <= Q * b * (qty x * b2)).
        { replace (tq * qty x * b2) with (tq * (qty x * b2)) by ring. apply qmult_le_r; [apply qmult_nonneg; qlra|].
          replace (Q * b) with (Q + (b - 1) * Q) by ring. qlra. }
        apply (Qcmult_lt_0_le_reg_r _ _ Q ltac:(qlra)).
        replace (t_qty t * (1 + 1 - b) * Q) with (t_qty t * (Q * (1 + 1 - b))) by ring.
        replace (qty x * (b * b2) * Q) with (Q * b * (qty x * b2)) by ring. qlra.
    - intro EA. rewrite <- EA in Q1. set (T := asum R A (map qty (peers R 5 d x))) in *. clearbody T.
      apply (Qcmult_lt_0_le_reg_r _ _ T T0).
      assert (tq * (qty x * B 2) <= T * (qty x * B 2)) by (apply qmult_le_r; [apply qmult_nonneg; qlra | exact Q1]).
      replace (tq * (qty x * B 2)) with (tq * qty x * B 2) in H by ring. replace (T * (qty x * B 2)) with (qty x * B 2 * T) in H by ring. qlra.
    - intros K1 M1.
      assert (Ep : peers R 5 d x = [x]).
      { unfold k in K1. destruct (peers R 5 d x) as [|y [|z l]]; try discriminate. destruct Ix as [->|[]]. reflexivity. }
      rewrite Ep in *. cbn [map] in *. rewrite (asum_single A (qty x) Xm) in Eq. rewrite (asum_single G (qty x) Xm) in Q1.
      assert (E1 : qty x / qty x = 1) by (field; intro Z; rewrite Z in Xp; qlra).
      rewrite E1, M1, Qcmult_1_r in Eq. rewrite Eq. apply rnd_le; assumption.
  Qed.

  (** *** Balance *)
  Notation n := (length d).
  Lemma group_length r : (length (group_of_r R 5 d r) <= n)%nat.
  Proof. apply filter_le. Qed.
  Lemma group_err r (X : adder R) : X (map qty (group_of_r R 5 d r)) <= B n * qsumf qty (group_of_r R 5 d r).
  Proof.
    destruct (sums_err R u Hrel _ _ (asum_ok R X (map qty (group_of_r R 5 d r))) (group_qty R d 5 Hq Hm r)) as [N _].
    rewrite map_length in N. change (qsum (map qty (group_of_r R 5 d r))) with (qsumf qty (group_of_r R 5 d r)) in N.
    pose proof (group_length r) as L. set (k := length (group_of_r R 5 d r)) in *.
    assert (Q0 : 0 <= qsumf qty (group_of_r R 5 d r)).
    { apply qsumf_nonneg. intros x Hx. apply filter_In in Hx. apply Qclt_le_weak, Hq; tauto. }
    pose proof (qmult_le_r _ _ _ Q0 (B_mono R u Hrel (k - 1) n ltac:(lia))) as K.
    set (Q := qsumf qty (group_of_r R 5 d r)) in *. clearbody Q.
    replace (B n * Q) with (Q + (B n * Q - Q)) by ring. replace ((B (k - 1) - 1) * Q) with (B (k - 1) * Q - Q) in N by ring.
    set (v := B (k - 1) * Q) in *. clearbody v. set (w := B n * Q) in *. clearbody w. qlra.
  Qed.
  (** the merged table is not larger than the table, in number of rows nor, up to rounding, in quantity *)
  Lemma merged_size mb ms c2 : merge_r R G 5 d (user_max d + 1)%Z mb ms c2 ->
    (length (map fst (mb ++ ms)) <= n)%nat /\ qsumf qty (map fst (mb ++ ms)) <= B n * qsumf qty d.
  Proof.
    intro M. pose proof d_unique as Hu. set (md := map fst (mb ++ ms)).
    assert (Gp : forall l, (forall r, In r l -> In r md) -> NoDup (map lbl l) ->
      (length l <= length (flat_map (group_of_r R 5 d) l))%nat /\
      qsumf qty l <= B n * qsumf qty (flat_map (group_of_r R 5 d) l)).
    { induction l as [|r l IH]; intros Hin Hn; [split; [simpl; lia|]; rewrite !qsumf_nil, Qcmult_0_r; qlra|].
      inversion_clear Hn as [|? ? N1 N2]. destruct IH as [I1 I2]; [intros; apply Hin; right; assumption | exact N2|].
      assert (Hr : In r md) by (apply Hin; left; reflexivity).
      destruct (mergr_row _ _ _ _ _ _ _ _ M r Hr) as (rows & E1 & E2).
      destruct (mergr_nth _ _ _ _ _ _ _ _ M _ _ _ E2 E1) as (_ & N & Eq & _).
      cbn [flat_map]. rewrite app_length, qsumf_cons, qsumf_app. split.
      - destruct (group_of_r R 5 d r); [congruence | simpl; lia].
      - pose proof (group_err r G) as K. rewrite <- Eq in K.
        replace (B n * (qsumf qty (group_of_r R 5 d r) + qsumf qty (flat_map (group_of_r R 5 d) l)))
          with (B n * qsumf qty (group_of_r R 5 d r) + B n * qsumf qty (flat_map (group_of_r R 5 d) l)) by ring.
        set (v := B n * qsumf qty (group_of_r R 5 d r)) in *. clearbody v. set (w := B n * qsumf qty (flat_map (group_of_r R 5 d) l)) in *. clearbody w. qlra. }
    destruct (Gp md (fun r H => H) (mergr_labels _ _ _ _ _ _ _ _ M)) as [L1 L2].
    assert (Np : NoDup (flat_map (group_of_r R 5 d) md)).
    { assert (Q : forall l, (forall r, In r l -> In r md) -> NoDup l -> NoDup (flat_map (group_of_r R 5 d) l)).
      { induction l as [|r l IH]; intros Hin Hn; [constructor|]. inversion_clear Hn as [|? ? N1 N2]. cbn [flat_map]. apply NoDup_app.
        - apply NoDup_filter. apply (NoDup_map_inv lbl). exact Hu.
        - apply IH; [intros; apply Hin; right; assumption | exact N2].
        - intros x H1 H2. apply in_flat_map in H2. destruct H2 as (r2 & H2 & H3).
          assert (r = r2) by (apply (group_disjoint_r R G d 5 _ _ mb ms M r r2 x); auto; apply Hin; [left; reflexivity | right; assumption]).
          subst r2. contradiction. }
      apply Q; [auto|]. apply (NoDup_map_inv lbl). exact (mergr_labels _ _ _ _ _ _ _ _ M). }
    assert (Ni : incl (flat_map (group_of_r R 5 d) md) d).
    { intros x Hx. apply in_flat_map in Hx. destruct Hx as (r & _ & Hx). apply filter_In in Hx. tauto. }
    split; [pose proof (NoDup_incl_length Np Ni); lia|].
    assert (L3 : qsumf qty (flat_map (group_of_r R 5 d) md) <= qsumf qty d).
    { apply qsumf_incl; auto. intros x Hx. apply Qclt_le_weak, Hq, Hx. }
    pose proof (B_ge1 R u Hrel n) as Bg. pose proof (qmult_le_l (B n) _ _ ltac:(qlra) L3) as K.
    set (v := B n * qsumf qty (flat_map (group_of_r R 5 d) md)) in *. clearbody v. set (w := B n * qsumf qty d) in *. clearbody w. qlra.
  Qed.

  Hypothesis Hsmall : B n <= qf 3 2.
  Notation K := (qnat (3 * n + 5) * u).
  Lemma K_nonneg : 0 <= K.
  Proof. apply qmult_nonneg; [pose proof (qnat_pos (3 * n + 5) ltac:(lia)); qlra | apply (u_nonneg R u Hrel)]. Qed.
  Lemma split_near mb ms c2 tm0 ex ls s : parts_of mb ms c2 tm0 ex ls -> refer (map fst (mb ++ ms)) (tm_trans tm0) ->
    (forall t, In t (tm_trans tm0) -> 0 <= t_qty t) ->
    near (qsumf t_qty (filter (on_side s d) (concat ls))) (qsumf t_qty (filter (on_side s (map fst (mb ++ ms))) (tm_trans tm0)))
      (K * qsumf t_qty (filter (on_side s (map fst (mb ++ ms))) (tm_trans tm0))).
  Proof.
    intros (M & T & F) B2 B3. pose proof d_unique as Hu. pose proof K_nonneg as K0. pose proof (u_nonneg R u Hrel) as U.
    set (md := map fst (mb ++ ms)) in *.
    assert (P : forall t l, In t (tm_trans tm0) -> (exists rows, nth_error (map snd (mb ++ ms)) (t_bid t) = Some rows /\ Split_r R A d rows t l) ->
      near (qsumf t_qty (filter (on_side s d) l)) (if on_side s md t then t_qty t else 0) (K * (if on_side s md t then t_qty t else 0))).
    { intros t l Ht P. destruct (part_r R A G d 5 _ _ mb ms _ M Hu B2 t l Ht P) as (r & Hr & El & _ & ->).
      rewrite (on_side_in s md t r (mergr_labels _ _ _ _ _ _ _ _ M) Hr El).
      assert (On : forall t', In t' (map (share R A d 5 t r) (group_of_r R 5 d r)) -> on_side s d t' = Bool.eqb (buying r) s).
      { intros t' Ht'. apply in_map_iff in Ht'. destruct Ht' as (x & <- & Hx). destruct (group_in R d 5 r x Hx) as (Hx1 & Hx2 & _).
        rewrite (fun t => on_side_in s d t x Hu Hx1) by reflexivity. congruence. }
      destruct (Bool.eqb (buying r) s).
      - rewrite filter_all by exact On. rewrite qsumf_map. cbn [share t_qty].
        destruct (mergr_row _ _ _ _ _ _ _ _ M r Hr) as (rows & E1 & E2).
        destruct (mergr_nth _ _ _ _ _ _ _ _ M _ _ _ E2 E1) as (_ & N & _ & _).
        pose proof (group_length r) as L.
        assert (Bs : B (length (group_of_r R 5 d r)) <= qf 3 2) by (pose proof (B_mono R u Hrel _ _ L); qlra).
        pose proof (shares_near R u Hrel A (group_of_r R 5 d r) (t_qty t) N) as Nr.
        apply (near_weaken _ _ (qnat (3 * length (group_of_r R 5 d r) + 5) * u * t_qty t)).
        + apply Nr; [|apply B3, Ht | exact Bs]. intros x Hx. apply filter_In in Hx. split; [apply Hq | apply Hm]; tauto.
        + apply qmult_le_r; [apply B3, Ht|]. apply qmult_le_r; [exact U|]. unfold qnat. apply (proj1 (qz_le _ _)). lia.
      - rewrite filter_none by exact On. rewrite qsumf_nil, Qcmult_0_r. split; qlra. }
    clear T B2. induction F as [|t l tl' ls' Htl F IH]; [simpl; rewrite qsumf_nil, Qcmult_0_r; split; qlra|].
    cbn [concat]. rewrite filter_app, qsumf_app.
    assert (E : qsumf t_qty (filter (on_side s md) (t :: tl')) = (if on_side s md t then t_qty t else 0) + qsumf t_qty (filter (on_side s md) tl')).
    { cbn [filter]. destruct (on_side s md t); [rewrite qsumf_cons; reflexivity | ring]. }
    rewrite E, Qcmult_plus_distr_r. apply near_plus; [apply P; [left; reflexivity | exact Htl]|].
    apply IH; intros; [apply B3 | apply P; auto]; right; assumption.
  Qed.
  Theorem run_r_balance tm ex : run_huang_r R A G S smp cnt d = Ok (tm, ex) ->
    qabs (bought d (tm_trans tm) - sold d (tm_trans tm)) <= qnat (9 * n + 12) * u * qsumf qty d.
  Proof.
    intro E0. pose proof d_unique as Hu. pose proof (u_nonneg R u Hrel) as U. pose proof K_nonneg as K0.
    assert (Hq0 : qty_nonneg d) by (intros r Hr; apply Qclt_le_weak, Hq, Hr).
    assert (W0 : 0 <= qsumf qty d) by (apply qsumf_nonneg; exact Hq0).
    destruct run_r_cases as [E|[[_ E]|(mb & ms & c2 & tm0 & ex0 & ls & tm' & E & Et & P)]]; [congruence|congruence|].
    rewrite E0 in E. injection E as <- <-. rewrite Et. pose proof P as (M & T & F).
    pose proof (mergr_qty_nonneg _ _ _ _ _ _ _ _ M Hq0) as Mq. pose proof (mergr_price_nonneg _ _ _ _ _ _ _ _ M Hp) as Mp.
    pose proof (mergr_labels _ _ _ _ _ _ _ _ M) as Mu. pose proof (mergr_machine _ _ _ _ _ _ _ _ M Hm) as Mm.
    pose proof (mergr_distinct _ _ _ _ _ _ _ _ M) as Md.
    destruct (huang_r_strict R A S _ tm0 ex Mq Mp Mm Mu Md T) as (B1 & B2 & [B3 B3'] & _ & _).
    destruct (merged_size mb ms c2 M) as [Ln LW]. set (md := map fst (mb ++ ms)) in *. set (m := length md) in *.
    assert (W0' : 0 <= qsumf qty md) by (apply qsumf_nonneg; exact Mq).
    pose proof (split_near mb ms c2 tm0 ex ls true P B2 B3) as Nb. pose proof (split_near mb ms c2 tm0 ex ls false P B2 B3) as Ns.
    fold md in Nb, Ns. change (qsumf t_qty (filter (on_side true ?x) ?y)) with (bought x y) in Nb.
    change (qsumf t_qty (filter (on_side false ?x) ?y)) with (sold x y) in Ns.
    (* the merged table *)
    assert (Bal : qabs (bought md (tm_trans tm0) - sold md (tm_trans tm0)) <= qnat (2 * m + 2) * (u * B m) * qsumf qty md).
    { revert T. unfold mech_run0. destruct (Nat.eqb _ 0 || _).
      - intro T. injection T as <- <-. apply near_abs. change (near 0 0 (qnat (2 * m + 2) * (u * B m) * qsumf qty md)). apply near_self.
        apply qmult_nonneg; [|exact W0']. apply qmult_nonneg; [pose proof (qnat_pos (2 * m + 2) ltac:(lia)); qlra|].
        apply qmult_nonneg; [exact U | pose proof (B_ge1 R u Hrel m); qlra].
      - intro T. exact (huang_r_balance R u Hrel A S md Mq Mp Mm Mu tm0 ex T). }
    (* what is traded in it *)
    assert (Tr : bought md (tm_trans tm0) + sold md (tm_trans tm0) <= qsumf qty md).
    { rewrite (bought_by md (tm_trans tm0) Mu B2), (sold_by md (tm_trans tm0) Mu B2).
      pose proof (qsumf_sides md) as X.
      rewrite X.
      assert (qsumf (fun x => traded_by (lbl x) (tm_trans tm0)) (all_b md) <= qsumf qty (all_b md)) by (apply qsumf_le; intros x Hx; apply filter_In in Hx; apply B3'; tauto).
      assert (qsumf (fun x => traded_by (lbl x) (tm_trans tm0)) (all_s md) <= qsumf qty (all_s md)) by (apply qsumf_le; intros x Hx; apply filter_In in Hx; apply B3'; tauto).
      qlra. }
    set (W := qsumf qty d) in *. set (W' := qsumf qty md) in *. set (b := bought md (tm_trans tm0)) in *. set (so := sold md (tm_trans tm0)) in *.
    assert (LW' : W' <= qf 3 2 * W) by (pose proof (qmult_le_r _ _ _ W0 Hsmall); qlra).
    assert (Bm : B m <= qf 3 2) by (pose proof (B_mono R u Hrel m n Ln); qlra).
    assert (E1 : K * b + K * so <= K * (qf 3 2 * W)).
    { rewrite <- Qcmult_plus_distr_r. apply qmult_le_l; [exact K0 | qlra]. }
    assert (E2 : qnat (2 * m + 2) * (u * B m) * W' <= qnat (2 * n + 2) * (u * qf 3 2) * (qf 3 2 * W)).
    { assert (Q1 : 0 <= u * B m) by (apply qmult_nonneg; [exact U | pose proof (B_ge1 R u Hrel m); qlra]).
      assert (Q2 : qnat (2 * m + 2) <= qnat (2 * n + 2)) by (unfold qnat; apply (proj1 (qz_le _ _)); lia).
      assert (Q3 : 0 <= qnat (2 * n + 2)) by (pose proof (qnat_pos (2 * n + 2) ltac:(lia)); qlra).
      pose proof (qmult_le_r _ _ _ Q1 Q2) as X1. pose proof (qmult_le_l _ _ _ Q3 (qmult_le_l _ _ _ U Bm)) as X2.
      assert (X3 : qnat (2 * m + 2) * (u * B m) * W' <= qnat (2 * n + 2) * (u * qf 3 2) * W') by (apply qmult_le_r; [exact W0' | qlra]).
      assert (X4 : qnat (2 * n + 2) * (u * qf 3 2) * W' <= qnat (2 * n + 2) * (u * qf 3 2) * (qf 3 2 * W)).
      { apply qmult_le_l; [|exact LW']. apply qmult_nonneg; [exact Q3 | apply qmult_nonneg; [exact U | apply qleb_le; vm_compute; reflexivity]]. }
      qlra. }
    assert (E3 : K * (qf 3 2 * W) + qnat (2 * n + 2) * (u * qf 3 2) * (qf 3 2 * W) = qnat (9 * n + 12) * u * W).
    { unfold qnat. rewrite !Nat2Z.inj_add, !Nat2Z.inj_mul, !qz_plus, !qz_mult. set (z := qz (Z.of_nat n)).
      change (Z.of_nat 2) with 2%Z. change (Z.of_nat 3) with 3%Z. change (Z.of_nat 5) with 5%Z. change (Z.of_nat 9) with 9%Z. change (Z.of_nat 12) with 12%Z.
      transitivity ((qz 3 * qf 3 2 + qz 2 * qf 3 2 * qf 3 2) * z * u * W + (qz 5 * qf 3 2 + qz 2 * qf 3 2 * qf 3 2) * u * W); [ring|].
      replace (qz 3 * qf 3 2 + qz 2 * qf 3 2 * qf 3 2) with (qz 9) by (apply Qc_is_canon; reflexivity).
      replace (qz 5 * qf 3 2 + qz 2 * qf 3 2 * qf 3 2) with (qz 12) by (apply Qc_is_canon; reflexivity). ring. }
    rewrite <- E3. apply near_abs. destruct Nb as [Nb1 Nb2], Ns as [Ns1 Ns2].
    assert (Nm : near b so (qnat (2 * m + 2) * (u * B m) * W')).
    { unfold qabs in Bal. destruct (qle_spec 0 (b - so)); split; qlra. }
    destruct Nm as [Nm1 Nm2].
    set (e1 := K * b) in *. set (e2 := K * so) in *. set (e3 := qnat (2 * m + 2) * (u * B m) * W') in *.
    set (e4 := K * (qf 3 2 * W)) in *. set (e5 := qnat (2 * n + 2) * (u * qf 3 2) * (qf 3 2 * W)) in *.
    clearbody e1 e2 e3 e4 e5. split; qlra.
  Qed.
End Run.
