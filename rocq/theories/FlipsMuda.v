(** MUDA on average over its random split. *)
From Verif Require Import QcTac Num ModelBase ModelCurves ModelHuang ModelMuda Spec SpecTrade SpecMuda SpecFee SpecOrder ListFacts MergeFacts AllocFacts StoreFacts TradeFacts Sorter
  MudaHalf MudaOutcome MudaFacts MudaTop MudaErrors MudaIndex MudaPrice MudaWitness MudaOrder SpecChance SpecFlips FlipsFacts FlipsSplit.

(** ** The halves change places *)
Lemma pick_negb ls : NoDup ls -> forall fl, length fl = length ls -> pick_left ls (map negb fl) = filter (fun i => negb (existsb (Nat.eqb i) (pick_left ls fl))) ls.
Proof.
  induction 1 as [|i ls Ni N IH]; intros [|b fl] L; try discriminate; [reflexivity|]. cbn [length] in L. injection L as L.
  cbn [map pick_left filter]. destruct b; cbn [negb].
  - cbn [existsb]. rewrite Nat.eqb_refl. cbn [orb negb]. rewrite IH by exact L. apply filter_ext_in. intros j Ij.
    destruct (Nat.eqb_spec j i) as [->|_]; [contradiction | reflexivity].
  - assert (E : existsb (Nat.eqb i) (pick_left ls fl) = false).
    { apply not_true_iff_false. intro E. apply mem_In in E. apply pick_left_sub in E. contradiction. }
    rewrite E. cbn [negb]. rewrite IH by exact L. reflexivity.
Qed.
Lemma left_negb d fl : labels_unique d -> length fl = length d -> left_of d (map negb fl) = right_of d fl.
Proof. intros Hu L. apply pick_negb; [exact Hu | rewrite map_length; exact L]. Qed.
Lemma negb_negb (fl : list bool) : map negb (map negb fl) = fl.
Proof. rewrite map_map. rewrite <- (map_id fl) at 2. apply map_ext. apply negb_involutive. Qed.
Lemma right_negb d fl : labels_unique d -> length fl = length d -> right_of d (map negb fl) = left_of d fl.
Proof. intros Hu L. rewrite <- left_negb; [|exact Hu | rewrite map_length; exact L]. rewrite negb_negb. reflexivity. Qed.

(** the fees so far do not matter for the trades *)
Lemma solve_free S h p f g : qty_nonneg h -> labels_unique h -> length g = length f ->
  match solve_market_side S h p f, solve_market_side S h p g with
  | Ok (tm, f'), Ok (tm', g') => tm_trans tm' = tm_trans tm /\ length f' = length f /\ length g' = length f
  | Err e, Err e' => e = IndexError /\ e' = IndexError
  | _, _ => False
  end.
Proof.
  intros Hq Hu L. destruct (half_index S h p Hq Hu) as (tl & H). destruct (H f) as [F1 F2]. destruct (H g) as [G1 G2]. rewrite L in G1, G2.
  assert (D : (forall u, charged h p tl u -> valid_index (length f) u) \/ solve_market_side S h p f = Err IndexError /\ solve_market_side S h p g = Err IndexError).
  { destruct (solve_market_side S h p f) as [x|e] eqn:E.
    - left. intros u C. destruct (Z_le_gt_dec (- Z.of_nat (length f)) u) as [A|A]; [destruct (Z_lt_ge_dec u (Z.of_nat (length f))) as [B|B]; [split; assumption|]|];
      exfalso; assert (X : ~ valid_index (length f) u) by (unfold valid_index; lia); discriminate (F2 u C X).
    - destruct (solve_market_side S h p g) as [x'|e'] eqn:E'.
      + left. intros u C. destruct (Z_le_gt_dec (- Z.of_nat (length f)) u) as [A|A]; [destruct (Z_lt_ge_dec u (Z.of_nat (length f))) as [B|B]; [split; assumption|]|];
        exfalso; assert (X : ~ valid_index (length f) u) by (unfold valid_index; lia); discriminate (G2 u C X).
      + right. destruct p as [q| | |]; try (rewrite half_infinite in E by discriminate; discriminate). rewrite (half_err _ _ _ _ _ Hq E), (half_err _ _ _ _ _ Hq E'). auto. }
  destruct D as [V|[-> ->]]; [|auto]. destruct (F1 V) as (tm & f' & -> & E1 & E2). destruct (G1 V) as (tm' & g' & -> & E3 & E4). split; [congruence|]. split; congruence.
Qed.
Lemma price_ok S d : qty_nonneg d -> price_nonneg d -> exists p, find_competitive_price S d = Ok p.
Proof. intros Hq Hp. destruct (price_or_infinite S d Hq Hp) as [E|[p E]]; eauto. Qed.
Lemma half_price ls d : price_nonneg d -> price_nonneg (rows_in ls d).
Proof. intros H r Hr. apply H. apply rows_in_In in Hr. apply Hr. Qed.

Theorem muda_swap S d fl : qty_nonneg d -> price_nonneg d -> labels_unique d -> length fl = length d ->
  halves_swapped (muda S d fl) (muda S d (map negb fl)).
Proof.
  intros Hq Hp Hu L. rewrite !muda_eq by exact Hu. unfold check_equal_price. destruct (_ || _); [reflexivity|]. unfold muda_body.
  rewrite left_negb, right_negb by assumption.
  destruct (price_ok S (rows_in (left_of d fl) d) (half_qty _ _ Hq) (half_price _ _ Hp)) as [pl ->].
  destruct (price_ok S (rows_in (right_of d fl) d) (half_qty _ _ Hq) (half_price _ _ Hp)) as [pr ->]. cbn [bind].
  pose proof (fun g => solve_free S (rows_in (left_of d fl) d) pr (zero_fees d) g (half_qty _ _ Hq) (rows_in_unique _ _ Hu)) as A.
  pose proof (fun g => solve_free S (rows_in (right_of d fl) d) pl (zero_fees d) g (half_qty _ _ Hq) (rows_in_unique _ _ Hu)) as B.
  destruct (solve_market_side S (rows_in (left_of d fl) d) pr (zero_fees d)) as [[tl f1]|e1] eqn:E1;
  destruct (solve_market_side S (rows_in (right_of d fl) d) pl (zero_fees d)) as [[tr g1]|e2] eqn:E2; cbn [bind].
  - specialize (A (zero_fees d) eq_refl) as A0. rewrite E1 in A0. destruct A0 as (_ & L1 & _).
    specialize (B (zero_fees d) eq_refl) as B0. rewrite E2 in B0. destruct B0 as (_ & L2 & _).
    specialize (B f1 L1). specialize (A g1 L2).
    destruct (solve_market_side S (rows_in (right_of d fl) d) pl f1) as [[tr' f2]|]; [|contradiction].
    destruct (solve_market_side S (rows_in (left_of d fl) d) pr g1) as [[tl' g2]|]; [|contradiction]. cbn [bind halves_swapped].
    destruct A as (A & _), B as (B & _). rewrite !tm_merge_trans, A, B. split; [apply Permutation_app_comm | auto].
  - specialize (A (zero_fees d) eq_refl) as A0. rewrite E1 in A0. destruct A0 as (_ & L1 & _). specialize (B f1 L1).
    destruct (solve_market_side S (rows_in (right_of d fl) d) pl f1) as [[tr' f2]|]; [contradiction|]. cbn [bind halves_swapped]. destruct B; congruence.
  - specialize (B (zero_fees d) eq_refl) as B0. rewrite E2 in B0. destruct B0 as (_ & L2 & _). specialize (A g1 L2).
    destruct (solve_market_side S (rows_in (left_of d fl) d) pr g1) as [[tl' g2]|]; [contradiction|]. cbn [bind halves_swapped]. destruct A; congruence.
  - specialize (A (zero_fees d) eq_refl) as A0. rewrite E1 in A0. specialize (B (zero_fees d) eq_refl) as B0. rewrite E2 in B0. cbn [halves_swapped]. destruct A0, B0. congruence.
Qed.
(** whatever does not depend on the order of the transactions and halves has the same average with the chances exchanged *)
Theorem swap_mean S d (F : res (transmgr * extra) -> Qc) p : qty_nonneg d -> price_nonneg d -> labels_unique d ->
  (forall x x', halves_swapped x x' -> F x' = F x) ->
  expect p (length d) (fun fl => F (muda S d fl)) = expect (1 - p) (length d) (fun fl => F (muda S d fl)).
Proof.
  intros Hq Hp Hu H. rewrite <- (expect_negb p (length d) (fun fl => F (muda S d fl))). apply expect_ext. intros fl L. symmetry. apply H, muda_swap; assumption.
Qed.

(** ** Truth and participation on average *)
Lemma half_or d fl u : labels_unique d -> (forall x y, In x d -> In y d -> user x = u -> user y = u -> x = y) ->
  (forall x, In x d -> user x = u -> In (lbl x) (left_of d fl)) \/ (forall x, In x d -> user x = u -> In (lbl x) (right_of d fl)).
Proof.
  intros Hu One. destruct (existsb (fun r => Z.eqb (user r) u && existsb (Nat.eqb (lbl r)) (left_of d fl)) d) eqn:E.
  - left. apply existsb_exists in E. destruct E as (r & Ir & E). apply andb_true_iff in E. destruct E as [E1 E2]. apply Z.eqb_eq in E1. apply mem_In in E2.
    intros x Ix Ex. rewrite (One x r Ix Ir Ex E1). exact E2.
  - right. intros x Ix Ex. apply mem_In. rewrite right_mem by exact Ix. apply negb_true_iff, not_true_iff_false. intro K. revert E. apply not_false_iff_true.
    apply existsb_exists. exists x. split; [exact Ix|]. rewrite Ex, Z.eqb_refl, K. reflexivity.
Qed.
Definition users_small (d : df) : Prop := forall r, In r d -> (0 <= user r)%Z /\ (user r < Z.of_nat (length (nodup Z.eq_dec (map user d))))%Z.

Lemma mis_same u d d' : Forall2 (misreport u) d d' -> map lbl d' = map lbl d /\ map user d' = map user d.
Proof. induction 1 as [|r r' d d' (E1 & E2 & _) F [IH1 IH2]]; [auto|]. cbn [map]. split; congruence. Qed.
Lemma mis_left u d d' r : Forall2 (misreport u) d d' -> In r d' -> exists r0, In r0 d /\ misreport u r0 r.
Proof. induction 1 as [|a b d d' H F IH]; [intros []|]. intros [<-|I]; [exists a; cbn [In]; auto|]. destruct (IH I) as (r0 & I0 & M). exists r0. cbn [In]. auto. Qed.
Lemma mis_repeated u d d' : labels_unique d -> (forall x y, In x d -> In y d -> user x = u -> user y = u -> x = y) -> Forall2 (misreport u) d d' -> ~ repeated_price d -> ~ repeated_price d'.
Proof.
  intros Hu One F N (r1 & r2 & I1 & I2 & Nl & Eb & Ep & Eu).
  destruct (mis_left u d d' r1 F I1) as (s1 & J1 & L1 & U1 & B1 & _ & _ & S1). destruct (mis_left u d d' r2 F I2) as (s2 & J2 & L2 & U2 & B2 & _ & _ & S2).
  destruct (Z.eq_dec (user s1) u) as [X|X].
  - apply Nl. rewrite L1, L2. f_equal. apply One; try assumption. congruence.
  - assert (user s2 <> u) by congruence. rewrite (S1 X), (S2 H) in *. apply N. exists s1, s2. auto 10.
Qed.

Theorem truthful_mean S d d' u p : 0 <= p -> p <= 1 -> qty_nonneg d -> price_nonneg d -> price_nonneg d' -> labels_unique d -> ~ repeated_price d -> users_small d -> (0 <= u)%Z ->
  (forall x y, In x d -> In y d -> user x = u -> user y = u -> x = y) -> Forall2 (misreport u) d d' ->
  expect p (length d) (fun fl => worth d u (muda S d' fl)) <= expect p (length d) (fun fl => worth d u (muda S d fl)).
Proof.
  intros P1 P2 Hq Hp Hp' Hu Hr Hs H0 One F. apply expect_le; [exact P1 | exact P2|]. intros fl _.
  destruct (mis_same u d d' F) as [El Eu]. assert (Hu' : labels_unique d') by (unfold labels_unique; rewrite El; exact Hu).
  assert (Hq' : qty_nonneg d') by (intros r Ir; destruct (mis_left u d d' r F Ir) as (r0 & _ & M); apply M).
  assert (Hs' : users_small d').
  { intros r Ir. rewrite Eu. destruct (mis_left u d d' r F Ir) as (r0 & I0 & _ & E & _). rewrite E. apply Hs, I0. }
  destruct (muda_total S d fl Hq Hp Hu Hr Hs) as (tm & ex & E). destruct (muda_total S d' fl Hq' Hp' Hu' (mis_repeated u d d' Hu One F Hr) Hs') as (tm' & ex' & E').
  destruct (muda_ok S d fl tm ex Hq Hu E) as (_ & _ & pl & pr & _ & f2 & _ & _ & ->). destruct (muda_ok S d' fl tm' ex' Hq' Hu' E') as (_ & _ & pl' & pr' & _ & f2' & _ & _ & ->).
  rewrite E, E'. cbn [worth].
  destruct (existsb (fun r => Z.eqb (user r) u) d) eqn:Ex.
  - apply existsb_exists in Ex. destruct Ex as (x0 & I0 & E0). apply Z.eqb_eq in E0.
    eapply (top_truthful S d d' fl tm tm' _ _ _ _ _ _ _ _ _ _ u (buying x0)); try eassumption.
    + intros x Ix. apply Hs, Ix.
    + intros x Ix Ex. rewrite (One x x0 Ix I0 Ex E0). reflexivity.
    + apply half_or; assumption.
  - eapply (top_truthful S d d' fl tm tm' _ _ _ _ _ _ _ _ _ _ u true); try eassumption.
    + intros x Ix. apply Hs, Ix.
    + intros x Ix E0. exfalso. revert Ex. apply not_false_iff_true, existsb_exists. exists x. rewrite E0, Z.eqb_refl. auto.
    + apply half_or; assumption.
Qed.
Theorem participation_mean S d u p : 0 <= p -> p <= 1 -> qty_nonneg d -> labels_unique d -> (forall r, In r d -> (0 <= user r)%Z) -> (0 <= u)%Z ->
  0 <= expect p (length d) (fun fl => worth d u (muda S d fl)).
Proof.
  intros P1 P2 Hq Hu Hz H0. rewrite <- (expect_const p (length d) 0). apply expect_le; [exact P1 | exact P2|]. intros fl _.
  destruct (muda S d fl) as [[tm ex]|e] eqn:E; [|cbn [worth]; qlra].
  destruct (top_fees S d fl tm ex Hq Hu E Hz) as (l & r & pl & pr & fees & -> & H). destruct (H u H0) as (A & B & _). cbn [worth]. qlra.
Qed.

(** ** How often something is traded *)
Lemma qsumf_pos_in {A} (f : A -> Qc) l : (forall x, In x l -> 0 <= f x) -> 0 < qsumf f l -> exists x, In x l /\ 0 < f x.
Proof.
  intros H P. induction l as [|x l IH]; [rewrite qsumf_nil in P; qlra|]. rewrite qsumf_cons in P.
  destruct (qlt_spec 0 (f x)) as [Q|Q]; [exists x; cbn [In]; auto|]. destruct IH as (y & Iy & Py); [intros y Iy; apply H; right; exact Iy | |exists y; cbn [In]; auto].
  qlra.
Qed.
Lemma half_two_sided h p f tl f' t : qty_nonneg h -> labels_unique h -> HalfRes h p f tl f' -> In t tl -> 0 < t_qty t ->
  exists x y, In x h /\ In y h /\ buying x = true /\ buying y = false.
Proof.
  intros Hq Hu HR It Pt. destruct p as [q| | |]; try (destruct HR as [-> _]; contradiction). destruct HR as [Rf _ Fe _ _ Bo So _ _ _ _].
  assert (V : 0 < qmin (demand_at h q) (supply_at h q)).
  { destruct (Rf t It) as (r & Ir & Er). destruct (buying r) eqn:Br; [rewrite <- Bo; unfold bought | rewrite <- So; unfold sold];
    (eapply Qclt_le_trans; [exact Pt|]; apply (qsumf_in_le t_qty); [intros t' I'; apply filter_In in I'; apply Fe, I' |]; apply filter_In; split; [exact It|]);
    unfold on_side; apply existsb_exists; exists r; rewrite Er, Nat.eqb_refl, Br; auto. }
  assert (VD : 0 < demand_at h q /\ 0 < supply_at h q) by (revert V; unfold qmin; destruct (qle_spec (demand_at h q) (supply_at h q)); intro; split; qlra).
  destruct VD as [VD VS]. unfold demand_at in VD. unfold supply_at in VS.
  apply qsumf_pos_in in VD; [|intros x Ix; apply filter_In in Ix; apply Hq, Ix]. apply qsumf_pos_in in VS; [|intros x Ix; apply filter_In in Ix; apply Hq, Ix].
  destruct VD as (x & Ix & _), VS as (y & Iy & _). apply filter_In in Ix, Iy. destruct Ix as [Ix Ex], Iy as [Iy Ey]. apply andb_true_iff in Ex, Ey. destruct Ex as [Ex _], Ey as [Ey _]. apply negb_true_iff in Ey.
  exists x, y. auto.
Qed.

Lemma both_iff sel d fl : labels_unique d -> length fl = length d ->
  (on_both sel d fl = true <-> (exists x, In x (rows_in (left_of d fl) d) /\ sel x = true) /\ (exists x, In x (rows_in (right_of d fl) d) /\ sel x = true)).
Proof.
  intros Hu L. unfold on_both. rewrite andb_true_iff, !existsb_exists.
  assert (K : forall x b, In (x, b) (combine d fl) -> In x d /\ (In (lbl x) (left_of d fl) <-> b = true)).
  { intros x b I. apply In_nth_error in I. destruct I as (n & I).
    assert (Nd : nth_error d n = Some x /\ nth_error fl n = Some b).
    { clear - I. revert fl n I. induction d as [|a d IH]; intros [|c fl] [|n] I; try discriminate; cbn [combine nth_error] in *; [injection I as -> ->; auto|]. apply IH, I. }
    destruct Nd as [N1 N2]. split; [eapply nth_error_In, N1|]. unfold left_of. rewrite (left_spec (map lbl d) Hu fl n (lbl x)) by (apply map_nth_error, N1).
    rewrite (nth_error_nth fl n false N2). reflexivity. }
  assert (C : forall x, In x d -> exists b, In (x, b) (combine d fl)).
  { intros x Ix. clear K Hu. revert fl L. induction d as [|a d IH]; [contradiction|]. intros [|c fl] L; [discriminate|]. cbn [combine]. destruct Ix as [->|Ix]; [exists c; left; reflexivity|].
    destruct (IH Ix fl) as (b & Ib); [cbn [length] in L; congruence|]. exists b. right. exact Ib. }
  assert (KR : forall x, In x d -> (In (lbl x) (right_of d fl) <-> ~ In (lbl x) (left_of d fl))).
  { intros x Ix. rewrite <- !mem_In, (right_mem d fl x Ix). destruct (existsb _ _); cbn [negb]; intuition congruence. }
  split; intros [(a & Ia & Ea) (b & Ib & Eb)].
  - destruct a as [x []], b as [y []]; cbn [fst snd negb] in Ea, Eb; rewrite ?andb_false_r in *; try discriminate. rewrite andb_true_r in Ea, Eb.
    destruct (K _ _ Ia) as [Ix Lx], (K _ _ Ib) as [Iy Ly]. split; [exists x | exists y]; (split; [|assumption]); apply rows_in_In; split; try assumption; [apply Lx; reflexivity|].
    apply KR; [exact Iy|]. rewrite Ly. discriminate.
  - apply rows_in_In in Ia, Ib. destruct Ia as [Ia La], Ib as [Ib Lb]. destruct (C a Ia) as (ba & Ca), (C b Ib) as (bb & Cb). destruct (K _ _ Ca) as [_ Ka], (K _ _ Cb) as [_ Kb].
    split; [exists (a, ba) | exists (b, bb)]; (split; [assumption|]); cbn [fst snd].
    + rewrite Ea, (proj1 Ka La). reflexivity.
    + rewrite Eb. destruct bb; [|reflexivity]. exfalso. apply (KR b Ib) in Lb. apply Lb, Kb. reflexivity.
Qed.

Theorem trades_mixed S d fl : qty_nonneg d -> price_nonneg d -> labels_unique d -> length fl = length d -> trades (muda S d fl) = true ->
  on_both buying d fl && on_both (fun r => negb (buying r)) d fl = true.
Proof.
  intros Hq Hp Hu L T. destruct (muda S d fl) as [[tm ex]|e] eqn:E; [|discriminate]. cbn [trades] in T. apply existsb_exists in T. destruct T as (t & It & Pt). apply qltb_lt in Pt.
  destruct (muda_ok S d fl tm ex Hq Hu E) as (tlL & tlR & pl & pr & f1 & f2 & [Mp Mr ML MR] & Et & _). rewrite Et in It.
  assert (Y : (exists x y, In x (rows_in (left_of d fl) d) /\ In y (rows_in (left_of d fl) d) /\ buying x = true /\ buying y = false) /\
              (exists x y, In x (rows_in (right_of d fl) d) /\ In y (rows_in (right_of d fl) d) /\ buying x = true /\ buying y = false)).
  { apply in_app_or in It. destruct It as [It|It].
    - split; [eapply half_two_sided; [apply half_qty, Hq | apply rows_in_unique, Hu | exact ML | exact It | exact Pt]|].
      destruct (res_const _ _ _ _ _ t ML It) as [-> _]. destruct (price_finite S _ (half_qty _ _ Hq) (half_price _ _ Hp) _ Mr) as ((rb & rs & H1 & H2 & H3 & H4 & _) & _). eauto 10.
    - split; [|eapply half_two_sided; [apply half_qty, Hq | apply rows_in_unique, Hu | exact MR | exact It | exact Pt]].
      destruct (res_const _ _ _ _ _ t MR It) as [-> _]. destruct (price_finite S _ (half_qty _ _ Hq) (half_price _ _ Hp) _ Mp) as ((rb & rs & H1 & H2 & H3 & H4 & _) & _). eauto 10. }
  destruct Y as [(x & y & I1 & I2 & B1 & B2) (x' & y' & I1' & I2' & B1' & B2')]. apply andb_true_iff. split; apply both_iff; try assumption; split; eauto.
  - exists y. rewrite B2. auto.
  - exists y'. rewrite B2'. auto.
Qed.
Theorem trade_chance S d p : 0 <= p -> p <= 1 -> qty_nonneg d -> price_nonneg d -> labels_unique d ->
  chance p (length d) (fun fl => trades (muda S d fl)) <=
  mixed_chance p (length (filter buying d)) * mixed_chance p (length (filter (fun r => negb (buying r)) d)).
Proof.
  intros P1 P2 Hq Hp Hu. rewrite <- both_both by (intros r E1 E2; rewrite E1 in E2; discriminate). apply expect_le; [exact P1 | exact P2|]. intros fl L.
  destruct (trades (muda S d fl)) eqn:T; [rewrite (trades_mixed S d fl) by assumption; qlra|]. destruct (_ && _); qlra.
Qed.

Section Same.
  Variables (S : sorter) (d : df) (v a : Qc).
  Hypothesis Hq : qty_pos d.
  Hypothesis Hv : forall x, In x d -> price x = if buying x then v else a.
  Hypothesis Ha : 0 < a.
  Hypothesis Hva : a < v.
  Hypothesis Hu : labels_unique d.
  Hypothesis Hr : ~ repeated_price d.
  Hypothesis Hs : users_small d.
  Lemma same_q : qty_nonneg d.
  Proof. intros x Ix. apply Qclt_le_weak, Hq, Ix. Qed.
  Lemma same_p : price_nonneg d.
  Proof. intros x Ix. rewrite Hv by exact Ix. destruct (buying x); qlra. Qed.
  Lemma mixed_trades fl : length fl = length d -> on_both buying d fl && on_both (fun r => negb (buying r)) d fl = true -> trades (muda S d fl) = true.
  Proof.
    intros L M. apply andb_true_iff in M. destruct M as [M1 M2]. apply both_iff in M1, M2; try assumption.
    destruct M1 as [(x & Ix & Bx) (x' & Ix' & Bx')], M2 as [(y & Iy & By) (y' & Iy' & By')]. apply negb_true_iff in By, By'.
    destruct (muda_total S d fl same_q same_p Hu Hr Hs) as (tm & ex & E). rewrite E. cbn [trades].
    destruct (muda_ok S d fl tm ex same_q Hu E) as (tlL & tlR & pl & pr & f1 & f2 & [Mp Mr ML MR] & Et & _). rewrite Et.
    assert (Hl : forall ls z, In z (rows_in ls d) -> In z d) by (intros ls z I; apply rows_in_In in I; apply I).
    destruct (price_exists S (rows_in (left_of d fl) d) (half_qty _ _ same_q) (half_price _ _ same_p) x y Ix Iy Bx By) as (q & Eq).
    { rewrite (Hv x), (Hv y), Bx, By by (eapply Hl; eassumption). exact Hva. }
    { intros b s Ib Is Bb Bs. rewrite (Hv b), (Hv s), Bb, Bs by (eapply Hl; eassumption). intro Z. rewrite Z in Hva. qlra. }
    { intros s Is Bs. rewrite (Hv s), Bs by (eapply Hl; eassumption). exact Ha. }
    rewrite Mp in Eq. injection Eq as ->.
    destruct (price_finite S _ (half_qty _ _ same_q) (half_price _ _ same_p) _ Mp) as ((rb & rs & H1 & H2 & H3 & H4 & H5 & H6 & _) & _).
    rewrite (Hv rb), H3 in H6 by (eapply Hl; exact H1). rewrite (Hv rs), H4 in H5 by (eapply Hl; exact H2).
    destruct MR as [_ _ Fe _ _ Bo _ _ _ _ _].
    assert (D : 0 < demand_at (rows_in (right_of d fl) d) q).
    { eapply Qclt_le_trans; [apply (Hq x'); eapply Hl; exact Ix'|]. apply (qsumf_in_le qty); [intros z Iz; apply filter_In in Iz; apply same_q; eapply Hl; apply Iz|].
      apply filter_In. split; [exact Ix'|]. rewrite Bx'. cbn [andb]. apply qleb_le. rewrite (Hv x'), Bx' by (eapply Hl; exact Ix'). exact H6. }
    assert (Su : 0 < supply_at (rows_in (right_of d fl) d) q).
    { eapply Qclt_le_trans; [apply (Hq y'); eapply Hl; exact Iy'|]. apply (qsumf_in_le qty); [intros z Iz; apply filter_In in Iz; apply same_q; eapply Hl; apply Iz|].
      apply filter_In. split; [exact Iy'|]. rewrite By'. cbn [andb negb]. apply qleb_le. rewrite (Hv y'), By' by (eapply Hl; exact Iy'). exact H5. }
    assert (V : 0 < bought (rows_in (right_of d fl) d) tlR) by (rewrite Bo; unfold qmin; destruct (qleb _ _); assumption).
    unfold bought in V. apply qsumf_pos_in in V; [|intros t It; apply filter_In in It; apply Fe, It]. destruct V as (t & It & Pt). apply filter_In in It.
    apply existsb_exists. exists t. split; [apply in_or_app; right; apply It | apply qltb_lt, Pt].
  Qed.
  Theorem trade_chance_same p :
    chance p (length d) (fun fl => trades (muda S d fl)) =
    mixed_chance p (length (filter buying d)) * mixed_chance p (length (filter (fun r => negb (buying r)) d)).
  Proof.
    rewrite <- both_both by (intros r E1 E2; rewrite E1 in E2; discriminate). apply expect_ext. intros fl L.
    assert (E : trades (muda S d fl) = on_both buying d fl && on_both (fun r => negb (buying r)) d fl); [|rewrite E; reflexivity].
    apply eq_true_iff_eq. split; [apply (trades_mixed S); [exact same_q | exact same_p | exact Hu | exact L] | apply mixed_trades, L].
  Qed.
End Same.
