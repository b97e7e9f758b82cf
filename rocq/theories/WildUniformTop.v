(** The uniform price mechanism on tables with infinite and NaN prices: fairness, large prices, rational prices. *)
From Verif Require Import QcTac Num NumFacts ListFacts ModelBase ModelCurves ModelHuang ModelMuda ModelMarket ModelUniform ModelAny ModelWild ModelWildMuda ModelWildUniform
  Spec SpecWild SpecWildMuda SpecWildUniform CurveFacts IntersectFacts StoreFacts UpdateFacts HuangFacts UnitFacts SepFacts WildFacts WildSort WildCap WildTop WildMudaFin WildUniform.

(** ** The mean lies between *)
Lemma mean_between a b : nltb a b = true -> a <> NInf -> mean_price a b <> NaN /\ nleb a (mean_price a b) = true /\ nleb (mean_price a b) b = true.
Proof.
  intros H N. unfold mean_price. destruct a as [x| | |]; [|destruct b; discriminate|congruence|destruct b; discriminate].
  destruct b as [y| | |]; try discriminate.
  - cbn in H. apply qltb_lt in H. cbn [nmul nadd nleb]. split; [discriminate|].
    assert (E : x * qf 1 2 + (1 - qf 1 2) * y = (x + y) * qf 1 2) by (replace (1 - qf 1 2) with (qf 1 2) by (apply Qc_is_canon; reflexivity); ring). rewrite E.
    assert (D : (x + x) * qf 1 2 = x) by (transitivity (x * (qf 1 2 + qf 1 2)); [ring|]; replace (qf 1 2 + qf 1 2) with 1 by (apply Qc_is_canon; reflexivity); ring).
    assert (D' : (y + y) * qf 1 2 = y) by (transitivity (y * (qf 1 2 + qf 1 2)); [ring|]; replace (qf 1 2 + qf 1 2) with 1 by (apply Qc_is_canon; reflexivity); ring).
    assert (P : 0 <= qf 1 2) by (apply qleb_le; reflexivity).
    split; apply qleb_le; [rewrite <- D at 1 | rewrite <- D' at 2]; apply Qcmult_le_compat_r; qlra.
  - cbn. repeat split; discriminate.
Qed.

Lemma in_full_sum l p : qsumf x_qty (in_full l p) = qsumf w_qty l.
Proof. induction l as [|x l IH]; [reflexivity|]. cbn [in_full map]. fold (in_full l p). rewrite !qsumf_cons, IH. reflexivity. Qed.
Lemma last_part_sum l r q p : qsumf x_qty (last_part l r q p) = qsumf w_qty l + q.
Proof. unfold last_part. rewrite qsumf_app, in_full_sum, qsumf_cons, qsumf_nil. cbn. ring. Qed.
Lemma in_full_in l p t : In t (in_full l p) -> exists x, In x l /\ t = mkATrans (w_lbl x) (w_qty x) p (-1) false.
Proof. intro H. apply in_map_iff in H. destruct H as (x & <- & Hx). eauto. Qed.
Lemma last_part_in l r q p t : In t (last_part l r q p) -> exists x z, In x (l ++ [r]) /\ t = mkATrans (w_lbl x) z p (-1) false /\ (z = w_qty x \/ x = r /\ z = q).
Proof.
  intro H. unfold last_part in H. apply in_app_or in H. destruct H as [H|[<-|[]]].
  - apply in_full_in in H. destruct H as (x & Hx & ->). exists x, (w_qty x). split; [apply in_or_app; auto|]. auto.
  - exists r, q. split; [apply in_or_app; right; left; reflexivity|]. auto.
Qed.
Lemma in_full_bids l p : map x_bid (in_full l p) = map w_lbl l.
Proof. unfold in_full. rewrite map_map. reflexivity. Qed.
Lemma last_part_bids l r q p : map x_bid (last_part l r q p) = map w_lbl (l ++ [r]).
Proof. unfold last_part. rewrite !map_app, in_full_bids. reflexivity. Qed.

Section Fair.
  Variable S : wsorter.
  Variable d : wdf.
  Hypothesis Hq : w_qty_nonneg d.
  Hypothesis Hs : asks_not_negative d.
  Let B := w_desc S (w_buyers d).
  Let L := w_asc S (w_sellers d).
  Lemma before_down B1 rb B2 x : B = B1 ++ rb :: B2 -> w_price rb <> NaN -> In x (B1 ++ [rb]) -> nleb (w_price rb) (w_price x) = true.
  Proof.
    intros E N H. pose proof (w_desc_sorted S (w_buyers d)) as So. fold B in So. rewrite E in So. apply in_app_or in H. destruct H as [H|[<-|[]]]; [|apply nle_refl, N].
    destruct (sorted_app _ _ _ _ So) as (A & _). destruct (A x H) as [C|C]; [contradiction | exact C].
  Qed.
  Lemma before_up L1 rs L2 x : L = L1 ++ rs :: L2 -> w_price rs <> NaN -> In x (L1 ++ [rs]) -> nleb (w_price x) (w_price rs) = true.
  Proof.
    intros E N H. pose proof (w_asc_sorted S (w_sellers d)) as So. fold L in So. rewrite E in So. apply in_app_or in H. destruct H as [H|[<-|[]]]; [|apply nle_refl, N].
    destruct (sorted_app _ _ _ _ So) as (A & _). destruct (A x H) as [C|C]; [contradiction | exact C].
  Qed.

  Theorem cleared_fair ts q p : Cleared B L ts q p ->
    p <> NaN /\ 0 <= q /\ exists ss bs, Permutation ts (ss ++ bs) /\ qsumf x_qty ss = q /\ qsumf x_qty bs = q /\
      (forall t, In t ss -> fair_trans d false p t) /\ (forall t, In t bs -> fair_trans d true p t) /\
      (NoDup (map w_lbl d) -> NoDup (map x_bid ts)).
  Proof.
    intros (B1 & rb & B2 & L1 & rs & L2 & EB & EL & Lt & H). cbn zeta in H.
    assert (Nb : w_price rb <> NaN) by (intro C; rewrite C in Lt; destruct (w_price rs); discriminate).
    assert (Ns : w_price rs <> NaN) by (intro C; rewrite C in Lt; destruct (w_price rb); discriminate).
    assert (IB : forall x, In x (B1 ++ [rb]) -> In x d /\ w_buying x = true).
    { intros x Hx. apply (in_B S d). fold B. rewrite EB. apply in_or_app. apply in_app_or in Hx. destruct Hx as [Hx|[<-|[]]]; [left; exact Hx | right; left; reflexivity]. }
    assert (IL : forall x, In x (L1 ++ [rs]) -> In x d /\ w_buying x = false).
    { intros x Hx. apply (in_L S d). fold L. rewrite EL. apply in_or_app. apply in_app_or in Hx. destruct Hx as [Hx|[<-|[]]]; [left; exact Hx | right; left; reflexivity]. }
    assert (Fs : w_price rs <> NInf).
    { intro C. destruct (IL rs) as [I1 I2]; [apply in_or_app; right; left; reflexivity|]. pose proof (Hs rs I1 I2) as K. rewrite C in K. discriminate. }
    set (b := qsumf w_qty (B1 ++ [rb])) in *. set (s := qsumf w_qty (L1 ++ [rs])) in *. destruct H as (Em & Cb & Cs & H).
    assert (Eb : b = qsumf w_qty B1 + w_qty rb) by (unfold b; rewrite qsumf_app, qsumf_cons, qsumf_nil; ring).
    assert (Es : s = qsumf w_qty L1 + w_qty rs) by (unfold s; rewrite qsumf_app, qsumf_cons, qsumf_nil; ring).
    assert (P0 : 0 <= q).
    { assert (0 <= qsumf w_qty B1); [|qlra]. apply qsumf_nonneg. intros x Hx. apply Hq, IB, in_or_app. left; exact Hx. }
    assert (Hp : p <> NaN /\ nleb (w_price rs) p = true /\ nleb p (w_price rb) = true).
    { assert (nleb (w_price rs) (w_price rb) = true) by (destruct (w_price rs), (w_price rb); try discriminate; try reflexivity; cbn in *; apply qltb_lt in Lt; apply qleb_le; qlra).
      destruct H as [(_ & -> & _)|[(_ & -> & _)|(_ & -> & _)]].
      - split; [exact Nb|]. split; [assumption|]. apply nle_refl, Nb.
      - split; [exact Ns|]. split; [apply nle_refl, Ns|]. assumption.
      - apply mean_between; assumption. }
    destruct Hp as (Np & Ps & Pb). split; [exact Np|]. split; [exact P0|].
    assert (FB : forall x z, In x (B1 ++ [rb]) -> 0 <= z -> z <= w_qty x -> fair_trans d true p (mkATrans (w_lbl x) z p (-1) false)).
    { intros x z Hx Z0 Z1. destruct (IB x Hx) as [I1 I2]. exists x. repeat (split; [assumption || reflexivity|]). unfold respects. rewrite I2. cbn [x_price].
      exact (nle_trans _ _ _ Pb (before_down _ _ _ _ EB Nb Hx)). }
    assert (FL : forall x z, In x (L1 ++ [rs]) -> 0 <= z -> z <= w_qty x -> fair_trans d false p (mkATrans (w_lbl x) z p (-1) false)).
    { intros x z Hx Z0 Z1. destruct (IL x Hx) as [I1 I2]. exists x. repeat (split; [assumption || reflexivity|]). unfold respects. rewrite I2. cbn [x_price].
      exact (nle_trans _ _ _ (before_up _ _ _ _ EL Ns Hx) Ps). }
    assert (ND : NoDup (map w_lbl d) -> NoDup (map w_lbl (L1 ++ [rs]) ++ map w_lbl (B1 ++ [rb]))).
    { intro N. rewrite <- map_app.
      assert (PP : Permutation d (L ++ B)).
      { unfold L, B. rewrite (w_asc_perm S (w_sellers d)), (w_desc_perm S (w_buyers d)). clear. unfold w_buyers, w_sellers. induction d as [|x d' IH]; [reflexivity|].
        cbn [filter]. destruct (w_buying x); cbn [negb]; [apply Permutation_cons_app, IH | cbn [app]; apply perm_skip, IH]. }
      apply (Permutation_map w_lbl) in PP. apply (Permutation_NoDup PP) in N. rewrite EB, EL in N.
      assert (PQ : Permutation ((L1 ++ rs :: L2) ++ B1 ++ rb :: B2) (((L1 ++ [rs]) ++ B1 ++ [rb]) ++ L2 ++ B2)).
      { change (rs :: L2) with ([rs] ++ L2). change (rb :: B2) with ([rb] ++ B2). rewrite <- !app_assoc. do 2 apply Permutation_app_head.
        rewrite (Permutation_app_comm L2). rewrite <- !app_assoc. do 2 apply Permutation_app_head. apply Permutation_app_comm. }
      apply (Permutation_map w_lbl), (fun K => Permutation_NoDup K N) in PQ. rewrite map_app in PQ. exact (NoDup_app_l _ _ PQ). }
    assert (HLB : forall z q', q' = q - qsumf w_qty B1 -> In z (last_part B1 rb q' p) -> q <= b -> fair_trans d true p z).
    { intros z q' Eq Hz Hle. apply last_part_in in Hz. destruct Hz as (x & z' & Hx & -> & [->|[-> ->]]); apply FB; auto; [apply Hq, IB, Hx | qlra | qlra | qlra]. }
    assert (HLL : forall z q', q' = q - qsumf w_qty L1 -> In z (last_part L1 rs q' p) -> q <= s -> fair_trans d false p z).
    { intros z q' Eq Hz Hle. apply last_part_in in Hz. destruct Hz as (x & z' & Hx & -> & [->|[-> ->]]); apply FL; auto; [apply Hq, IL, Hx | qlra | qlra | qlra]. }
    assert (Mb : q <= b) by (rewrite Em; apply qmin_l). assert (Ms : q <= s) by (rewrite Em; apply qmin_r).
    assert (Short : forall ts', ts' = in_full (B1 ++ [rb]) p ++ last_part L1 rs (q - qsumf w_qty L1) p -> b <= s -> ts = ts' ->
      exists ss bs, Permutation ts (ss ++ bs) /\ qsumf x_qty ss = q /\ qsumf x_qty bs = q /\ (forall t, In t ss -> fair_trans d false p t) /\ (forall t, In t bs -> fair_trans d true p t) /\
      (NoDup (map w_lbl d) -> NoDup (map x_bid ts))).
    { intros ts' E' G Et. exists (last_part L1 rs (q - qsumf w_qty L1) p), (in_full (B1 ++ [rb]) p). rewrite Et, E'.
      split; [apply Permutation_app_comm|]. split; [rewrite last_part_sum; ring|].
      split; [rewrite in_full_sum; fold b; rewrite Em; destruct (qmin_case b s) as [[-> ?]|[-> ?]]; qlra|]. split; [intros t Ht; exact (HLL t _ eq_refl Ht Ms)|]. split.
      - intros t Ht. apply in_full_in in Ht. destruct Ht as (x & Hx & ->). apply FB; [exact Hx | apply Hq, IB, Hx | qlra].
      - intro N. rewrite map_app, in_full_bids, last_part_bids. apply (Permutation_NoDup (Permutation_app_comm _ _)), ND, N. }
    destruct H as [(G & _ & Et)|[(G & _ & Et)|(G & _ & Et)]].
    - exists (in_full (L1 ++ [rs]) p), (last_part B1 rb (q - qsumf w_qty B1) p). rewrite Et.
      split; [reflexivity|]. split; [rewrite in_full_sum; fold s; rewrite Em; destruct (qmin_case b s) as [[-> ?]|[-> ?]]; qlra|]. split; [rewrite last_part_sum; ring|]. split.
      + intros t Ht. apply in_full_in in Ht. destruct Ht as (x & Hx & ->). apply FL; [exact Hx | apply Hq, IL, Hx | qlra].
      + split; [intros t Ht; exact (HLB t _ eq_refl Ht Mb)|]. intro N. rewrite map_app, in_full_bids, last_part_bids. apply ND, N.
    - apply (Short _ eq_refl); [qlra | exact Et].
    - apply (Short _ eq_refl); [qlra | exact Et].
  Qed.
End Fair.

(** ** The whole run *)
Lemma filter_length_le' {A} (f : A -> bool) l : (length (filter f l) <= length l)%nat.
Proof. induction l as [|x l IH]; [reflexivity|]. cbn [filter]. destruct (f x); simpl; lia. Qed.
Lemma two_sides d b s : In b d -> In s d -> w_buying b = true -> w_buying s = false -> Nat.eqb (length (w_buyers d)) 0 || Nat.eqb (length (w_buyers d)) (length d) = false.
Proof.
  intros Hb Hs Eb Es. apply orb_false_iff. split; apply Nat.eqb_neq.
  - intro C. apply length_zero_iff_nil in C. assert (In b (w_buyers d)) by (apply filter_In; auto). rewrite C in H. destruct H.
  - intro C. assert (K : forall l, In s l -> (length (filter w_buying l) < length l)%nat).
    { induction l as [|x l IH]; [intros []|]. intros [->|H]; cbn [filter].
      - rewrite Es. simpl. pose proof (filter_length_le' w_buying l). lia.
      - specialize (IH H). destruct (w_buying x); simpl; lia. }
    specialize (K d Hs). unfold w_buyers in C. lia.
Qed.
Lemma run_two S d b s : In b d -> In s d -> w_buying b = true -> w_buying s = false -> w_uniform_run S d = w_uniform S d.
Proof. intros Hb Hs Eb Es. unfold w_uniform_run. rewrite (two_sides d b s); auto. Qed.
Theorem run_one_side S d : (forall x, In x d -> w_buying x = true) \/ (forall x, In x d -> w_buying x = false) -> w_uniform_run S d = Ok ([], None).
Proof.
  intro H. unfold w_uniform_run, w_buyers. destruct H as [H|H].
  - rewrite (filter_all w_buying d) by exact H. rewrite Nat.eqb_refl, orb_true_r. reflexivity.
  - rewrite filter_none by exact H. reflexivity.
Qed.

Theorem run_cleared S d b s : w_qty_nonneg d -> asks_not_negative d -> In b d -> In s d -> w_buying b = true -> w_buying s = false ->
  w_uniform_run S d = Err TypeError /\ w_huang S d = Ok ([], None) \/
  exists ts q p, w_uniform_run S d = Ok (ts, Some (Fin q, p)) /\ Cleared (w_desc S (w_buyers d)) (w_asc S (w_sellers d)) ts q p /\ w_huang S d <> Ok ([], None).
Proof. intros Hq Hs Hb Hs' Eb Es. rewrite (run_two S d b s) by assumption. apply uniform_cases; assumption. Qed.

Theorem run_fair S d ts q p : w_qty_nonneg d -> asks_not_negative d -> w_uniform_run S d = Ok (ts, Some (q, p)) ->
  p <> NaN /\ exists c ss bs, q = Fin c /\ 0 <= c /\ Permutation ts (ss ++ bs) /\ qsumf x_qty ss = c /\ qsumf x_qty bs = c /\
    (forall t, In t ss -> fair_trans d false p t) /\ (forall t, In t bs -> fair_trans d true p t) /\ (NoDup (map w_lbl d) -> NoDup (map x_bid ts)).
Proof.
  intros Hq Hs E. unfold w_uniform_run in E. destruct (_ || _); [discriminate|].
  destruct (uniform_cases S d Hq Hs) as [[C _]|(ts' & q' & p' & C & Cl & _)]; rewrite C in E; [discriminate|]. injection E as <- <- <-.
  destruct (cleared_fair S d Hq Hs _ _ _ Cl) as (Np & P0 & ss & bs & H). split; [exact Np|]. exists q', ss, bs. tauto.
Qed.

Theorem run_flood S d b s : w_qty_nonneg d -> asks_not_negative d -> In b d -> In s d -> w_buying b = true -> w_buying s = false ->
  offered d < wanted_at_any_price d -> w_uniform_run S d = Err TypeError.
Proof.
  intros Hq Hs Hb Hs' Eb Es F. destruct (run_cleared S d b s Hq Hs Hb Hs' Eb Es) as [[C _]|(ts & q & p & _ & _ & C)]; [exact C|]. exfalso. apply C, flood_none; assumption.
Qed.

Theorem run_nan S d ts q p x : w_qty_nonneg d -> asks_not_negative d -> NoDup (map w_lbl d) -> w_uniform_run S d = Ok (ts, Some (q, p)) ->
  In x d -> w_price x = NaN -> ~ In (w_lbl x) (map x_bid ts).
Proof.
  intros Hq Hs N E Hx Ex C. destruct (run_fair S d ts q p Hq Hs E) as (_ & c & ss & bs & _ & _ & PP & _ & _ & Fs & Fb & _).
  apply in_map_iff in C. destruct C as (t & Et & Ht). apply (Permutation_in _ PP) in Ht.
  assert (H : exists y, In y d /\ x_bid t = w_lbl y /\ respects y t).
  { apply in_app_or in Ht. destruct Ht as [Ht|Ht]; [destruct (Fs t Ht) as (y & H)|destruct (Fb t Ht) as (y & H)]; exists y; tauto. }
  destruct H as (y & Hy & Ey & R). assert (y = x).
  { apply (NoDup_map_in w_lbl d); auto. congruence. }
  subst y. unfold respects in R. rewrite Ex in R. destruct (w_buying x), (x_price t); discriminate.
Qed.
(** at an infinite price only bids at any price buy *)
Theorem run_infinite S d ts q x t : w_qty_nonneg d -> asks_not_negative d -> NoDup (map w_lbl d) -> w_uniform_run S d = Ok (ts, Some (q, PInf)) ->
  In x d -> In t ts -> x_bid t = w_lbl x -> w_buying x = true -> w_price x = PInf.
Proof.
  intros Hq Hs N E Hx Ht Et Bx. destruct (run_fair S d ts q PInf Hq Hs E) as (_ & c & ss & bs & _ & _ & PP & _ & _ & Fs & Fb & _).
  apply (Permutation_in _ PP) in Ht.
  assert (H : exists y, In y d /\ x_bid t = w_lbl y /\ x_price t = PInf /\ respects y t).
  { apply in_app_or in Ht. destruct Ht as [Ht|Ht]; [destruct (Fs t Ht) as (y & H)|destruct (Fb t Ht) as (y & H)]; exists y; tauto. }
  destruct H as (y & Hy & Ey & P & R). assert (y = x).
  { apply (NoDup_map_in w_lbl d); auto. congruence. }
  subst y. unfold respects in R. rewrite Bx, P in R. destruct (w_price x); [discriminate|reflexivity|discriminate|discriminate].
Qed.

(** ** Rational prices *)
Lemma short_W l p : w_uniform_short (W l) (Fin p) = map same_trans (uniform_short l p).
Proof. unfold w_uniform_short, uniform_short. rewrite !map_map. reflexivity. Qed.
Lemma long_W l t p : forall a, w_uniform_long (W l) t a (Fin p) = map same_trans (uniform_long l t a p).
Proof. induction l as [|x l IH]; intro a; [reflexivity|]. cbn [map w_uniform_long uniform_long]. rewrite IH. reflexivity. Qed.

Theorem run_finite S d : (forall r, In r d -> 0 <= qty r) -> exists S', w_uniform_run S (W d) = match uniform_run S' d with Ok x => Ok (lift_uniform x) | Err e => Err e end.
Proof.
  intro Hq. exists (fin_sorter S). unfold w_uniform_run, uniform_run, mechanism, mech_run0. rewrite buyers_W, !map_length. destruct (_ || _); [reflexivity|].
  assert (Hq' : w_qty_nonneg (W d)) by (intros x Hx; apply in_map_iff in Hx; destruct Hx as (r & <- & Hr); apply Hq, Hr).
  unfold w_uniform, uniform_price_mechanism. cbn zeta.
  destruct (intersect_pairs (w_demand (w_desc S (w_buyers (W d)))) (w_supply (w_asc S (w_sellers (W d)))) (w_ends _ _ (qB S _ Hq')) (w_ends _ _ (qL S _ Hq')) (w_end_inf _ _) (w_end_inf _ _) (qf 1 2))
    as [(x & y & b & s & u & w & i' & j' & u' & w' & v & E & _ & Sf & Sg & Lwu & _)|(v & E & _)].
  all: rewrite buyers_W, sellers_W, asc_W, desc_W in *; unfold demand_curve_from_bids, supply_curve_from_bids; cbn [fst];
    assert (C : forall l, w_rows (W l) = curve_rows l) by (intro l; unfold w_rows, curve_rows; rewrite qty_W, (map_W w_price (fun r => Fin (price r))) by reflexivity; reflexivity);
    unfold w_demand, w_supply in *; rewrite !C in *; rewrite E; cbn [bind]; try reflexivity.
  destruct (StepAt_in _ _ _ _ Sf) as (af & _ & _ & Nf). destruct (StepAt_in _ _ _ _ Sg) as (ag & _ & _ & Ng).
  pose proof (value_of _ _ _ _ _ _ _ _ _ _ _ E Nf Ng) as Ev.
  assert (Fu : exists a, u = Fin a).
  { rewrite <- C in Nf. destruct (w_nth _ _ _ _ _ Nf) as [(r & H1 & _ & ->)|(_ & _ & ->)]; [|eauto]. apply nth_error_In, in_map_iff in H1. destruct H1 as (z & <- & _). cbn. eauto. }
  assert (Fw : exists a, w = Fin a).
  { rewrite <- C in Ng. destruct (w_nth _ _ _ _ _ Ng) as [(r & H1 & _ & ->)|(_ & _ & ->)]; [|destruct u; discriminate]. apply nth_error_In, in_map_iff in H1. destruct H1 as (z & <- & _). cbn. eauto. }
  destruct Fu as (u1 & ->), Fw as (w1 & ->).
  assert (Fv : exists a, v = Fin a) by (rewrite Ev; destruct (_ && _); [cbn; eauto|]; destruct (mem_col _ _); eauto). destruct Fv as (p & ->).
  rewrite !firstn_map, !qty_W. destruct (qltb _ _); unfold lift_uniform; cbn [fst snd]; rewrite qty_W, !add_all_trans, short_W, long_W, <- map_app; reflexivity.
Qed.

(** ** Large prices instead of infinite ones *)
Lemma short_cap P l p p' : map no_price (w_uniform_short l p) = map no_price_q (uniform_short (map (cap_row P) l) p').
Proof. unfold w_uniform_short, uniform_short. rewrite !map_map. reflexivity. Qed.
Lemma long_cap P l t p p' : forall a, map no_price (w_uniform_long l t a p) = map no_price_q (uniform_long (map (cap_row P) l) t a p').
Proof. induction l as [|x l IH]; intro a; [reflexivity|]. cbn [map w_uniform_long uniform_long]. rewrite IH. reflexivity. Qed.
Theorem run_large S d P : w_qty_pos d -> no_nan d -> beyond P d -> wanted_at_any_price d <= offered d ->
  exists S', same_but_prices (w_uniform_run S d) (uniform_run S' (map (cap_row P) d)).
Proof.
  intros Hq Hn [HP Hb] Fl. assert (Hq' : w_qty_nonneg d) by (intros x Hx; apply Qclt_le_weak, Hq, Hx).
  set (B := w_desc S (w_buyers d)). set (L := w_asc S (w_sellers d)).
  assert (OB : forall x, In x B -> ok (w_price x) /\ 0 < w_qty x /\ forall q, w_price x = Fin q -> - P < q /\ q < P).
  { intros x Hx. apply (in_B S d) in Hx. destruct Hx as [Hx _]. split; [apply Hn, Hx|]. split; [apply Hq, Hx|]. intros q E. apply (Hb x q Hx E). }
  assert (OL : forall x, In x L -> ok (w_price x) /\ 0 < w_qty x /\ forall q, w_price x = Fin q -> - P < q /\ q < P).
  { intros x Hx. apply (in_L S d) in Hx. destruct Hx as [Hx _]. split; [apply Hn, Hx|]. split; [apply Hq, Hx|]. intros q E. apply (Hb x q Hx E). }
  assert (EB : buyers (map (cap_row P) d) = map (cap_row P) (w_buyers d)).
  { unfold buyers, w_buyers. clear. induction d as [|x d IH]; [reflexivity|]. cbn [map filter cap_row buying]. destruct (w_buying x); cbn [map]; rewrite IH; reflexivity. }
  assert (EL : sellers (map (cap_row P) d) = map (cap_row P) (w_sellers d)).
  { unfold sellers, w_sellers. clear. induction d as [|x d IH]; [reflexivity|]. cbn [map filter cap_row buying]. destruct (w_buying x); cbn [negb map]; rewrite IH; reflexivity. }
  destruct (sorter_for (buyers (map (cap_row P) d)) (map (cap_row P) B) (sellers (map (cap_row P) d)) (map (cap_row P) L)) as (S' & ES1 & ES2).
  { rewrite EB. apply Permutation_map, w_desc_perm. }
  { apply (map_sorted _ _ _ _ (w_desc_sorted S _)). intros a b Ha Hb' [H|H]; [destruct (OB b Hb') as [K _]; contradiction|].
    destruct (OB a Ha) as (A1 & _ & A2), (OB b Hb') as (B1 & _ & B2). cbn [cap_row price]. apply cap_le; assumption. }
  { rewrite EL. apply Permutation_map, w_asc_perm. }
  { apply (map_sorted _ _ _ _ (w_asc_sorted S _)). intros a b Ha Hb' [H|H]; [destruct (OL b Hb') as [K _]; contradiction|].
    destruct (OL a Ha) as (A1 & _ & A2), (OL b Hb') as (B1 & _ & B2). cbn [cap_row price]. apply cap_le; assumption. }
  exists S'. unfold w_uniform_run, uniform_run, mechanism, mech_run0. rewrite EB, !map_length. destruct (_ || _); [cbn; auto|].
  unfold uniform_price_mechanism, demand_curve_from_bids, supply_curve_from_bids. rewrite ES1, ES2. cbn [fst].
  fold (capped P B (Fin 0)). fold (capped P L PInf).
  assert (Fl' : qsumf w_qty (filter at_any_price B) <= qsumf w_qty L).
  { unfold B, L. rewrite (qsumf_perm _ _ _ (filter_perm at_any_price _ _ (w_desc_perm S (w_buyers d)))), (qsumf_perm _ _ _ (w_asc_perm S (w_sellers d))).
    unfold w_buyers. rewrite filter_filter. exact Fl. }
  pose proof (same_intersect (w_demand B) (capped P B (Fin 0)) (w_supply L) (capped P L PInf) (capped_fst P B _ _) (capped_fst P L _ _)
    (fun x => proj1 (cap_compare P B L HP (w_desc_sorted S _) OB OL Fl' x)) (fun x => proj2 (cap_compare P B L HP (w_desc_sorted S _) OB OL Fl' x)) (qf 1 2)) as SI.
  unfold w_uniform. fold B. fold L. cbn zeta.
  destruct (intersect_pairs (w_demand B) (w_supply L) (w_ends B _ (qB S d Hq')) (w_ends L _ (qL S d Hq')) (w_end_inf B _) (w_end_inf L _) (qf 1 2))
    as [(x & y & b & s & u & w & i' & j' & u' & w' & v & E & _ & Sf & Sg & Lwu & _)|(v & E & _)].
  2:{ rewrite E in *. destruct SI as (v' & ->). cbn. auto. }
  rewrite E in *. destruct SI as (v' & Ev'). rewrite Ev'. cbn [bind].
  destruct (StepAt_in _ _ _ _ Sf) as (af & _ & _ & Nf). destruct (StepAt_in _ _ _ _ Sg) as (ag & _ & _ & Ng).
  assert (Hs : exists a, nth_error (capped P L PInf) s = Some (a, Fin (cap P w))).
  { destruct (w_nth _ _ _ _ _ Ng) as [(r & H1 & _ & ->)|(_ & _ & ->)]; [apply capped_nth, H1|]. destruct u; discriminate. }
  assert (Hbb : exists a, nth_error (capped P B (Fin 0)) b = Some (a, Fin (cap P u))).
  { destruct (w_nth _ _ _ _ _ Nf) as [(r & H1 & _ & ->)|(-> & _ & ->)]; [apply capped_nth, H1|]. eexists. apply capped_last. }
  destruct Hs as (a1 & Hs), Hbb as (a2 & Hbb). pose proof (value_of _ _ _ _ _ _ _ _ _ _ _ Ev' Hbb Hs) as Vv.
  assert (Fv : exists a, v' = Fin a) by (rewrite Vv; destruct (_ && _); [cbn; eauto|]; destruct (mem_col _ _); eauto). destruct Fv as (p & ->).
  rewrite !firstn_map.
  assert (Q : forall l, map qty (map (cap_row P) l) = map w_qty l) by (intro l; rewrite map_map; reflexivity). rewrite !Q.
  destruct (qltb _ _); cbn [same_but_prices]; rewrite Q, !add_all_trans, !map_app; (split; [|exists (Fin p); reflexivity]); (rewrite (short_cap P _ v p), (long_cap P _ _ v p); reflexivity).
Qed.
