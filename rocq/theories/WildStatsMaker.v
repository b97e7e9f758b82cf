(** The profit of the market maker with infinite and NaN prices, after the auctions. *)
From Verif Require Import QcTac Num NumFacts ListFacts ModelBase ModelHuang ModelMuda ModelMerge ModelMarket ModelStats ModelAny ModelWild ModelWildMuda ModelWildMarket ModelWildStats
  Spec SpecWild SpecWildMuda SpecWildMarket SpecWildStats UpdateFacts HuangFacts UnitFacts SepFacts MarketFacts MergeFacts WildSort WildCap WildTop WildMudaHalf WildMudaTop WildMarket WildMarketTop WildStats.

Definition money (tr : atrans Qc num * wrow) : num := nmul (x_price (fst tr)) (Fin (x_qty (fst tr))).
Definition of_side (b : bool) (tr : atrans Qc num * wrow) : bool := Bool.eqb (w_buying (snd tr)) b.
Lemma label_row d x : NoDup (map w_lbl d) -> In x d -> filter (fun r => Nat.eqb (w_lbl r) (w_lbl x)) d = [x].
Proof.
  intros N H. induction d as [|y d IH]; [contradiction|]. inversion N as [|? ? N1 N2]; subst. cbn [filter]. destruct H as [->|H].
  - rewrite Nat.eqb_refl. f_equal. apply filter_nil. intros r Hr. apply Nat.eqb_neq. intro C. apply N1. rewrite <- C. apply in_map, Hr.
  - destruct (Nat.eqb_spec (w_lbl y) (w_lbl x)) as [C|C]; [exfalso; apply N1; rewrite C; apply in_map, H | apply IH; assumption].
Qed.
Lemma side_of d h x b : NoDup (map w_lbl d) -> (forall y, In y h -> In y d) -> In x h ->
  existsb (fun y => Nat.eqb (w_lbl y) (w_lbl x) && Bool.eqb (w_buying y) b) h = Bool.eqb (w_buying x) b.
Proof.
  intros N Hh Hx. destruct (existsb _ h) eqn:E.
  - apply existsb_exists in E. destruct E as (y & Hy & E). apply andb_true_iff in E. destruct E as [E1 E2]. apply Nat.eqb_eq in E1. rewrite (unique_row d y x) in E2; auto.
  - symmetry. apply not_true_is_false. intro C. apply not_true_iff_false in E. apply E. apply existsb_exists. exists x. rewrite Nat.eqb_refl. auto.
Qed.
Lemma side_paid d h p b l : NoDup (map w_lbl d) -> (forall y, In y h -> In y d) -> (forall t, In t l -> x_price t = Fin p /\ exists x, In x h /\ w_lbl x = x_bid t) ->
  forall a, fold_left nadd (map money (filter (of_side b) (w_join l d))) (Fin a) = Fin (a + p * w_moved b h l).
Proof.
  intros N Hh. unfold w_moved. induction l as [|t l IH]; intros H a.
  - cbn. f_equal. ring.
  - destruct (H t (or_introl eq_refl)) as (Ep & x & Hx & Lx). specialize (IH (fun u Hu => H u (or_intror Hu))).
    unfold w_join. cbn [flat_map]. fold (w_join l d). rewrite <- Lx, (label_row d x N (Hh x Hx)). cbn [map app filter]. rewrite <- Lx, (side_of d h x b N Hh Hx).
    unfold of_side at 1. cbn [snd]. destruct (Bool.eqb (w_buying x) b).
    + cbn [map fold_left]. unfold money at 2. cbn [fst]. rewrite Ep. cbn [nmul nadd]. rewrite IH, qsumf_cons. f_equal. ring.
    + apply IH.
Qed.
Lemma join_app l1 l2 d : w_join (l1 ++ l2) d = w_join l1 d ++ w_join l2 d.
Proof. unfold w_join. apply flat_map_app. Qed.
(** two groups of transactions, each at its own price *)
Lemma two_prices d h1 h2 p1 p2 l1 l2 fees : NoDup (map w_lbl d) -> (forall y, In y h1 -> In y d) -> (forall y, In y h2 -> In y d) ->
  (forall t, In t l1 -> x_price t = Fin p1 /\ exists x, In x h1 /\ w_lbl x = x_bid t) -> (forall t, In t l2 -> x_price t = Fin p2 /\ exists x, In x h2 /\ w_lbl x = x_bid t) ->
  w_market d (l1 ++ l2) fees = nadd (Fin (p1 * (w_moved true h1 l1 - w_moved false h1 l1) + p2 * (w_moved true h2 l2 - w_moved false h2 l2))) (nsum fees).
Proof.
  intros N H1 H2 T1 T2. unfold w_market. cbv zeta.
  assert (K : forall b, nsum (map money (filter (of_side b) (w_join (l1 ++ l2) d))) = Fin (p1 * w_moved b h1 l1 + p2 * w_moved b h2 l2)).
  { intro b. unfold nsum. rewrite join_app, filter_app, map_app, fold_left_app, (side_paid d h1 p1 b l1 N H1 T1), (side_paid d h2 p2 b l2 N H2 T2). f_equal. ring. }
  pose proof (K true) as K1. pose proof (K false) as K2. unfold money, of_side in K1, K2. rewrite K1, K2. f_equal. cbn [nsub nadd nopp]. f_equal. ring.
Qed.

(** ** MUDA at finite prices: only the fees stay *)
Theorem muda_maker S d fl ts e pl pr : w_qty_nonneg d -> NoDup (map w_lbl d) -> w_muda S d fl = Ok (ts, e) -> e_price_left e = Fin pl -> e_price_right e = Fin pr ->
  w_market d ts (e_fees e) = nsum (e_fees e) /\ fee_like (w_market d ts (e_fees e)).
Proof.
  intros Hq N E El Er. destruct (w_muda_fair S d fl ts e Hq N E) as (_ & _ & _ & (tl & tr & -> & Hl & Hr) & _ & Ff). rewrite El in Hr. rewrite Er in Hl.
  assert (R : forall s y, In y (w_rows_in s d) -> In y d) by (intros s y Hy; apply filter_In in Hy; apply Hy).
  assert (M : w_market d (tl ++ tr) (e_fees e) = nsum (e_fees e)).
  { rewrite (two_prices d (w_rows_in (e_left e) d) (w_rows_in (e_right e) d) pr pl tl tr (e_fees e) N (R _) (R _)).
    - rewrite !(hf_volume _ _ _ Hl), !(hf_volume _ _ _ Hr). match goal with |- nadd (Fin ?a) _ = _ => replace a with 0 by ring end. destruct (nsum (e_fees e)); cbn; try reflexivity. f_equal. ring.
    - intros t Ht. destruct (hf_trans _ _ _ Hl t Ht) as (A & _ & _ & _ & x & Hx & Lx & _). eauto.
    - intros t Ht. destruct (hf_trans _ _ _ Hr t Ht) as (A & _ & _ & _ & x & Hx & Lx & _). eauto. }
  split; [exact M|]. rewrite M. unfold nsum. assert (G : forall l a, Forall fee_like l -> fee_like a -> fee_like (fold_left nadd l a)).
  { induction l as [|x l IH]; intros a F Ha; [exact Ha|]. inversion F as [|? ? Fx Fl]; subst. apply IH; [exact Fl|].
    destruct Ha as [->|(q & -> & Hq0)], Fx as [->|(r & -> & Hr0)]; cbn [nadd]; try (left; reflexivity). right. eexists. split; [reflexivity|]. qlra. }
  apply G; [exact Ff|]. right. exists 0. split; [reflexivity | qlra].
Qed.

(** ** [Market.run('huang')] *)
Section Run.
  Variable S : wsorter.
  Variable smp : nat -> nat.
  Variable cnt : Z.
  Variable d : wdf.
  Hypothesis HP : w_positions d.
  Hypothesis Hq : w_qty_pos d.
  Hypothesis Hb : priced true d.
  Hypothesis Hs : priced false d.
  Lemma split_price mp l l' p : w_split d mp l = Ok l' -> (forall t, In t l -> x_price t = p) -> forall t, In t l' -> x_price t = p.
  Proof.
    revert l'. induction l as [|t l IH]; intros l' E H; cbn [w_split] in E; [injection E as <-; intros t []|].
    destruct (w_split_one d mp t) as [a|e] eqn:Ea; [|discriminate]. cbn [bind] in E. destruct (w_split d mp l) as [c|e] eqn:Ec; [|discriminate]. cbn [bind] in E. injection E as <-.
    intros u Hu. apply in_app_or in Hu. destruct Hu as [Hu|Hu]; [|apply (IH c); auto; intros v Hv; apply H; right; exact Hv].
    rewrite <- (H t (or_introl eq_refl)). unfold w_split_one in Ea. destruct (nth_error mp (x_bid t)) as [ls|]; [|discriminate]. destruct (w_iloc d ls) as [rs|e]; [|discriminate]. cbn [bind] in Ea.
    cbv zeta in Ea. destruct (qeqb _ _); [destruct ls; [injection Ea as <-; contradiction | discriminate]|]. injection Ea as <-. apply in_map_iff in Hu. destruct Hu as ([i r] & <- & _). reflexivity.
  Qed.
  (** after merging the prices of the buyers differ, so that the price that buyers pay is finite *)
  Theorem run_prices : (forall x, In x d -> w_buying x = false -> nltb (w_price x) (Fin 0) = false) ->
    exists ss bs e ps pb, w_run_huang S smp cnt d = Ok (ss ++ bs, e) /\ qsumf x_qty ss = qsumf x_qty bs /\ ps < pb /\
      (forall t, In t ss -> part_ok d false t /\ x_price t = Fin ps) /\ (forall t, In t bs -> part_ok d true t /\ x_price t = Fin pb).
  Proof.
    intro Hpr. destruct (run_is S smp cnt d Hb Hs) as (mb & ms & Fb & Fs & Lb & _ & _ & ->).
    assert (Hq' : w_qty_nonneg (map fst (mb ++ ms))) by (intros x Hx; apply Qclt_le_weak, (m_qty_pos d mb ms Fb Fs Hq x Hx)).
    assert (Hpr' : forall r, In r (map fst (mb ++ ms)) -> w_buying r = false -> nltb (w_price r) (Fin 0) = false).
    { intros r Hr Br. destruct (m_row_in mb ms r Hr) as (i & E1 & rows & E2). destruct (m_row d mb ms Fb Fs i r rows E1 E2) as (rs & _ & Ne & Hin & _).
      destruct rs as [|x rs]; [congruence|]. destruct (Hin x (or_introl eq_refl)) as (I1 & I2 & I3). rewrite <- I3. apply round_nonneg, Hpr; [exact I1 | congruence]. }
    destruct (w_no_error S _ Hq') as (ts & e & E). pose proof (w_cases S _ Hq') as WC. rewrite E in WC.
    assert (Triv : ts = [] -> exists ss bs e0 ps pb, ('(ts0, ex) <- w_huang S (map fst (mb ++ ms)) ;; ts' <- w_split d (map snd (mb ++ ms)) ts0 ;; Ok (ts', ex)) = Ok (ss ++ bs, e0) /\
      qsumf x_qty ss = qsumf x_qty bs /\ ps < pb /\ (forall t, In t ss -> part_ok d false t /\ x_price t = Fin ps) /\ (forall t, In t bs -> part_ok d true t /\ x_price t = Fin pb)).
    { intros ->. rewrite E. cbn. exists [], [], e, 0, 1. split; [reflexivity|]. split; [reflexivity|]. split; [qlra|]. split; intros t []. }
    destruct WC as [C|(B1 & B2 & L1 & rs & L2 & pb & q & ts' & EB & EL & Nx & Lt & C & D)]; [injection C as -> _; apply Triv; reflexivity|].
    injection C as -> Ee. destruct D as [(_ & D & _)|(qs & qb & Rs & Rb & S1 & S2 & _ & ->)]; [apply Triv, D|]. clear Triv.
    assert (QB : forall x, In x (B1 ++ B2) -> In x (map fst (mb ++ ms)) /\ w_buying x = true) by (intros x Hx; apply (in_B S (map fst (mb ++ ms))); rewrite EB; exact Hx).
    assert (QL : forall x, In x (L1 ++ rs :: L2) -> In x (map fst (mb ++ ms)) /\ w_buying x = false) by (intros x Hx; apply (in_L S (map fst (mb ++ ms))); rewrite EL; exact Hx).
    destruct (QL rs) as [Irs Brs]; [apply in_or_app; right; left; reflexivity|]. specialize (Hpr' rs Irs Brs) as Nn.
    assert (A1 : forall x, In x L1 -> nle (w_price x) (w_price rs)).
    { intros x Hx. pose proof (w_asc_sorted S (w_sellers (map fst (mb ++ ms)))) as So. rewrite EL in So. destruct (proj2 (proj2 (sorted_app2 _ _ _ So)) x rs Hx (or_introl eq_refl)) as [N|N]; [|exact N].
      rewrite N in Lt. destruct pb; discriminate. }
    assert (A2 : forall x, In x B1 -> nle pb (w_price x)).
    { intros x Hx. pose proof (w_desc_sorted S (w_buyers (map fst (mb ++ ms)))) as So. rewrite EB in So. unfold next_price in Nx. destruct B2 as [|rb B2].
      - rewrite Nx in Lt. unfold nlt in Lt. rewrite Nn in Lt. discriminate.
      - destruct (proj2 (proj2 (sorted_app2 _ _ _ So)) x rb Hx (or_introl eq_refl)) as [N|N]; [|rewrite Nx; exact N]. rewrite Nx, N in Lt. destruct (w_price rs); discriminate. }
    destruct (split_side d HP Hq mb ms false (w_emit L1 qs (w_price rs)) Fb Fs Lb) as (ss' & E1 & Q1 & P1).
    { intros t Ht. destruct (w_emit_in _ _ _ _ Rs Ht) as (x & Hx & I1 & I2 & I3 & I4); [intros x Hx; apply Hq', QL, in_or_app; auto|].
      destruct (QL x) as [J1 J2]; [apply in_or_app; auto|]. exists x. repeat (split; [assumption|]). unfold respects. rewrite J2, I4. apply A1, Hx. }
    destruct (split_side d HP Hq mb ms true (w_emit B1 qb pb) Fb Fs Lb) as (bs' & E2 & Q2 & P2).
    { intros t Ht. destruct (w_emit_in _ _ _ _ Rb Ht) as (x & Hx & I1 & I2 & I3 & I4); [intros x Hx; apply Hq', QB, in_or_app; auto|].
      destruct (QB x) as [J1 J2]; [apply in_or_app; auto|]. exists x. repeat (split; [assumption|]). unfold respects. rewrite J2, I4. apply A2, Hx. }
    assert (R1 := split_price _ _ _ (w_price rs) E1). assert (R2 := split_price _ _ _ pb E2).
    assert (R1' : forall t, In t ss' -> x_price t = w_price rs) by (apply R1; intros t Ht; unfold w_emit in Ht; apply in_map_iff in Ht; destruct Ht as (? & <- & _); reflexivity).
    assert (R2' : forall t, In t bs' -> x_price t = pb) by (apply R2; intros t Ht; unfold w_emit in Ht; apply in_map_iff in Ht; destruct Ht as (? & <- & _); reflexivity).
    assert (Sum : qsumf x_qty ss' = qsumf x_qty bs').
    { rewrite Q1, Q2, !w_emit_sum by (rewrite (rationed_length _ _ Rs) || rewrite (rationed_length _ _ Rb); apply map_length). congruence. }
    rewrite E. cbn [bind]. rewrite (w_split_app _ _ _ _ _ _ E1 E2). cbn [bind].
    assert (Fps : exists ps, w_price rs = Fin ps) by (unfold nlt in Lt; destruct (w_price rs) as [v| | |], pb; try discriminate; eauto; discriminate Nn).
    destruct Fps as (ps & Eps). rewrite Eps in *.
    destruct B1 as [|b1 B1].
    { assert (Z : bs' = []) by (cbn in E2; congruence). subst bs'. exists ss', [], e, ps, (ps + 1). split; [reflexivity|]. split; [exact Sum|]. split; [qlra|]. split; [auto | intros t []]. }
    assert (Fpb : exists p, pb = Fin p).
    { destruct pb as [p| | |]; [eauto| |discriminate Lt|discriminate Lt]. exfalso. destruct B2 as [|rb B2]; [discriminate Nx|]. unfold next_price in Nx.
      specialize (A2 b1 (or_introl eq_refl)). assert (Eb : w_price b1 = PInf) by (destruct (w_price b1); cbn in A2; try discriminate; reflexivity).
      assert (ND : NoDup (map w_price (w_desc S (w_buyers (map fst (mb ++ ms)))))).
      { apply (Permutation_NoDup (l := map w_price (w_buyers (map fst (mb ++ ms))))); [apply Permutation_sym, Permutation_map, w_desc_perm|].
        rewrite (m_buyers d mb ms Fb Fs). replace (map w_price (map fst mb)) with (w_side_keys 5 (w_buyers d)); [apply n_keys_NoDup|].
        clear - Fb. induction Fb as [|k rm ks l (A & _) F IH]; [reflexivity|]. cbn. rewrite A, IH. reflexivity. }
      rewrite EB in ND. cbn [map app] in ND. inversion ND as [|? ? ND1 _]; subst. apply ND1. rewrite Eb, Nx, map_app. apply in_or_app. right. left. reflexivity. }
    destruct Fpb as (p & ->). exists ss', bs', e, ps, p. split; [reflexivity|]. split; [exact Sum|]. split; [unfold nlt in Lt; cbn in Lt; apply qltb_lt; exact Lt|]. auto.
  Qed.
  Lemma moved_side b l : (forall t, In t l -> part_ok d b t) -> w_moved b d l = qsumf x_qty l /\ w_moved (negb b) d l = 0.
  Proof.
    intro H. assert (N : NoDup (map w_lbl d)) by (rewrite HP; apply seq_NoDup). unfold w_moved.
    assert (K : forall c t, In t l -> existsb (fun x => Nat.eqb (w_lbl x) (x_bid t) && Bool.eqb (w_buying x) c) d = Bool.eqb b c).
    { intros c t Ht. destruct (H t Ht) as (x & Hx & Bx & Lx & _). rewrite Lx, (side_of d d x c N (fun y Hy => Hy) Hx), Bx. reflexivity. }
    split; [rewrite filter_all | rewrite filter_nil]; try reflexivity; intros t Ht; rewrite K by exact Ht; destruct b; reflexivity.
  Qed.
  Theorem huang_maker rp ts e : (forall x, In x d -> w_buying x = false -> nltb (w_price x) (Fin 0) = false) -> w_run_huang S smp cnt d = Ok (ts, e) ->
    forall p, w_profits d ts rp None = Ok p -> exists q, wp_market p = Fin q /\ 0 <= q.
  Proof.
    intros Hn E p Ep. destruct (run_prices Hn) as (ss & bs & e' & ps & pb & E' & Sum & Lt & Hss & Hbs). rewrite E' in E. injection E as <- <-.
    assert (N : NoDup (map w_lbl d)) by (rewrite HP; apply seq_NoDup).
    unfold w_profits in Ep. cbv zeta in Ep. destruct (w_join (ss ++ bs) d) as [|j js]; [discriminate|]. injection Ep as <-. cbn [wp_market].
    rewrite (two_prices d d d ps pb ss bs _ N (fun y Hy => Hy) (fun y Hy => Hy)).
    2:{ intros t Ht. destruct (Hss t Ht) as ((x & Hx & _ & Lx & _) & Pt). split; [exact Pt|]. exists x. auto. }
    2:{ intros t Ht. destruct (Hbs t Ht) as ((x & Hx & _ & Lx & _) & Pt). split; [exact Pt|]. exists x. auto. }
    destruct (moved_side false ss (fun t Ht => proj1 (Hss t Ht))) as [-> M1]. destruct (moved_side true bs (fun t Ht => proj1 (Hbs t Ht))) as [-> M2]. cbn [negb] in M1, M2. rewrite M1, M2, Sum.
    assert (Z : forall n, nsum (repeat (Fin 0) n) = Fin 0).
    { intro n. unfold nsum. induction n as [|n IH]; [reflexivity|]. cbn [repeat fold_left nadd]. rewrite Qcplus_0_l. exact IH. }
    rewrite Z. cbn [nadd]. eexists. split; [reflexivity|].
    assert (V : 0 <= qsumf x_qty bs) by (apply qsumf_nonneg; intros t Ht; destruct (Hbs t Ht) as ((x & _ & _ & _ & Q & _) & _); exact Q).
    assert (W : 0 <= (pb - ps) * qsumf x_qty bs) by (apply qmult_nonneg; [qlra | exact V]).
    match goal with |- 0 <= ?a => replace a with ((pb - ps) * qsumf x_qty bs) by ring end. exact W.
  Qed.
End Run.
