(** One bid sent as two: MUDA and the uniform price mechanism. *)
From Verif Require Import QcTac Num NumFacts ModelBase ModelCurves ModelHuang ModelMuda ModelUniform ListFacts StoreFacts Spec SpecTrade SpecMuda SpecHuang SpecAlloc SpecExact SpecMarket SpecSplit
  TradeFacts CurveFacts P2PTrades AllocFacts MudaSide MudaHalf MudaSolve MudaOutcome MudaFacts MudaTruth UniformFacts HuangFacts HuangTop UniformTop ExactFacts SplitFacts SplitMuda.

Section Net.
  Variables (S : sorter) (d : df) (fl : list bool) (tlL tlR : list trans) (pl pr : num) (f1 f2 : list Qc) (v : Z).
  Hypothesis Hn : forall x, In x d -> (0 <= user x)%Z.
  Hypothesis V0 : (0 <= v)%Z.
  Hypothesis M : MudaOk S d fl tlL tlR pl pr f1 f2.
  Let hl := rows_in (left_of d fl) d.
  Let hr := rows_in (right_of d fl) d.
  Lemma net_left : (forall x, In x d -> user x = v -> In (lbl x) (left_of d fl)) ->
    profit d v (tlL ++ tlR) - fee_of f2 v = profit hl v tlL - fee_of f1 v.
  Proof.
    intro Hh. rewrite (profit_split S d fl tlL tlR pl pr f1 f2 M v). fold hl hr.
    assert (Ar : forall r, In r hr -> user r <> v) by (intros r H E; apply rows_in_In in H; destruct H as [H1 H2]; exact (L_R d fl (lbl r) (Hh r H1 E) H2)).
    rewrite (absent_profit v hr tlR Ar), (absent_fee v hr pl f1 tlR f2); [ring | intros r H; apply Hn; apply rows_in_In in H; apply H | exact V0 | exact Ar | apply M].
  Qed.
  Lemma net_right : (forall x, In x d -> user x = v -> In (lbl x) (right_of d fl)) ->
    profit d v (tlL ++ tlR) - fee_of f2 v = profit hr v tlR - fee_of f2 v /\ fee_of f1 v = 0.
  Proof.
    intro Hh. rewrite (profit_split S d fl tlL tlR pl pr f1 f2 M v). fold hl hr.
    assert (Al : forall r, In r hl -> user r <> v) by (intros r H E; apply rows_in_In in H; destruct H as [H1 H2]; exact (L_R d fl (lbl r) H2 (Hh r H1 E))).
    rewrite (absent_profit v hl tlL Al). split; [ring|].
    rewrite (absent_fee v hl pr (zero_fees d) tlL f1); [apply fees_zero | intros r H; apply Hn; apply rows_in_In in H; apply H | exact V0 | exact Al | apply M].
  Qed.
End Net.

Section Muda.
  Variables (S : sorter) (l1 l2 l3 : df) (r x1 x2 : row) (fl fl' : list bool) (tm tm' : transmgr).
  Variables (L R L' R' : list nat) (pl pr pl' pr' : num) (fees fees' : list Qc).
  Let d := l1 ++ r :: l2 ++ l3.
  Let d' := l1 ++ x1 :: l2 ++ x2 :: l3.
  Hypothesis Hq : qty_nonneg d.
  Hypothesis Hu : labels_unique d.
  Hypothesis Hu' : labels_unique d'.
  Hypothesis Hn : forall x, In x d -> (0 <= user x)%Z.
  Hypothesis Hw : (0 <= user x2)%Z.
  Hypothesis Pc : pieces_of r [x1; x2].
  Hypothesis E1 : user x1 = user r.
  Hypothesis New : forall x, In x d -> user x <> user x2.
  Hypothesis E : muda S d fl = Ok (tm, XMuda L R pl pr fees).
  Hypothesis E' : muda S d' fl' = Ok (tm', XMuda L' R' pl' pr' fees').
  Hypothesis Same : forall x, In x (l1 ++ l2 ++ l3) -> (In (lbl x) L <-> In (lbl x) L').
  Hypothesis Own : (In (lbl x1) L' <-> In (lbl r) L) /\ (In (lbl x2) L' <-> In (lbl r) L).

  Lemma in_d x : In x d <-> x = r \/ In x (l1 ++ l2 ++ l3).
  Proof. unfold d. rewrite !in_app_iff. cbn [In]. rewrite !in_app_iff. intuition auto. Qed.
  Lemma in_d' x : In x d' <-> x = x1 \/ x = x2 \/ In x (l1 ++ l2 ++ l3).
  Proof. unfold d'. rewrite !in_app_iff. cbn [In]. rewrite !in_app_iff. cbn [In]. intuition auto. Qed.
  Lemma qty_d' : qty_nonneg d'.
  Proof.
    intros x Hx. apply in_d' in Hx. destruct Pc as (_ & A & _). destruct Hx as [->|[->|Hx]]; [apply Qclt_le_weak, A; left; reflexivity | apply Qclt_le_weak, A; right; left; reflexivity|].
    apply Hq, in_d. right. exact Hx.
  Qed.
  Lemma users_d' x : In x d' -> (0 <= user x)%Z.
  Proof. intro Hx. apply in_d' in Hx. destruct Hx as [->|[->|Hx]]; [rewrite E1; apply Hn, in_d; left; reflexivity | exact Hw | apply Hn, in_d; right; exact Hx]. Qed.
  Lemma mem_same x : In x (l1 ++ l2 ++ l3) -> existsb (Nat.eqb (lbl x)) L' = existsb (Nat.eqb (lbl x)) L.
  Proof. intro Hx. apply eq_iff_eq_true. rewrite !mem_In. symmetry. apply Same, Hx. Qed.
  Lemma mem_own : existsb (Nat.eqb (lbl x1)) L' = existsb (Nat.eqb (lbl r)) L /\ existsb (Nat.eqb (lbl x2)) L' = existsb (Nat.eqb (lbl r)) L.
  Proof. split; apply eq_iff_eq_true; rewrite !mem_In; apply Own. Qed.
  Lemma half_rows (P P' : row -> bool) : (forall x, In x (l1 ++ l2 ++ l3) -> P' x = P x) -> P' x1 = P r -> P' x2 = P r ->
    (P r = true -> exists o, Permutation (filter P d) (r :: o) /\ Permutation (filter P' d') (x1 :: x2 :: o)) /\ (P r = false -> filter P' d' = filter P d).
  Proof.
    intros H A B.
    assert (H1 : filter P' l1 = filter P l1) by (apply filter_ext_in; intros x Hx; apply H, in_or_app; left; exact Hx).
    assert (H2 : filter P' l2 = filter P l2) by (apply filter_ext_in; intros x Hx; apply H, in_or_app; right; apply in_or_app; left; exact Hx).
    assert (H3 : filter P' l3 = filter P l3) by (apply filter_ext_in; intros x Hx; apply H, in_or_app; right; apply in_or_app; right; exact Hx).
    unfold d, d'. rewrite !filter_app. cbn [filter]. rewrite !filter_app. cbn [filter]. rewrite A, B, H1, H2, H3. destruct (P r); (split; [intro X | intro X]); try discriminate X.
    - exists (filter P l1 ++ filter P l2 ++ filter P l3). split; [symmetry; apply Permutation_middle|].
      rewrite <- Permutation_middle. apply perm_skip. rewrite (app_assoc (filter P l1)), <- Permutation_middle, <- app_assoc. reflexivity.
    - reflexivity.
  Qed.

  Lemma muda_split_net : exists h h' p g g' tl tl' k k', 
    HalfRes h p g tl k /\ HalfRes h' p g' tl' k' /\ (exists o, Permutation h (r :: o) /\ Permutation h' (x1 :: x2 :: o)) /\
    labels_unique h /\ labels_unique h' /\ (forall x, In x h -> In x d) /\
    (forall v, (0 <= v)%Z -> (forall x, In x d -> user x = v -> (In (lbl x) L <-> In (lbl r) L)) ->
       profit d v (tm_trans tm) - fee_of fees v = profit h v tl - fee_of k v /\ fee_of g v = 0) /\
    (forall v, (0 <= v)%Z -> (forall x, In x d' -> user x = v -> (In (lbl x) L' <-> In (lbl r) L)) ->
       profit d' v (tm_trans tm') - fee_of fees' v = profit h' v tl' - fee_of k' v /\ fee_of g' v = 0).
  Proof.
    destruct (muda_ok S d fl tm _ Hq Hu E) as (tlL & tlR & pl1 & pr1 & f1 & f2 & M & Et & X). injection X as EL ER <- <- <-.
    destruct (muda_ok S d' fl' tm' _ qty_d' Hu' E') as (tlL' & tlR' & pl1' & pr1' & f1' & f2' & M' & Et' & X'). injection X' as EL' ER' <- <- <-.
    rewrite Et, Et'.
    destruct mem_own as [O1 O2].
    destruct (half_rows (fun x => existsb (Nat.eqb (lbl x)) L) (fun x => existsb (Nat.eqb (lbl x)) L') mem_same O1 O2) as [A1 A2].
    assert (Rm : forall x, In x d -> existsb (Nat.eqb (lbl x)) R = negb (existsb (Nat.eqb (lbl x)) L)) by (intros x Hx; rewrite ER, EL; apply right_mem, Hx).
    assert (Rm' : forall x, In x d' -> existsb (Nat.eqb (lbl x)) R' = negb (existsb (Nat.eqb (lbl x)) L')) by (intros x Hx; rewrite ER', EL'; apply right_mem, Hx).
    destruct (half_rows (fun x => existsb (Nat.eqb (lbl x)) R) (fun x => existsb (Nat.eqb (lbl x)) R')) as [B1 B2].
    { intros x Hx. rewrite Rm' by (apply in_d'; right; right; exact Hx). rewrite Rm by (apply in_d; right; exact Hx). f_equal. apply mem_same, Hx. }
    { rewrite Rm' by (apply in_d'; left; reflexivity). rewrite Rm by (apply in_d; left; reflexivity). f_equal. exact O1. }
    { rewrite Rm' by (apply in_d'; right; left; reflexivity). rewrite Rm by (apply in_d; left; reflexivity). f_equal. exact O2. }
    fold (rows_in L d) (rows_in L' d') in A1, A2. fold (rows_in R d) (rows_in R' d') in B1, B2.
    assert (Rr : existsb (Nat.eqb (lbl r)) R = negb (existsb (Nat.eqb (lbl r)) L)) by (apply Rm, in_d; left; reflexivity).
    pose proof M as [Mpl Mpr Ml Mr]. pose proof M' as [Mpl' Mpr' Ml' Mr']. rewrite <- EL, <- ER in *. rewrite <- EL', <- ER' in *.
    destruct (existsb (Nat.eqb (lbl r)) L) eqn:Er.
    - cbn [negb] in Rr. specialize (A1 eq_refl). specialize (B2 Rr). rewrite B2, Mpr in Mpr'. injection Mpr' as <-.
      assert (Ir : In (lbl r) L) by (apply mem_In, Er).
      exists (rows_in L d), (rows_in L' d'), pr, (zero_fees d), (zero_fees d'), tlL, tlL', f1, f1'.
      split; [exact Ml|]. split; [exact Ml'|]. split; [exact A1|]. split; [apply rows_in_unique, Hu|]. split; [apply rows_in_unique, Hu'|].
      split; [intros x Hx; apply rows_in_In in Hx; apply Hx|]. split.
      + intros v V0 Hv. split; [|apply fees_zero]. pose proof (net_left S d fl tlL tlR pl pr f1 fees v Hn V0 M) as K. rewrite <- EL in K. apply K. intros x Hx Ev. apply (Hv x Hx Ev), Ir.
      + intros v V0 Hv. split; [|apply fees_zero]. pose proof (net_left S d' fl' tlL' tlR' pl' pr f1' fees' v users_d' V0 M') as K. rewrite <- EL' in K. apply K. intros x Hx Ev. apply (Hv x Hx Ev), Ir.
    - cbn [negb] in Rr. specialize (B1 Rr). specialize (A2 eq_refl). rewrite A2, Mpl in Mpl'. injection Mpl' as <-.
      assert (Ir : ~ In (lbl r) L) by (intro I; apply mem_In in I; congruence).
      exists (rows_in R d), (rows_in R' d'), pl, f1, f1', tlR, tlR', fees, fees'.
      split; [exact Mr|]. split; [exact Mr'|]. split; [exact B1|]. split; [apply rows_in_unique, Hu|]. split; [apply rows_in_unique, Hu'|].
      split; [intros x Hx; apply rows_in_In in Hx; apply Hx|]. split.
      + intros v V0 Hv. pose proof (net_right S d fl tlL tlR pl pr f1 fees v Hn V0 M) as K. rewrite <- ER in K. apply K. intros x Hx Ev. apply mem_In. rewrite (Rm x Hx).
        apply negb_true_iff. destruct (existsb (Nat.eqb (lbl x)) L) eqn:Ex; [|reflexivity]. exfalso. apply Ir. apply (Hv x Hx Ev). apply mem_In, Ex.
      + intros v V0 Hv. pose proof (net_right S d' fl' tlL' tlR' pl pr' f1' fees' v users_d' V0 M') as K. rewrite <- ER' in K. apply K. intros x Hx Ev. apply mem_In. rewrite (Rm' x Hx).
        apply negb_true_iff. destruct (existsb (Nat.eqb (lbl x)) L') eqn:Ex; [|reflexivity]. exfalso. apply Ir. apply (Hv x Hx Ev). apply mem_In, Ex.
  Qed.

  Lemma stays v : v <> user r -> v <> user x2 -> (forall x, In x d -> user x = v -> (In (lbl x) L <-> In (lbl r) L)) -> forall x, In x d' -> user x = v -> (In (lbl x) L' <-> In (lbl r) L).
  Proof.
    intros V1 V2 Hv x Hx Ev. apply in_d' in Hx. destruct Hx as [->|[->|Hx]]; [congruence | congruence|]. rewrite <- (Same x Hx). apply Hv; [apply in_d; right; exact Hx | exact Ev].
  Qed.
  Theorem muda_names : (forall x, In x d -> user x = user r -> buying x = buying r /\ (In (lbl x) L <-> In (lbl r) L)) ->
    profit d' (user r) (tm_trans tm') - fee_of fees' (user r) + (profit d' (user x2) (tm_trans tm') - fee_of fees' (user x2)) <=
    profit d (user r) (tm_trans tm) - fee_of fees (user r).
  Proof.
    intro Hr. destruct muda_split_net as (h & h' & p & g & g' & tl & tl' & k & k' & R1 & R2 & (o & P1 & P2) & U1 & U2 & Sub & N & N').
    assert (Ir : In r d) by (apply in_d; left; reflexivity).
    destruct (N (user r) (Hn r Ir)) as [-> F]; [intros x Hx Ev; apply (Hr x Hx Ev)|].
    destruct (N' (user r) (Hn r Ir)) as [-> Fu].
    { intros x Hx Ev. apply in_d' in Hx. destruct Hx as [->|[->|Hx]]; [apply Own | apply Own|]. rewrite <- (Same x Hx). apply Hr; [apply in_d; right; exact Hx | exact Ev]. }
    destruct (N' (user x2) Hw) as [-> Fw].
    { intros x Hx Ev. apply in_d' in Hx. destruct Hx as [->|[->|Hx]]; [apply Own | apply Own|]. exfalso. apply (New x); [apply in_d; right; exact Hx | exact Ev]. }
    assert (Hh : forall x, In x h -> user x = user r -> buying x = buying r) by (intros x Hx Ev; apply (Hr x (Sub x Hx) Ev)).
    exact (two_names h h' p g g' tl tl' k k' r x1 x2 o (fun x Hx => Hq x (Sub x Hx)) U1 U2 (fun x Hx => Hn x (Sub x Hx)) Hw Pc E1 (fun x Hx => New x (Sub x Hx)) P1 P2 R1 R2 Hh F Fu Fw).
  Qed.
  Theorem muda_rest v b : (0 <= v)%Z -> v <> user r -> v <> user x2 -> (forall x, In x d -> user x = v -> buying x = b /\ (In (lbl x) L <-> In (lbl r) L)) ->
    profit d' v (tm_trans tm') - fee_of fees' v = profit d v (tm_trans tm) - fee_of fees v.
  Proof.
    intros V0 V1 V2 Hv. destruct muda_split_net as (h & h' & p & g & g' & tl & tl' & k & k' & R1 & R2 & (o & P1 & P2) & U1 & U2 & Sub & N & N').
    destruct (N v V0) as [-> F]; [intros x Hx Ev; apply (Hv x Hx Ev)|].
    destruct (N' v V0) as [-> F']; [apply stays; [exact V1 | exact V2 | intros x Hx Ev; apply (Hv x Hx Ev)]|].
    assert (Hh : forall x, In x h -> user x = v -> buying x = b) by (intros x Hx Ev; apply (Hv x (Sub x Hx) Ev)).
    exact (two_others h h' p g g' tl tl' k k' r x1 x2 o (fun x Hx => Hq x (Sub x Hx)) U1 U2 (fun x Hx => Hn x (Sub x Hx)) Hw Pc E1 P1 P2 R1 R2 v b V0 V1 V2 Hh F F').
  Qed.
End Muda.

(** ** The uniform price mechanism *)
Section Level.
  Variables (S : sorter) (d : df) (tm : transmgr) (c p : Qc).
  Hypothesis Hq : qty_pos d.
  Hypothesis Hp : price_nonneg d.
  Hypothesis Hu : labels_unique d.
  Hypothesis E : uniform_price_mechanism S d = Ok (tm, XUniform (Fin c) (Fin p)).
  Let Hn : qty_nonneg d := fun r H => Qclt_le_weak _ _ (Hq r H).
  Let tl := tm_trans tm.
  (** the rows of one side at one price *)
  Definition at_price (b : bool) (v : Qc) (e : df) : df := filter (fun x => Bool.eqb (buying x) b && qeqb (price x) v) e.

  Lemma uniform_levels : exists ps pb, Marginal d ps pb c /\
    (forall x, In x d -> buying x = true -> (pb < price x -> traded_by (lbl x) tl = qty x) /\ (price x < pb -> traded_by (lbl x) tl = 0)) /\
    (forall x, In x d -> buying x = false -> (price x < ps -> traded_by (lbl x) tl = qty x) /\ (ps < price x -> traded_by (lbl x) tl = 0)) /\
    qsumf (fun x => traded_by (lbl x) tl) (at_price true pb d) = c - demand_above d pb /\
    qsumf (fun x => traded_by (lbl x) tl) (at_price false ps d) = c - supply_below d ps.
  Proof.
    destruct (uniform_summary S d Hn Hp Hu tm _ E) as (c' & p' & X & _ & Bt & St & _ & Rf & Fe & _ & _ & B1 & rb & B2 & L1 & rs & L2 & EB & EL & Lp & C0 & Cr & Sf & Sg & B3 & B4 & L3 & L4 & T1 & T2 & T3 & T4).
    injection X as <- <-. fold tl in Bt, St, Rf, T1, T2, T3, T4.
    assert (P : 0 < c) by (apply (crossing_pos S d); [exact Hq | exact Cr | apply crossing_end; assumption]).
    assert (Irs : In rs d) by (apply (seller_row S d _ _ _ rs EL), in_or_app; right; left; reflexivity).
    assert (U' : 0 < price rb) by (specialize (Hp rs Irs); qlra).
    destruct (demand_step S d Hn _ _ _ P U' Sf) as [D1 D2]. destruct (supply_step S d Hn _ _ _ P Sg) as [D3 D4].
    assert (M : Marginal d (price rs) (price rb) c).
    { split; [exact P|]. split; [exact Lp|]. split; [exact D1|]. split; [exact D2|]. split; [exact D3|]. split; [exact D4|]. intro q. eapply crossing_max; eassumption. }
    exists (price rs), (price rb). split; [exact M|].
    assert (KB : forall x, In x d -> buying x = true -> (price rb < price x -> traded_by (lbl x) tl = qty x) /\ (price x < price rb -> traded_by (lbl x) tl = 0)).
    { intros x Hx Bx. assert (I : In x (B1 ++ rb :: B2)) by (rewrite <- EB; apply (Permutation_in _ (Permutation_sym (s_desc_perm S (buyers d)))), filter_In; auto).
      pose proof (s_desc_sorted S (buyers d)) as So. rewrite EB in So. destruct (sorted_app _ _ _ _ So) as (So1 & So2 & _). apply in_app_or in I. destruct I as [I|[<-|I]].
      - split; intro G; [apply T1; left; exact I|]. exfalso. pose proof (So1 x I) as Z; cbn beta in Z. qlra.
      - split; intro G; exfalso; qlra.
      - split; intro G; [|apply T4; left; exact I]. exfalso. pose proof (So2 x I) as Z; cbn beta in Z. qlra. }
    assert (KS : forall x, In x d -> buying x = false -> (price x < price rs -> traded_by (lbl x) tl = qty x) /\ (price rs < price x -> traded_by (lbl x) tl = 0)).
    { intros x Hx Bx. assert (I : In x (L1 ++ rs :: L2)) by (rewrite <- EL; apply (Permutation_in _ (Permutation_sym (s_asc_perm S (sellers d)))), (proj2 (filter_In _ _ _)); rewrite Bx; auto).
      pose proof (s_asc_sorted S (sellers d)) as So. rewrite EL in So. destruct (sorted_app _ _ _ _ So) as (So1 & So2 & _). apply in_app_or in I. destruct I as [I|[<-|I]].
      - split; intro G; [apply T1; right; exact I|]. exfalso. pose proof (So1 x I) as Z; cbn beta in Z. qlra.
      - split; intro G; exfalso; qlra.
      - split; intro G; [|apply T4; right; exact I]. exfalso. pose proof (So2 x I) as Z; cbn beta in Z. qlra. }
    split; [exact KB|]. split; [exact KS|]. split.
    - rewrite <- Bt at 1. rewrite (bought_by d tl Hu Rf). unfold at_price, all_b, demand_above. rewrite !qsumf_filter, <- qsumf_minus. apply qsumf_ext. intros x Hx.
      destruct (buying x) eqn:Bx; cbn [Bool.eqb andb]; [|ring]. destruct (KB x Hx Bx) as [K1 K2].
      destruct (qeq_spec (price x) (price rb)) as [Ex|Ex]; destruct (qlt_spec (price rb) (price x)) as [G|G]; try (exfalso; rewrite Ex in G; exact (Qclt_not_eq _ _ G eq_refl)); try ring.
      + rewrite (K1 G). ring.
      + rewrite K2; [ring|]. apply Qcle_lt_or_eq in G. destruct G as [G|G]; [exact G | contradiction].
    - rewrite <- St at 1. rewrite (sold_by d tl Hu Rf). unfold at_price, all_s, supply_below. rewrite !qsumf_filter, <- qsumf_minus. apply qsumf_ext. intros x Hx.
      destruct (buying x) eqn:Bx; cbn [Bool.eqb andb negb]; [ring|]. destruct (KS x Hx Bx) as [K1 K2].
      destruct (qeq_spec (price x) (price rs)) as [Ex|Ex]; destruct (qlt_spec (price x) (price rs)) as [G|G]; try (exfalso; rewrite Ex in G; exact (Qclt_not_eq _ _ G eq_refl)); try ring.
      + rewrite (K1 G). ring.
      + rewrite K2; [ring|]. apply Qcle_lt_or_eq in G. destruct G as [G|G]; [exact G | exfalso; apply Ex; symmetry; exact G].
  Qed.
End Level.
