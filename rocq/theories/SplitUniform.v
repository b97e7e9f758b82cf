(** One bid sent as several: the uniform price mechanism. *)
From Verif Require Import QcTac Num NumFacts ModelBase ModelCurves ModelHuang ModelMuda ModelUniform ListFacts StoreFacts Spec SpecTrade SpecMuda SpecHuang SpecAlloc SpecExact SpecMarket SpecSplit
  TradeFacts CurveFacts IntersectFacts MudaPrice CurveTop P2PTrades AllocFacts UniformFacts HuangFacts HuangTop UniformTop PriceExact ExactFacts SplitFacts SplitTop.

(** ** end points of the curves inside a price level with one bid *)
Section Ends.
  Variables (S : sorter) (d : df).
  Hypothesis Hq : qty_pos d.
  Hypothesis Hu : labels_unique d.
  Notation f := (fst (demand_curve_from_bids S d)).
  Notation g := (fst (supply_curve_from_bids S d)).
  Definition one_at (b : bool) (v : Qc) (e : df) : Prop := forall x y, In x e -> In y e -> buying x = b -> buying y = b -> price x = v -> price y = v -> x = y.
  Lemma sum_keep_le (P : row -> bool) l : (forall y, In y l -> 0 <= qty y) -> qsumf qty (filter P l) <= qsumf qty l.
  Proof.
    intro H. rewrite (qsumf_filter_split qty P l). assert (0 <= qsumf qty (filter (fun x => negb (P x)) l)); [|qlra].
    apply qsumf_nonneg. intros x Hx. apply filter_In in Hx. apply H, Hx.
  Qed.
  Lemma f_end_one c p : one_at true p d -> is_end f (Fin c) -> demand_above d p < c -> c <= demand_at d p -> c = demand_at d p.
  Proof.
    intros One (v & I) D1 D2. unfold demand_curve_from_bids in I. simpl fst in I. rewrite curve_rows_crows in I.
    apply in_app_or in I. destruct I as [I|[I|[]]]; [|discriminate I].
    set (l := s_desc S (buyers d)) in *. apply crows_split in I. destruct I as (l1 & r & l2 & E & Ec & _).
    assert (Hs : StronglySorted (fun a b => price b <= price a) l) by apply s_desc_sorted.
    assert (Nd : NoDup l).
    { apply (Permutation_NoDup (Permutation_sym (s_desc_perm S (buyers d)))), NoDup_filter, (NoDup_map_inv lbl), Hu. }
    assert (Hin : forall y, In y l -> In y d /\ buying y = true) by (intros y Hy; apply (desc_in S d) in Hy; exact Hy).
    assert (Hin0 : forall y, In y l -> 0 <= qty y) by (intros y Hy; apply Qclt_le_weak, Hq, Hin, Hy).
    assert (Qr : 0 < qty r) by (apply Hq, Hin; rewrite E; apply in_or_app; right; left; reflexivity).
    assert (Ir : In r l) by (rewrite E; apply in_or_app; right; left; reflexivity).
    unfold demand_above in D1. unfold demand_at in *. rewrite (demand_filter S d) in D1, D2 |- *. fold l in D1, D2 |- *.
    rewrite E in Hs, Nd, D1, D2, Hin0 |- *. destruct (sorted_app _ _ _ _ Hs) as (A1 & A2 & _).
    rewrite filter_app, qsumf_app in D1, D2 |- *. cbn [filter] in D1, D2 |- *.
    assert (N1 : forall y, In y l1 -> 0 <= qty y) by (intros y Hy; apply Hin0, in_or_app; auto).
    assert (N2 : forall y, In y l2 -> 0 <= qty y) by (intros y Hy; apply Hin0, in_or_app; right; right; exact Hy).
    assert (Pr : price r = p).
    { destruct (qlt_spec p (price r)) as [G|G].
      - exfalso. rewrite (filter_all (fun y => qltb p (price y)) l1), qsumf_cons in D1 by (intros y Hy; apply qltb_lt; pose proof (A1 y Hy) as Z; cbn beta in Z; qlra).
        assert (0 <= qsumf qty (filter (fun y => qltb p (price y)) l2)) by (apply qsumf_nonneg; intros y Hy; apply filter_In in Hy; apply N2, Hy). qlra.
      - destruct (qle_spec p (price r)) as [G'|G']; [apply Qcle_antisym; assumption|].
        exfalso. rewrite (filter_none (fun y => qleb p (price y)) l2), qsumf_nil in D2 by (intros y Hy; apply qleb_gt; pose proof (A2 y Hy) as Z; cbn beta in Z; qlra).
        pose proof (sum_keep_le (fun y => qleb p (price y)) l1 N1). qlra. }
    destruct (qle_spec p (price r)) as [G|G]; [|exfalso; qlra].
    rewrite (filter_all (fun y => qleb p (price y)) l1) by (intros y Hy; apply qleb_le; pose proof (A1 y Hy) as Z; cbn beta in Z; qlra).
    rewrite (filter_none (fun y => qleb p (price y)) l2), qsumf_cons, qsumf_nil; [rewrite Ec; ring|].
    intros y Hy. apply qleb_gt. pose proof (A2 y Hy) as Z. cbn beta in Z. destruct (qlt_spec (price y) p) as [K|K]; [exact K|]. exfalso.
    assert (Iy : In y l) by (rewrite E; apply in_or_app; right; right; exact Hy).
    apply (NoDup_after _ _ _ Nd). replace r with y; [exact Hy|]. apply One; try (apply Hin; assumption); [apply Qcle_antisym; [qlra | exact K] | exact Pr].
  Qed.
  Lemma g_end_one c p : one_at false p d -> is_end g (Fin c) -> supply_below d p < c -> c <= supply_at d p -> c = supply_at d p.
  Proof.
    intros One (v & I) D1 D2. unfold supply_curve_from_bids in I. simpl fst in I. rewrite curve_rows_crows in I.
    apply in_app_or in I. destruct I as [I|[I|[]]]; [|discriminate I].
    set (l := s_asc S (sellers d)) in *. apply crows_split in I. destruct I as (l1 & r & l2 & E & Ec & _).
    assert (Hs : StronglySorted (fun a b => price a <= price b) l) by apply s_asc_sorted.
    assert (Nd : NoDup l).
    { apply (Permutation_NoDup (Permutation_sym (s_asc_perm S (sellers d)))), NoDup_filter, (NoDup_map_inv lbl), Hu. }
    assert (Hin : forall y, In y l -> In y d /\ buying y = false) by (intros y Hy; apply (asc_in S d) in Hy; exact Hy).
    assert (Hin0 : forall y, In y l -> 0 <= qty y) by (intros y Hy; apply Qclt_le_weak, Hq, Hin, Hy).
    assert (Qr : 0 < qty r) by (apply Hq, Hin; rewrite E; apply in_or_app; right; left; reflexivity).
    assert (Ir : In r l) by (rewrite E; apply in_or_app; right; left; reflexivity).
    unfold supply_below in D1. unfold supply_at in *. rewrite (supply_filter S d) in D1, D2 |- *. fold l in D1, D2 |- *.
    rewrite E in Hs, Nd, D1, D2, Hin0 |- *. destruct (sorted_app _ _ _ _ Hs) as (A1 & A2 & _).
    rewrite filter_app, qsumf_app in D1, D2 |- *. cbn [filter] in D1, D2 |- *.
    assert (N1 : forall y, In y l1 -> 0 <= qty y) by (intros y Hy; apply Hin0, in_or_app; auto).
    assert (N2 : forall y, In y l2 -> 0 <= qty y) by (intros y Hy; apply Hin0, in_or_app; right; right; exact Hy).
    assert (Pr : price r = p).
    { destruct (qlt_spec (price r) p) as [G|G].
      - exfalso. rewrite (filter_all (fun y => qltb (price y) p) l1), qsumf_cons in D1 by (intros y Hy; apply qltb_lt; pose proof (A1 y Hy) as Z; cbn beta in Z; qlra).
        assert (0 <= qsumf qty (filter (fun y => qltb (price y) p) l2)) by (apply qsumf_nonneg; intros y Hy; apply filter_In in Hy; apply N2, Hy). qlra.
      - destruct (qle_spec (price r) p) as [G'|G']; [apply Qcle_antisym; assumption|].
        exfalso. rewrite (filter_none (fun y => qleb (price y) p) l2), qsumf_nil in D2 by (intros y Hy; apply qleb_gt; pose proof (A2 y Hy) as Z; cbn beta in Z; qlra).
        pose proof (sum_keep_le (fun y => qleb (price y) p) l1 N1). qlra. }
    destruct (qle_spec (price r) p) as [G|G]; [|exfalso; qlra].
    rewrite (filter_all (fun y => qleb (price y) p) l1) by (intros y Hy; apply qleb_le; pose proof (A1 y Hy) as Z; cbn beta in Z; qlra).
    rewrite (filter_none (fun y => qleb (price y) p) l2), qsumf_cons, qsumf_nil; [rewrite Ec; ring|].
    intros y Hy. apply qleb_gt. pose proof (A2 y Hy) as Z. cbn beta in Z. destruct (qlt_spec p (price y)) as [K|K]; [exact K|]. exfalso.
    assert (Iy : In y l) by (rewrite E; apply in_or_app; right; right; exact Hy).
    apply (NoDup_after _ _ _ Nd). replace r with y; [exact Hy|]. apply One; try (apply Hin; assumption); [apply Qcle_antisym; [exact K | qlra] | exact Pr].
  Qed.
  (** the price when the marginal bid of one side is served in part and alone at its price *)
  Hypothesis Hp : price_nonneg d.
  Hypothesis Ha : asks_pos d.
  Let Hn : qty_nonneg d := fun r H => Qclt_le_weak _ _ (Hq r H).
  Lemma price_one ps pb c : Marginal d ps pb c ->
    (one_at false ps d -> c < supply_at d ps -> find_competitive_price S d = Ok (Fin ps)) /\
    (one_at true pb d -> c < demand_at d pb -> find_competitive_price S d = Ok (Fin pb)).
  Proof.
    intro M. destruct (price_at_marginal S d Hq Hp Ha ps pb c M) as (i & j & v & E & F & G & P).
    destruct (ordinate_exact _ _ (qf 1 2) (Fin c) i j pb ps v (demand_nonempty S d) (supply_nonempty S d)
      (demand_ends S d Hn) (supply_ends S d Hn) (demand_decreasing S d Hp) (supply_increasing S d) E F G) as (O1 & O2 & O3).
    destruct (marginal_crossing S d Hn Hp ps pb c Ha M) as (Cr & _). pose proof (crossing_end S d Hn Hp (Fin c) Cr) as CE.
    destruct M as (C0 & L & D1 & D2 & D3 & D4 & _). rewrite P. split; intros Hd Lt.
    - assert (Ng : ~ is_end g (Fin c)) by (intro X; pose proof (g_end_one c ps Hd X D3 D4); qlra).
      destruct CE as [CE|CE]; [|contradiction]. rewrite O2; auto.
    - assert (Nf : ~ is_end f (Fin c)) by (intro X; pose proof (f_end_one c pb Hd X D1 D2); qlra).
      destruct CE as [CE|CE]; [contradiction|]. rewrite O3; auto.
  Qed.
End Ends.

(** ** a bid and its pieces *)
Lemma filter_single (P : row -> bool) y o : NoDup o -> In y o -> P y = true -> (forall x, In x o -> P x = true -> x = y) -> filter P o = [y].
Proof.
  intros N Hy Py H. induction N as [|a o Na N IH]; [destruct Hy|]. cbn [filter]. destruct Hy as [->|Hy].
  - rewrite Py. f_equal. apply filter_none. intros x Hx. destruct (P x) eqn:E; [|reflexivity]. exfalso. apply Na. rewrite <- (H x (or_intror Hx) E). exact Hx.
  - destruct (P a) eqn:E; [exfalso; apply Na; rewrite (H a (or_introl eq_refl) E); exact Hy|]. apply IH; [exact Hy|]. intros x Hx. apply H. right; exact Hx.
Qed.
Section Pieces.
  Variables (S S' : sorter) (d d' : df) (r : row) (l o : df).
  Hypothesis Hq : qty_pos d.
  Hypothesis Hp : price_nonneg d.
  Hypothesis Hu : labels_unique d.
  Hypothesis Hu' : labels_unique d'.
  Hypothesis Hd : prices_distinct d.
  Hypothesis Pc : pieces_of r l.
  Hypothesis P1 : Permutation d (r :: o).
  Hypothesis P2 : Permutation d' (l ++ o).
  Let Hn : qty_nonneg d := fun r H => Qclt_le_weak _ _ (Hq r H).
  Lemma in_d1 x : In x d <-> x = r \/ In x o.
  Proof. split; intro H; [apply (Permutation_in _ P1) in H; destruct H; auto | apply (Permutation_in _ (Permutation_sym P1)); destruct H as [->|H]; [left; reflexivity | right; exact H]]. Qed.
  Lemma in_d2 x : In x d' <-> In x l \/ In x o.
  Proof. split; intro H; [apply (Permutation_in _ P2), in_app_or in H; exact H | apply (Permutation_in _ (Permutation_sym P2)), in_or_app; exact H]. Qed.
  Lemma piece x : In x l -> 0 < qty x /\ price x = price r /\ buying x = buying r.
  Proof. apply (proj1 (proj2 Pc)). Qed.
  Lemma Hq' : qty_pos d'.
  Proof. intros x Hx. apply in_d2 in Hx. destruct Hx as [Hx|Hx]; [apply piece, Hx | apply Hq, in_d1; auto]. Qed.
  Lemma Hp' : price_nonneg d'.
  Proof. intros x Hx. apply in_d2 in Hx. destruct Hx as [Hx|Hx]; [destruct (piece x Hx) as (_ & -> & _); apply Hp, in_d1; auto | apply Hp, in_d1; auto]. Qed.
  Lemma cut_d : cut (map user (r :: l)) d d'.
  Proof. right. exists r, l, o. split; [exact Pc|]. split; [intros x Hx; apply in_map, Hx|]. split; assumption. Qed.
  Lemma Hn' : qty_nonneg d'. Proof. intros x Hx. apply Qclt_le_weak, Hq', Hx. Qed.
  Lemma one_d b v : one_at b v d.
  Proof.
    intros x y Hx Hy Bx By Ex Ey. destruct Hd as [D1 D2]. destruct b.
    - apply (NoDup_map_in price (filter buying d)); [exact D1 | apply filter_In; auto | apply filter_In; auto | congruence].
    - apply (NoDup_map_in price (filter (fun r => negb (buying r)) d)); [exact D2 | | | congruence]; (apply filter_In; split; [assumption|]); [rewrite Bx | rewrite By]; reflexivity.
  Qed.
  Lemma r_not_in_o : ~ In r o.
  Proof. assert (N : NoDup (r :: o)) by (apply (Permutation_NoDup P1), (NoDup_map_inv lbl), Hu). inversion_clear N. assumption. Qed.
  Lemma o_other x : In x o -> buying x = buying r -> price x <> price r.
  Proof. intros Hx B E. apply r_not_in_o. rewrite <- (one_d (buying r) (price r) x r); auto; apply in_d1; auto. Qed.
  Lemma one_d' b v : ~ (buying r = b /\ price r = v) -> one_at b v d'.
  Proof.
    intros N x y Hx Hy Bx By Ex Ey. apply in_d2 in Hx. apply in_d2 in Hy.
    destruct Hx as [Hx|Hx]; [exfalso; destruct (piece x Hx) as (_ & X & Y); apply N; split; congruence|].
    destruct Hy as [Hy|Hy]; [exfalso; destruct (piece y Hy) as (_ & X & Y); apply N; split; congruence|].
    apply (one_d b v); auto; apply in_d1; auto.
  Qed.
  Lemma nodup_o : NoDup o.
  Proof. assert (N : NoDup (r :: o)) by (apply (Permutation_NoDup P1), (NoDup_map_inv lbl), Hu). inversion_clear N. assumption. Qed.
  (** the rows at one price level, before and after *)
  Lemma level_self (h : row -> Qc) : qsumf h (at_price (buying r) (price r) d) = h r /\ qsumf h (at_price (buying r) (price r) d') = qsumf h l.
  Proof.
    unfold at_price. set (P := fun x => Bool.eqb (buying x) (buying r) && qeqb (price x) (price r)).
    assert (Pr : P r = true) by (unfold P; rewrite eqb_reflx; cbn [andb]; destruct (qeq_spec (price r) (price r)) as [|N]; [reflexivity | contradiction]).
    assert (F : filter P o = []).
    { apply filter_none. intros x Hx. unfold P. destruct (Bool.eqb (buying x) (buying r)) eqn:B; [|reflexivity]. apply eqb_prop in B. cbn [andb].
      destruct (qeq_spec (price x) (price r)) as [E|]; [destruct (o_other x Hx B E) | reflexivity]. }
    assert (G : filter P l = l).
    { apply filter_all. intros x Hx. destruct (piece x Hx) as (_ & X & Y). unfold P in *. rewrite X, Y. exact Pr. }
    split.
    - rewrite (qsumf_perm h _ _ (filter_perm P _ _ P1)). cbn [filter]. rewrite Pr, F, qsumf_cons, qsumf_nil. ring.
    - rewrite (qsumf_perm h _ _ (filter_perm P _ _ P2)), filter_app, F, G, app_nil_r. reflexivity.
  Qed.
  Lemma level_other (h : row -> Qc) y : In y o -> ~ (buying r = buying y /\ price r = price y) ->
    qsumf h (at_price (buying y) (price y) d) = h y /\ qsumf h (at_price (buying y) (price y) d') = h y.
  Proof.
    intros Hy N. unfold at_price. set (P := fun x => Bool.eqb (buying x) (buying y) && qeqb (price x) (price y)).
    assert (Pf : forall x, P x = true -> buying x = buying y /\ price x = price y).
    { intros x H. apply andb_prop in H. destruct H as [A B]. apply eqb_prop in A. destruct (qeq_spec (price x) (price y)); [auto | discriminate]. }
    assert (Py : P y = true) by (unfold P; rewrite eqb_reflx; cbn [andb]; destruct (qeq_spec (price y) (price y)) as [|M]; [reflexivity | contradiction]).
    assert (Pr : P r = false) by (destruct (P r) eqn:E; [destruct (N (Pf r E)) | reflexivity]).
    assert (G : filter P l = []).
    { apply filter_none. intros x Hx. destruct (piece x Hx) as (_ & X & Y). unfold P in *. rewrite X, Y. exact Pr. }
    assert (F : filter P o = [y]).
    { apply (filter_single P y o nodup_o Hy Py). intros x Hx Px. destruct (Pf x Px). apply (one_d (buying y) (price y)); auto; apply in_d1; auto. }
    split.
    - rewrite (qsumf_perm h _ _ (filter_perm P _ _ P1)). cbn [filter]. rewrite Pr, F, qsumf_cons, qsumf_nil. ring.
    - rewrite (qsumf_perm h _ _ (filter_perm P _ _ P2)), filter_app, F, G. cbn [app]. rewrite qsumf_cons, qsumf_nil. ring.
  Qed.

  Variables (tm tm' : transmgr) (c c' p p' : Qc).
  Hypothesis E : uniform_price_mechanism S d = Ok (tm, XUniform (Fin c) (Fin p)).
  Hypothesis E' : uniform_price_mechanism S' d' = Ok (tm', XUniform (Fin c') (Fin p')).
  Let tl := tm_trans tm.
  Let tl' := tm_trans tm'.
  Theorem pieces_traded : c' = c /\ (forall x, In x o -> traded_by (lbl x) tl' = traded_by (lbl x) tl) /\ qsumf (fun x => traded_by (lbl x) tl') l = traded_by (lbl r) tl.
  Proof.
    destruct (uniform_levels S d tm c p Hq Hp Hu E) as (ps & pb & M & KB & KS & GB & GS).
    destruct (uniform_levels S' d' tm' c' p' Hq' Hp' Hu' E') as (ps' & pb' & M' & KB' & KS' & GB' & GS').
    destruct (marginal_unique d' ps pb c ps' pb' c' Hn' (cut_marginal _ _ _ cut_d ps pb c M) M') as (-> & -> & ->).
    fold tl in KB, KS, GB, GS. fold tl' in KB', KS', GB', GS'. rewrite (cut_demand_above _ _ _ cut_d) in GB'. rewrite (cut_supply_below _ _ _ cut_d) in GS'.
    split; [reflexivity|]. split.
    - intros x Hx. assert (I : In x d) by (apply in_d1; auto). assert (I' : In x d') by (apply in_d2; auto).
      destruct (buying x) eqn:B.
      + destruct (KB x I B) as [K1 K2], (KB' x I' B) as [K1' K2'].
        destruct (qlt_spec pb (price x)) as [G|G]; [rewrite K1, K1' by exact G; reflexivity|].
        destruct (qlt_spec (price x) pb) as [G'|G']; [rewrite K2, K2' by exact G'; reflexivity|].
        assert (Ex : price x = pb) by (apply Qcle_antisym; assumption).
        destruct (level_other (fun x => traded_by (lbl x) tl) x Hx) as [L1 _]; [intros [A1 A2]; apply (o_other x Hx); congruence|].
        destruct (level_other (fun x => traded_by (lbl x) tl') x Hx) as [_ L2]; [intros [A1 A2]; apply (o_other x Hx); congruence|].
        rewrite B, Ex in L1, L2. congruence.
      + destruct (KS x I B) as [K1 K2], (KS' x I' B) as [K1' K2'].
        destruct (qlt_spec (price x) ps) as [G|G]; [rewrite K1, K1' by exact G; reflexivity|].
        destruct (qlt_spec ps (price x)) as [G'|G']; [rewrite K2, K2' by exact G'; reflexivity|].
        assert (Ex : price x = ps) by (apply Qcle_antisym; assumption).
        destruct (level_other (fun x => traded_by (lbl x) tl) x Hx) as [L1 _]; [intros [A1 A2]; apply (o_other x Hx); congruence|].
        destruct (level_other (fun x => traded_by (lbl x) tl') x Hx) as [_ L2]; [intros [A1 A2]; apply (o_other x Hx); congruence|].
        rewrite B, Ex in L1, L2. congruence.
    - assert (I : In r d) by (apply in_d1; auto).
      assert (A1 : (forall x, In x l -> traded_by (lbl x) tl' = qty x) -> qsumf (fun x => traded_by (lbl x) tl') l = qty r) by (intro H; rewrite (qsumf_ext _ qty l H); apply (proj2 (proj2 Pc))).
      assert (A0 : (forall x, In x l -> traded_by (lbl x) tl' = 0) -> qsumf (fun x => traded_by (lbl x) tl') l = 0) by (intro H; rewrite (qsumf_ext _ (fun _ => 0) l H); apply qsumf_zero; reflexivity).
      destruct (level_self (fun x => traded_by (lbl x) tl)) as [L1 _]. destruct (level_self (fun x => traded_by (lbl x) tl')) as [_ L2].
      assert (Il : forall x, In x l -> In x d' /\ price x = price r /\ buying x = buying r) by (intros x Hx; split; [apply in_d2; auto | apply piece, Hx]).
      destruct (buying r) eqn:B.
      + destruct (KB r I B) as [K1 K2].
        destruct (qlt_spec pb (price r)) as [G|G]; [rewrite K1 by exact G; apply A1; intros x Hx; destruct (Il x Hx) as (J & J1 & J2); apply (KB' x J J2); rewrite J1; exact G|].
        destruct (qlt_spec (price r) pb) as [G'|G']; [rewrite K2 by exact G'; apply A0; intros x Hx; destruct (Il x Hx) as (J & J1 & J2); apply (KB' x J J2); rewrite J1; exact G'|].
        assert (Ex : price r = pb) by (apply Qcle_antisym; assumption). rewrite Ex in L1, L2. congruence.
      + destruct (KS r I B) as [K1 K2].
        destruct (qlt_spec (price r) ps) as [G|G]; [rewrite K1 by exact G; apply A1; intros x Hx; destruct (Il x Hx) as (J & J1 & J2); apply (KS' x J J2); rewrite J1; exact G|].
        destruct (qlt_spec ps (price r)) as [G'|G']; [rewrite K2 by exact G'; apply A0; intros x Hx; destruct (Il x Hx) as (J & J1 & J2); apply (KS' x J J2); rewrite J1; exact G'|].
        assert (Ex : price r = ps) by (apply Qcle_antisym; assumption). rewrite Ex in L1, L2. congruence.
  Qed.
  Hypothesis Ha : asks_pos d.
  Lemma Ha' : asks_pos d'.
  Proof. intros x Hx B. apply in_d2 in Hx. destruct Hx as [Hx|Hx]; [destruct (piece x Hx) as (_ & -> & K); apply Ha; [apply in_d1; auto | congruence] | apply Ha; [apply in_d1; auto | exact B]]. Qed.
  Lemma demand_level e v : demand_at e v = demand_above e v + qsumf qty (at_price true v e).
  Proof.
    unfold demand_at, demand_above, at_price. rewrite !qsumf_filter, <- qsumf_plus. apply qsumf_ext. intros x _.
    destruct (buying x); cbn [andb Bool.eqb]; [|ring].
    destruct (qle_spec v (price x)) as [A|A], (qlt_spec v (price x)) as [B|B], (qeq_spec (price x) v) as [C|C]; try ring; exfalso; try qlra.
    - apply C, Qcle_antisym; assumption.
  Qed.
  Lemma supply_level e v : supply_at e v = supply_below e v + qsumf qty (at_price false v e).
  Proof.
    unfold supply_at, supply_below, at_price. rewrite !qsumf_filter, <- qsumf_plus. apply qsumf_ext. intros x _.
    destruct (buying x); cbn [negb andb Bool.eqb]; [ring|].
    destruct (qle_spec (price x) v) as [A|A], (qlt_spec (price x) v) as [B|B], (qeq_spec (price x) v) as [C|C]; try ring; exfalso; try qlra.
    - apply C, Qcle_antisym; assumption.
  Qed.
  Theorem pieces_price ps pb : Marginal d ps pb c ->
    p' = p \/ (p' = (ps + pb) / qz 2 /\ p = price r /\ price r = (if buying r then pb else ps) /\ 0 < traded_by (lbl r) tl /\ traded_by (lbl r) tl < qty r).
  Proof.
    intro M. pose proof (cut_marginal _ _ _ cut_d ps pb c M) as M'.
    assert (F : find_competitive_price S d = Ok (Fin p)).
    { destruct (uniform_summary S d Hn Hp Hu tm _ E) as (c0 & p0 & X & F & _). injection X as <- <-. exact F. }
    assert (F' : find_competitive_price S' d' = Ok (Fin p')).
    { destruct (uniform_summary S' d' Hn' Hp' Hu' tm' _ E') as (c0 & p0 & X & F' & _). injection X as <- <-. exact F'. }
    destruct (uniform_levels S d tm c p Hq Hp Hu E) as (ps1 & pb1 & M1 & _ & _ & GB & GS). fold tl in GB, GS.
    destruct (marginal_unique d _ _ _ _ _ _ Hn M1 M) as (<- & <- & _).
    destruct (level_self (fun x => traded_by (lbl x) tl)) as [L1 _]. destruct (level_self qty) as [L2 _].
    destruct (exact_price S d Hq Hp Ha ps pb c M) as (X1 & X2 & X3). destruct (exact_price S' d' Hq' Hp' Ha' ps pb c M') as (X1' & _ & _).
    destruct (price_one S' d' Hq' Hu' Hp' Ha' ps pb c M') as [O1 O2].
    destruct (price_marginal S' d' ps pb c Hq' Hp' Ha' M') as (p0 & F0 & PM). rewrite F' in F0. injection F0 as <-.
    rewrite (cut_demand_at _ _ _ cut_d) in X1', O2. rewrite (cut_supply_at _ _ _ cut_d) in X1', O1.
    unfold price_of_marginal in PM. rewrite (cut_demand_at _ _ _ cut_d), (cut_supply_at _ _ _ cut_d) in PM.
    destruct PM as [(C1 & C2 & ->)|[(C1 & C2 & PM)|(C1 & C2 & PM)]].
    - left. specialize (X1 C1 C2). rewrite F in X1. injection X1 as ->. reflexivity.
    - destruct (X2 Hd C2) as [_ Y]. rewrite F in Y. injection Y as ->. destruct PM as [-> | ->]; [left; reflexivity|].
      assert (D : (buying r = false /\ price r = ps) \/ ~ (buying r = false /\ price r = ps)).
      { destruct (buying r); [right; intros (? & _); discriminate|]. destruct (qeq_spec (price r) ps) as [A|A]; [left; auto | right; intros (_ & ?); contradiction]. }
      destruct D as [[D1 D2]|D].
      + right. split; [reflexivity|]. rewrite D1. rewrite D1, D2 in L1, L2. split; [symmetry; exact D2|]. split; [exact D2|].
        rewrite supply_level, L2 in C2. rewrite L1 in GS. rewrite GS. destruct M as (_ & _ & _ & _ & M & _). split; qlra.
      + left. specialize (O1 (one_d' false ps D) C2). rewrite F' in O1. injection O1 as ->. reflexivity.
    - destruct (X3 Hd C1) as [_ Y]. rewrite F in Y. injection Y as ->. destruct PM as [-> | ->]; [left; reflexivity|].
      assert (D : (buying r = true /\ price r = pb) \/ ~ (buying r = true /\ price r = pb)).
      { destruct (buying r); [|right; intros (? & _); discriminate]. destruct (qeq_spec (price r) pb) as [A|A]; [left; auto | right; intros (_ & ?); contradiction]. }
      destruct D as [[D1 D2]|D].
      + right. split; [reflexivity|]. rewrite D1. rewrite D1, D2 in L1, L2. split; [symmetry; exact D2|]. split; [exact D2|].
        rewrite demand_level, L2 in C1. rewrite L1 in GB. rewrite GB. destruct M as (_ & _ & M & _). split; qlra.
      + left. specialize (O2 (one_d' true pb D) C1). rewrite F' in O2. injection O2 as ->. reflexivity.
  Qed.
End Pieces.

(** ** the call with its guard *)
Theorem uniform_pieces S S' d d' r l o tm c p : qty_pos d -> price_nonneg d -> labels_unique d -> labels_unique d' -> prices_distinct d -> asks_pos d ->
  pieces_of r l -> Permutation d (r :: o) -> Permutation d' (l ++ o) -> uniform_run S d = Ok (tm, XUniform (Fin c) (Fin p)) ->
  exists tm' p', uniform_run S' d' = Ok (tm', XUniform (Fin c) (Fin p')) /\
    (forall x, In x o -> traded_by (lbl x) (tm_trans tm') = traded_by (lbl x) (tm_trans tm)) /\
    qsumf (fun x => traded_by (lbl x) (tm_trans tm')) l = traded_by (lbl r) (tm_trans tm) /\
    (p' = p \/ (0 < traded_by (lbl r) (tm_trans tm) /\ traded_by (lbl r) (tm_trans tm) < qty r /\ p = price r /\
       exists ps pb, Marginal d ps pb c /\ price r = (if buying r then pb else ps) /\ p' = (ps + pb) / qz 2)) /\
    (if buying r then p' <= p else p <= p').
Proof.
  intros Hq Hp Hu Hu' Hd Ha Pc P1 P2 E. apply uniform_run_inv in E. destruct E as [(_ & X & _)|E]; [discriminate X|].
  assert (Hn : qty_nonneg d) by (intros x Hx; apply Qclt_le_weak, Hq, Hx).
  destruct (uniform_marginal S d Hq Hp tm c p E) as (ps & pb & M & _).
  pose proof (cut_marginal _ _ _ (cut_d d d' r l o Pc P1 P2) ps pb c M) as M'.
  pose proof (Hq' d d' r l o Hq Pc P1 P2) as Q'. pose proof (Hp' d d' r l o Hp Pc P1 P2) as U'. pose proof (Ha' d d' r l o Pc P1 P2 Ha) as A'.
  assert (Lr : exists x, In x l /\ buying x = buying r).
  { destruct l as [|x l']; [exfalso; destruct Pc as (Q & _ & T); rewrite qsumf_nil in T; qlra|]. exists x. split; [left; reflexivity|]. apply (proj1 (proj2 Pc)). left; reflexivity. }
  assert (Sd : forall b, (exists x, In x d /\ buying x = b) -> exists x, In x d' /\ buying x = b).
  { intros b (x & Hx & B). apply (in_d1 d r o P1) in Hx. destruct Hx as [->|Hx].
    - destruct Lr as (y & Hy & By). exists y. split; [apply (in_d2 d' l o P2); auto | congruence].
    - exists x. split; [apply (in_d2 d' l o P2); auto | exact B]. }
  destruct (uniform_summary S d Hn Hp Hu tm _ E) as (c0 & p0 & _ & _ & _ & _ & _ & _ & _ & _ & _ & B1 & rb & B2 & L1 & rs & L2 & EB & EL & _).
  destruct (Sd true) as (b & Ib & Bb). { exists rb. apply (buyer_row S d _ _ _ rb EB), in_or_app. right; left; reflexivity. }
  destruct (Sd false) as (s & Is & Bs). { exists rs. apply (seller_row S d _ _ _ rs EL), in_or_app. right; left; reflexivity. }
  destruct (proj1 (uniform_runs_iff S' d' b s Q' U' A' Ib Is Bb Bs) ps pb c M') as (tm' & p' & R & _).
  exists tm', p'. split; [exact R|]. rewrite (uniform_run_eq S' d' b s Ib Is Bb Bs) in R.
  destruct (pieces_traded S S' d d' r l o Hq Hp Hu Hu' Hd Pc P1 P2 tm tm' c c p p' E R) as (_ & T1 & T2). split; [exact T1|]. split; [exact T2|].
  pose proof (pieces_price S S' d d' r l o Hq Hp Hu Hu' Hd Pc P1 P2 tm tm' c c p p' E R Ha ps pb M) as K.
  destruct K as [->|(-> & -> & K1 & K2 & K3)].
  - split; [left; reflexivity|]. destruct (buying r); apply Qcle_refl.
  - split.
    + right. split; [exact K2|]. split; [exact K3|]. split; [reflexivity|]. exists ps, pb. auto.
    + assert (L : ps < pb) by (destruct M as (_ & L & _); exact L). assert (H2 : (ps + pb) / qz 2 + (ps + pb) / qz 2 = ps + pb) by (assert (X : (/ qz 2 + / qz 2)%Qc = 1) by (apply Qc_is_canon; vm_compute; reflexivity); unfold Qcdiv; rewrite <- Qcmult_plus_distr_r, X; ring).
      generalize dependent ((ps + pb) / qz 2). intros m H2. destruct (buying r); rewrite K1; qlra.
Qed.
