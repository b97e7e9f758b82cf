(** Exact forms: existence and value of the competitive price, the reported fee, the active flag. *)
From Verif Require Import QcTac Num NumFacts ModelBase ModelCurves ModelHuang ModelMuda ModelP2P ListFacts Spec SpecTrade SpecHuang SpecMuda SpecFee SpecExact
  CurveFacts IntersectFacts StoreFacts TradeFacts Sorter MudaPrice CurveTop HuangTop PriceExact PriceIff MudaFacts MudaTop P2PFacts P2PTrades.

(** ** the marginal bids are unique *)
Lemma marginal_max d ps pb c : qty_nonneg d -> Marginal d ps pb c -> qmin (demand_at d ps) (supply_at d ps) = c.
Proof.
  intros Hq (H0 & L & D1 & D2 & D3 & D4 & M). apply Qcle_antisym; [apply M|]. apply qmin_glb; [|exact D4].
  pose proof (demand_at_le d ps pb Hq (Qclt_le_weak _ _ L)). qlra.
Qed.
Lemma marginal_unique d ps pb c ps' pb' c' : qty_nonneg d -> Marginal d ps pb c -> Marginal d ps' pb' c' -> ps' = ps /\ pb' = pb /\ c' = c.
Proof.
  intros Hq M M'. assert (c' = c) as ->.
  { pose proof (marginal_max d _ _ _ Hq M) as X. pose proof (marginal_max d _ _ _ Hq M') as X'.
    destruct M as (_ & _ & _ & _ & _ & _ & M), M' as (_ & _ & _ & _ & _ & _ & M').
    specialize (M ps'). specialize (M' ps). qlra. }
  destruct M as (_ & _ & D1 & D2 & D3 & D4 & _), M' as (_ & _ & D1' & D2' & D3' & D4' & _). split; [|split; [|reflexivity]].
  - apply (supply_price_unique d c); assumption.
  - apply (demand_price_unique d c); assumption.
Qed.

Lemma qsumf_perm (h : row -> Qc) l l' : Permutation l l' -> qsumf h l = qsumf h l'.
Proof. induction 1; rewrite ?qsumf_cons; try ring_simplify; [reflexivity | congruence | ring | congruence]. Qed.
Lemma filter_perm {A} (p : A -> bool) l l' : Permutation l l' -> Permutation (filter p l) (filter p l').
Proof.
  induction 1; simpl; auto.
  - destruct (p x); auto.
  - destruct (p y), (p x); auto using perm_swap.
  - eauto using perm_trans.
Qed.
Lemma marginal_perm d d' ps pb c : Permutation d d' -> Marginal d ps pb c -> Marginal d' ps pb c.
Proof.
  intros P (H0 & L & D1 & D2 & D3 & D4 & M). unfold Marginal, demand_at, demand_above, supply_at, supply_below in *.
  assert (E : forall h, qsumf qty (filter h d') = qsumf qty (filter h d)) by (intro h; apply qsumf_perm, filter_perm; symmetry; exact P).
  repeat rewrite E. repeat split; auto. intro p. rewrite !E. apply M.
Qed.
Lemma gap_free_perm d d' : Permutation d d' -> gap_free d -> gap_free d'.
Proof.
  intros P [G0 G]. unfold gap_free, demand_at, demand_above, supply_at, supply_below in *.
  assert (E : forall h, qsumf qty (filter h d') = qsumf qty (filter h d)) by (intro h; apply qsumf_perm, filter_perm; symmetry; exact P).
  rewrite !E. split; [exact G0|]. intros p H. rewrite !E. apply G, H.
Qed.
Lemma can_trade_perm d d' : Permutation d d' -> can_trade d -> can_trade d'.
Proof. intros P (rb & rs & A & B & C). exists rb, rs. split; [apply (Permutation_in _ P A)|]. split; [apply (Permutation_in _ P B) | exact C]. Qed.

(** ** the price *)
Lemma price_iff S d : qty_nonneg d -> price_nonneg d -> ((exists p, find_competitive_price S d = Ok (Fin p)) <-> can_trade d /\ gap_free d).
Proof. exact (finite_iff S d). Qed.
Lemma huang_iff S d : qty_nonneg d -> price_nonneg d -> ((exists tm ps pb q, huang_auction S d = Ok (tm, XHuang ps pb q)) <-> can_trade d /\ gap_free d).
Proof. intros Hq Hp. rewrite <- (price_iff S d Hq Hp). apply huang_price; assumption. Qed.
Lemma finite_perm S S' d d' : Permutation d d' -> qty_nonneg d -> price_nonneg d ->
  (exists p, find_competitive_price S d = Ok (Fin p)) -> exists p, find_competitive_price S' d' = Ok (Fin p).
Proof.
  intros P Hq Hp F. apply (price_iff S d Hq Hp) in F. destruct F as [F1 F2]. apply price_iff.
  - intros r Hr. apply Hq, (Permutation_in _ (Permutation_sym P) Hr).
  - intros r Hr. apply Hp, (Permutation_in _ (Permutation_sym P) Hr).
  - split; [apply (can_trade_perm d d' P F1) | apply (gap_free_perm d d' P F2)].
Qed.

Lemma num_eq_dec (a b : num) : {a = b} + {a <> b}.
Proof. decide equality. apply Qc_eq_dec. Qed.
Lemma is_end_dec f x : is_end f x \/ ~ is_end f x.
Proof.
  rewrite is_end_fst. destruct (in_dec num_eq_dec x (map fst f)); auto.
Qed.

Lemma price_marginal S d ps pb c : qty_pos d -> price_nonneg d -> asks_pos d -> Marginal d ps pb c ->
  exists p, find_competitive_price S d = Ok (Fin p) /\ price_of_marginal d ps pb c p.
Proof.
  intros Hq Hp Ha M. assert (Hn : qty_nonneg d) by (intros r H; apply Qclt_le_weak, Hq, H).
  destruct (price_at_marginal S d Hq Hp Ha ps pb c M) as (i & j & v & E & F & G & P).
  destruct (ordinate_exact _ _ (qf 1 2) (Fin c) i j pb ps v (demand_nonempty S d) (supply_nonempty S d)
      (demand_ends S d Hn) (supply_ends S d Hn) (demand_decreasing S d Hp) (supply_increasing S d) E F G) as (O1 & O2 & O3).
  destruct (marginal_crossing S d Hn Hp ps pb c Ha M) as (Cr & _). pose proof (crossing_end S d Hn Hp (Fin c) Cr) as CE.
  destruct (exact_price S d Hq Hp Ha ps pb c M) as (X1 & _ & _).
  assert (X : c = demand_at d pb \/ c = supply_at d ps).
  { destruct M as (H0 & L & D1 & D2 & D3 & D4 & M). specialize (M ps). pose proof (demand_at_le d ps pb Hn (Qclt_le_weak _ _ L)).
    destruct (qmin_case (demand_at d ps) (supply_at d ps)) as [[Y _]|[Y _]]; rewrite Y in M; [left | right]; apply Qcle_antisym; qlra. }
  pose proof M as (H0 & L & D1 & D2 & D3 & D4 & _).
  assert (V : v = Fin ((ps + pb) / qz 2) \/ (~ is_end (fst (supply_curve_from_bids S d)) (Fin c) /\ v = Fin ps) \/ (~ is_end (fst (demand_curve_from_bids S d)) (Fin c) /\ v = Fin pb)).
  { destruct (is_end_dec (fst (demand_curve_from_bids S d)) (Fin c)) as [I|I], (is_end_dec (fst (supply_curve_from_bids S d)) (Fin c)) as [J|J].
    - left. rewrite O1 by auto. f_equal. apply half_mean.
    - right. left. auto.
    - right. right. auto.
    - destruct CE; contradiction. }
  rewrite P. destruct (qlt_spec c (demand_at d pb)) as [T1|T1].
  - destruct X as [X|X]; [exfalso; qlra|].
    assert (J : is_end (fst (supply_curve_from_bids S d)) (Fin c)) by (rewrite X; apply g_end_at; auto; rewrite <- X; exact H0).
    destruct V as [->|[[V _]|[_ ->]]]; [| contradiction |]; (eexists; split; [reflexivity|]); right; right; auto.
  - assert (X' : c = demand_at d pb) by (apply Qcle_antisym; assumption).
    assert (J : is_end (fst (demand_curve_from_bids S d)) (Fin c)) by (rewrite X'; apply f_end_at; auto; rewrite <- X'; exact H0).
    destruct (qlt_spec c (supply_at d ps)) as [T2|T2].
    + destruct V as [->|[[_ ->]|[V _]]]; [| | contradiction]; (eexists; split; [reflexivity|]); right; left; auto.
    + assert (X'' : c = supply_at d ps) by (apply Qcle_antisym; assumption).
      specialize (X1 X' X''). rewrite P in X1. injection X1 as ->. eexists; split; [reflexivity|]. left. auto.
Qed.

(** ** the reported fee *)
Lemma fee_exact S d fl tm ex : qty_nonneg d -> labels_unique d -> muda S d fl = Ok (tm, ex) -> (forall r, In r d -> (0 <= user r)%Z) ->
  exists l r pl pr fees, ex = XMuda l r pl pr fees /\ forall u, (0 <= u)%Z ->
    exists tlL tlR vl vr, tm_trans tm = tlL ++ tlR /\
      (forall t, In t tlL -> In (t_bid t) l) /\ (forall t, In t tlR -> In (t_bid t) r) /\
      HalfFee (rows_in l d) pr tlL u vl /\ HalfFee (rows_in r d) pl tlR u vr /\
      (charged (rows_in r d) pl tlR u -> fee_of fees u = vr) /\
      (~ charged (rows_in r d) pl tlR u -> fee_of fees u = vl).
Proof.
  intros Hq Hu E Hn. destruct (muda_ok S d fl tm ex Hq Hu E) as (tlL & tlR & pl & pr & f1 & f2 & M & Et & Ex).
  exists (left_of d fl), (right_of d fl), pl, pr, f2. split; [exact Ex|]. intros u H0. rewrite Et.
  destruct (muda_fees S d fl tlL tlR pl pr f1 f2 Hq Hu Hn M u H0) as (vl & vr & A1 & A2 & A3 & A4 & _).
  exists tlL, tlR, vl, vr. split; [reflexivity|]. split; [exact (tlL_lbl _ _ _ _ _ _ _ _ _ M)|]. split; [exact (tlR_lbl _ _ _ _ _ _ _ _ _ M)|].
  split; [exact A1|]. split; [exact A2|]. split.
  - intro C. destruct pl as [q| | |]; try contradiction. apply (A4 q eq_refl C).
  - intro C. apply A3. intros q -> T. exact (C T).
Qed.

(** ** the active flag *)
Lemma p2p_active_exact d c r : map lbl d = seq 0 (length d) -> qty_nonneg d -> forall tm ex, p2p_random d c r = Ok (tm, ex) ->
  forall l1 t l2 x y, tm_trans tm = l1 ++ t :: l2 -> In x d -> lbl x = t_bid t -> In y d -> Z.of_nat (lbl y) = t_source t ->
  (t_active t = true <-> traded_by (lbl x) (l1 ++ [t]) < qty x \/ no_deal x y).
Proof.
  intros Hl Hq tm ex E l1 t l2 z y ES Hz El Hy Ey. destruct (run_shape d c r Hl Hq tm ex E) as (gtl & _ & T & R & _). rewrite T in ES.
  destruct (trades_split _ _ _ _ _ _ _ ES) as (L1 & b & s & L2 & EL & D).
  assert (Hg : forall p, In p (concat gtl) -> good_pair (length (map qty d)) p) by (apply rounds_good; assumption).
  assert (G1 : forall p, In p L1 -> good_pair (length (map qty d)) p) by (intros p Hp; apply Hg; rewrite EL; apply in_or_app; left; exact Hp).
  assert (G : good_pair (length (map qty d)) (b, s)) by (apply Hg; rewrite EL; apply in_or_app; right; left; reflexivity).
  destruct G as (N & Lb & Ls). cbn [fst snd] in N, Lb, Ls.
  assert (Pr : forall p, In p (concat gtl) -> In p (all_pairs d)) by apply R.
  assert (I : In (b, s) (all_pairs d)) by (apply Pr; rewrite EL; apply in_or_app; right; left; reflexivity).
  apply pair_iff in I. destruct I as (xb & xs & Hb & Hs & Bb & Bs & Eb & Es).
  assert (Hu : labels_unique d) by (apply labels_ok, Hl).
  assert (Q : forall i, traded_by i (trades c (map price d) (map qty d) L1) = get (map qty d) i - get (after (map price d) (map qty d) L1) i) by (intro i; apply trades_by, G1).
  set (q1 := after (map price d) (map qty d) L1) in *.
  assert (Q0 : forall i, 0 <= get q1 i).
  { intro i. unfold q1. apply after_nonneg; [exact G1|]. intro j. unfold get. destruct (nth_in_or_default j (map qty d) 0) as [X|X]; [|rewrite X; qlra].
    apply in_map_iff in X. destruct X as (x & X1 & X2). rewrite <- X1. apply Hq, X2. }
  assert (W : forall i, left_over (map price d) q1 b s i = true <->
    (0 < get q1 i - meet_q (map price d) q1 b s \/ price xb < price xs)).
  { intro i. unfold left_over, meet_q. pose proof (get_price d Hl xb Hb) as P1. pose proof (get_price d Hl xs Hs) as P2.
    rewrite Eb in P1. rewrite Es in P2. unfold get in P1, P2 |- *. rewrite P1, P2. destruct (qle_spec (price xs) (price xb)) as [K|K].
    - rewrite qltb_lt. split; [auto|]. intros [X|X]; [exact X|exfalso; qlra].
    - split; auto. }
  assert (U : forall a a' : row, In a d -> In a' d -> lbl a = lbl a' -> a = a').
  { intros a a' Ia Ia' EE. pose proof (row_pos d Hl a Ia) as X. pose proof (row_pos d Hl a' Ia') as X'. congruence. }
  destruct D as [[-> ->]|[-> ->]]; cbn [t_bid t_source t_active tr_b tr_s] in *.
  - assert (z = xb) as -> by (apply U; auto; congruence). assert (y = xs) as -> by (apply U; auto; apply Nat2Z.inj; congruence).
    unfold no_deal. rewrite Bb, W. rewrite traded_by_app, Q, traded_by_cons. cbn [t_bid t_qty tr_b]. rewrite Eb, Nat.eqb_refl.
    rewrite <- (get_qty d Hl xb Hb). rewrite Eb. unfold traded_by. cbn [filter]. rewrite qsumf_nil.
    split; (intros [X|X]; [left; qlra | right; exact X]).
  - assert (z = xs) as -> by (apply U; auto; congruence). assert (y = xb) as -> by (apply U; auto; apply Nat2Z.inj; congruence).
    unfold no_deal. rewrite Bs, W. rewrite !traded_by_app, Q, !traded_by_cons. cbn [t_bid t_qty tr_b tr_s]. rewrite Es, Nat.eqb_refl.
    rewrite (proj2 (Nat.eqb_neq b s)) by exact N. rewrite <- (get_qty d Hl xs Hs). rewrite Es. unfold traded_by. cbn [filter]. rewrite qsumf_nil.
    split; (intros [X|X]; [left; qlra | right; exact X]).
Qed.
