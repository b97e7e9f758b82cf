(** A user with a single bid cannot gain from misreporting its price in the Huang auction. *)
From Verif Require Import QcTac Num NumFacts ModelBase ModelCurves ModelHuang ModelMuda ListFacts Spec SpecTrade
  SpecMuda SpecHuang SpecAlloc CurveFacts IntersectFacts StoreFacts UpdateFacts TradeFacts Sorter HuangFacts P2PTrades MudaPrice
  MudaTruth HuangTop.

Lemma qsumf_le_eq {A} (f g : A -> Qc) l : (forall x, In x l -> f x <= g x) -> qsumf f l = qsumf g l ->
  forall x, In x l -> f x = g x.
Proof.
  induction l as [|a l IH]; intros H E x; [intros []|]. rewrite !qsumf_cons in E.
  pose proof (H a (or_introl eq_refl)) as Ha.
  assert (Hl : forall y, In y l -> f y <= g y) by (intros y Hy; apply H; right; exact Hy).
  pose proof (qsumf_le f g l Hl) as L. intros [<-|Hx].
  - apply Qcle_antisym; qlra.
  - apply IH; [exact Hl | | exact Hx]. apply Qcle_antisym; qlra.
Qed.

(** a total fixes the rationing *)
Lemma ration_unique (W : row -> bool) (d : df) t t' :
  qsumf (fun r => if W r then qmax 0 (qty r - t) else 0) d = qsumf (fun r => if W r then qmax 0 (qty r - t') else 0) d ->
  forall r, In r d -> W r = true -> qmax 0 (qty r - t) = qmax 0 (qty r - t').
Proof.
  assert (M : forall t t', t <= t' -> forall r, (if W r then qmax 0 (qty r - t') else 0) <= if W r then qmax 0 (qty r - t) else 0).
  { clear t t'. intros t t' L r. destruct (W r); [|qlra].
    destruct (qmax_case 0 (qty r - t)) as [[E ?]|[E ?]], (qmax_case 0 (qty r - t')) as [[E' ?]|[E' ?]]; rewrite E, E'; qlra. }
  intros E r Hr Wr. destruct (qle_spec t t') as [L|L].
  - symmetry. pose proof (qsumf_le_eq _ _ d (fun x _ => M t t' L x) (eq_sym E) r Hr) as X. simpl in X. rewrite Wr in X. exact X.
  - apply Qclt_le_weak in L. pose proof (qsumf_le_eq _ _ d (fun x _ => M t' t L x) E r Hr) as X. simpl in X. rewrite Wr in X. exact X.
Qed.

Section Alloc.
  Variables (S : sorter) (d : df).
  Hypothesis Hq : qty_nonneg d.
  Hypothesis Hp : price_nonneg d.
  Hypothesis Hu : labels_unique d.
  Hypothesis Hd : prices_distinct d.

  Lemma in_better ps pb r : In r d ->
    (In r (filter (fun r => buying r && qltb pb (price r)) d) \/ In r (filter (fun r => negb (buying r) && qltb (price r) ps) d)) <->
    wins ps pb r = true.
  Proof. intro Hr. rewrite !filter_In. unfold wins. destruct (buying r); simpl; intuition discriminate. Qed.

  Lemma demand_above_wins ps pb : demand_above d pb = qsumf qty (filter (wins ps pb) (all_b d)).
  Proof.
    unfold demand_above, all_b. rewrite filter_filter. f_equal. apply filter_ext. intro r. unfold wins.
    destruct (buying r); reflexivity.
  Qed.

  Lemma huang_alloc tm ps pb q : huang_auction S d = Ok (tm, XHuang ps pb q) ->
    tm_trans tm = [] \/
    (exists b s, In b d /\ In s d /\ buying b = true /\ buying s = false /\ wins ps pb b = true /\ wins ps pb s = true) /\
    exists tb ts,
      (forall r, In r d -> traded_by (lbl r) (tm_trans tm) =
         if wins ps pb r then qmax 0 (qty r - if buying r then tb else ts) else 0) /\
      qsumf (fun r => if buying r && wins ps pb r then qmax 0 (qty r - tb) else 0) d = qmin (demand_above d pb) (supply_below d ps) /\
      qsumf (fun r => if negb (buying r) && wins ps pb r then qmax 0 (qty r - ts) else 0) d = qmin (demand_above d pb) (supply_below d ps).
  Proof.
    intro E. destruct (huang_traders S d Hq Hp Hu tm ps pb q Hd E) as (_ & _ & T1 & T2).
    set (Fb := filter (fun r => buying r && qltb pb (price r)) d) in *. set (Fs := filter (fun r => negb (buying r) && qltb (price r) ps) d) in *.
    destruct Fb as [|b Fb'] eqn:Eb; [left; auto|]. destruct Fs as [|s Fs'] eqn:Es; [left; auto|]. right.
    assert (Ib : In b Fb) by (rewrite Eb; left; reflexivity). assert (Is : In s Fs) by (rewrite Es; left; reflexivity).
    unfold Fb in Ib. unfold Fs in Is. apply filter_In in Ib. apply filter_In in Is.
    destruct Ib as [Ib Wb], Is as [Is Ws]. apply andb_true_iff in Wb. apply andb_true_iff in Ws. destruct Wb as [B1 B2], Ws as [S1 S2]. apply negb_true_iff in S1.
    split; [exists b, s; unfold wins; rewrite B1, S1; auto 10|].
    destruct T2 as [T2 T3]; [discriminate | discriminate |]. rewrite <- Eb, <- Es in T2. unfold Fb, Fs in T2.
    destruct (huang_rationing S d Hq Hp tm _ Hu E) as (tb & ts & _ & _ & _ & R). exists tb, ts.
    destruct (huang_summary S d Hq Hp Hu tm _ E) as (Bal & Onc & Ref & _).
    assert (A : forall r, In r d -> traded_by (lbl r) (tm_trans tm) = if wins ps pb r then qmax 0 (qty r - if buying r then tb else ts) else 0).
    { intros r Hr. pose proof (T2 r Hr) as I. rewrite (in_better ps pb r Hr) in I. destruct (wins ps pb r) eqn:W.
      - destruct I as [_ I]. specialize (I eq_refl). apply in_map_iff in I. destruct I as (t & Et & Ht).
        rewrite <- Et, traded_by_once by assumption. apply R; auto.
      - apply traded_by_absent. intro I'. apply I in I'. discriminate I'. }
    split; [exact A|]. rewrite <- T3. split.
    - rewrite bought_by by assumption. unfold all_b. rewrite qsumf_filter. apply qsumf_ext. intros r Hr. rewrite (A r Hr).
      destruct (buying r); reflexivity.
    - rewrite Bal, sold_by by assumption. unfold all_s. rewrite qsumf_filter. apply qsumf_ext. intros r Hr. rewrite (A r Hr).
      destruct (buying r); reflexivity.
  Qed.
End Alloc.

(** ** Tables that differ in the prices of one user *)
Lemma mp_mis u d d' : Forall2 (misprice u) d d' -> Forall2 (misreport u) d d'.
Proof. induction 1 as [|r r' l l' [H _] _ IH]; constructor; auto. Qed.
Lemma mp_pos u d d' : Forall2 (misprice u) d d' -> qty_pos d -> qty_pos d'.
Proof.
  induction 1 as [|r r0 l l' [_ H] _ IH]; intros Q r' Hr'; [contradiction|]. destruct Hr' as [<-|Hr'].
  - rewrite H. apply Q. left; reflexivity.
  - apply IH; [intros y Hy; apply Q; right; exact Hy | exact Hr'].
Qed.
Lemma mp_in u d d' r : Forall2 (misprice u) d d' -> In r d -> exists r', In r' d' /\ misprice u r r'.
Proof.
  induction 1 as [|a a' l l' H _ IH]; [intros []|]. intros [<-|Hr]; [exists a'; simpl; auto|].
  destruct (IH Hr) as (r' & ? & ?). exists r'. simpl; auto.
Qed.
Lemma mp_in' u d d' r' : Forall2 (misprice u) d d' -> In r' d' -> exists r, In r d /\ misprice u r r'.
Proof.
  induction 1 as [|a a' l l' H _ IH]; [intros []|]. intros [<-|Hr]; [exists a; simpl; auto|].
  destruct (IH Hr) as (r & ? & ?). exists r. simpl; auto.
Qed.
Lemma by_user_one u x d : labels_unique d -> In x d -> user x = u -> (forall r, In r d -> user r = u -> r = x) -> by_user u d = [x].
Proof.
  unfold by_user, labels_unique. induction d as [|a l IH]; intros Hu Hx Ux One; [contradiction|]. simpl in *. inversion_clear Hu as [|? ? N1 N2].
  destruct (Z.eqb_spec (user a) u) as [E|E].
  - assert (a = x) by (apply One; auto). subst a. f_equal.
    apply filter_none. intros y Hy. apply Z.eqb_neq. intro Ey. apply N1. rewrite <- (One y (or_intror Hy) Ey). apply in_map, Hy.
  - destruct Hx as [Hx|Hx]; [subst a; contradiction|]. apply IH; auto.
Qed.

Section Truth.
  Variables (S S' : sorter) (d d' : df) (u : Z) (x : row).
  Hypothesis Q : qty_pos d.
  Hypothesis Hp : price_nonneg d.
  Hypothesis Hp' : price_nonneg d'.
  Hypothesis Hu : labels_unique d.
  Hypothesis Hd : prices_distinct d.
  Hypothesis Hd' : prices_distinct d'.
  Hypothesis Ha : asks_pos d.
  Hypothesis Hx : In x d.
  Hypothesis Ux : user x = u.
  Hypothesis One : forall r, In r d -> user r = u -> r = x.
  Hypothesis Mis : Forall2 (misprice u) d d'.

  Lemma Mis' : Forall2 (misreport u) d d'. Proof. exact (mp_mis u d d' Mis). Qed.
  Lemma Qn : qty_nonneg d. Proof. intros r Hr. apply Qclt_le_weak, Q, Hr. Qed.
  Lemma Hu' : labels_unique d'.
  Proof. unfold labels_unique. rewrite (mis_lbl u d d' Mis'). exact Hu. Qed.
  Lemma Q' : qty_pos d'. Proof. exact (mp_pos u d d' Mis Q). Qed.
  Lemma Qn' : qty_nonneg d'. Proof. intros r Hr. apply Qclt_le_weak, Q', Hr. Qed.
  Lemma pair_of r : In r d -> exists r', In r' d' /\ misprice u r r'. Proof. exact (mp_in u d d' r Mis). Qed.
  Lemma pair_of' r' : In r' d' -> exists r, In r d /\ misprice u r r'. Proof. exact (mp_in' u d d' r' Mis). Qed.

  Variable x' : row.
  Hypothesis Hx' : In x' d'.
  Hypothesis Mx : misprice u x x'.

  Lemma pair_x r' : misprice u x r' -> In r' d' -> r' = x'.
  Proof.
    intros [(E1 & _) _] I. destruct Mx as [(E2 & _) _]. apply (NoDup_map_in lbl d'); [exact Hu' | exact I | exact Hx' | congruence].
  Qed.
  (** the pairs of rows: either the same row, or [x] and [x'] *)
  Lemma pair_cases (P : row -> row -> Prop) : (forall r, In r d -> user r <> u -> P r r) -> P x x' ->
    forall r r', In r d -> In r' d' -> misprice u r r' -> P r r'.
  Proof.
    intros A B r r' Hr Hr' M. destruct (Z.eq_dec (user r) u) as [E|E].
    - rewrite (One r Hr E) in *. rewrite (pair_x r' M Hr'). exact B.
    - destruct M as [(_ & _ & _ & _ & _ & H) _]. rewrite (H E). auto.
  Qed.
  Lemma sum_same' (f f' : row -> Qc) : (forall r, In r d -> user r <> u -> f' r = f r) -> f' x' = f x -> qsumf f' d' = qsumf f d.
  Proof.
    intros A B. assert (G : forall l l', Forall2 (misprice u) l l' -> (forall r, In r l -> In r d) -> (forall r, In r l' -> In r d') -> qsumf f' l' = qsumf f l).
    { induction 1 as [|r r' l l' H _ IH]; intros I I'; [reflexivity|]. rewrite !qsumf_cons, IH; [|intros; apply I; right; assumption|intros; apply I'; right; assumption].
      f_equal. refine (pair_cases (fun r r' => f' r' = f r) A B r r' _ _ H); [apply I | apply I']; left; reflexivity. }
    apply G; auto.
  Qed.

  Lemma x_fields : lbl x' = lbl x /\ user x' = user x /\ buying x' = buying x /\ qty x' = qty x.
  Proof. destruct Mx as [(A & B & C & _) D]. auto. Qed.

  (** if both reports win at the prices of the second table, those are the prices of the first *)
  Lemma marginal_same ps pb c : wins ps pb x' = true -> wins ps pb x = true -> Marginal d' ps pb c -> Marginal d ps pb c.
  Proof.
    destruct x_fields as (_ & _ & Eb & Eq). unfold wins. rewrite Eb.
    intros W' W (P & L & D1 & D2 & D3 & D4 & M).
    destruct (buying x) eqn:B; apply (proj1 (qltb_lt _ _)) in W'; apply (proj1 (qltb_lt _ _)) in W.
    - assert (S1 : forall p, supply_at d' p = supply_at d p).
      { intro p. unfold supply_at. rewrite !qsumf_filter. apply sum_same'; [reflexivity|]. rewrite Eb, B. reflexivity. }
      assert (S2 : forall p, supply_below d' p = supply_below d p).
      { intro p. unfold supply_below. rewrite !qsumf_filter. apply sum_same'; [reflexivity|]. rewrite Eb, B. reflexivity. }
      assert (X1 : forall p, p <= pb -> demand_at d' p = demand_at d p).
      { intros p Lp. unfold demand_at. rewrite !qsumf_filter. apply sum_same'; [reflexivity|]. rewrite Eb, B, Eq. cbn [andb].
        destruct (qle_spec p (price x')), (qle_spec p (price x)); try reflexivity; exfalso; qlra. }
      assert (X2 : demand_above d' pb = demand_above d pb).
      { unfold demand_above. rewrite !qsumf_filter. apply sum_same'; [reflexivity|]. rewrite Eb, B, Eq. cbn [andb].
        destruct (qlt_spec pb (price x')), (qlt_spec pb (price x)); try reflexivity; exfalso; qlra. }
      rewrite S2 in D3. rewrite S1 in D4. rewrite X1 in D2 by apply Qcle_refl. rewrite X2 in D1.
      split; [exact P|]. split; [exact L|]. split; [exact D1|]. split; [exact D2|]. split; [exact D3|]. split; [exact D4|].
      intro p. destruct (qle_spec p pb) as [Lp|Lp].
      + rewrite <- (X1 p Lp), <- S1. apply M.
      + pose proof (demand_mono d pb p Qn Lp) as Z. pose proof (qmin_l (demand_at d p) (supply_at d p)). qlra.
    - assert (S1 : forall p, demand_at d' p = demand_at d p).
      { intro p. unfold demand_at. rewrite !qsumf_filter. apply sum_same'; [reflexivity|]. rewrite Eb, B. reflexivity. }
      assert (S2 : forall p, demand_above d' p = demand_above d p).
      { intro p. unfold demand_above. rewrite !qsumf_filter. apply sum_same'; [reflexivity|]. rewrite Eb, B. reflexivity. }
      assert (X1 : forall p, ps <= p -> supply_at d' p = supply_at d p).
      { intros p Lp. unfold supply_at. rewrite !qsumf_filter. apply sum_same'; [reflexivity|]. rewrite Eb, B, Eq. cbn [andb negb].
        destruct (qle_spec (price x') p), (qle_spec (price x) p); try reflexivity; exfalso; qlra. }
      assert (X2 : supply_below d' ps = supply_below d ps).
      { unfold supply_below. rewrite !qsumf_filter. apply sum_same'; [reflexivity|]. rewrite Eb, B, Eq. cbn [andb negb].
        destruct (qlt_spec (price x') ps), (qlt_spec (price x) ps); try reflexivity; exfalso; qlra. }
      rewrite S2 in D1. rewrite S1 in D2. rewrite X1 in D4 by apply Qcle_refl. rewrite X2 in D3.
      split; [exact P|]. split; [exact L|]. split; [exact D1|]. split; [exact D2|]. split; [exact D3|]. split; [exact D4|].
      intro p. destruct (qle_spec ps p) as [Lp|Lp].
      + rewrite <- (X1 p Lp), <- S1. apply M.
      + pose proof (supply_mono d p ps Qn Lp) as Z. pose proof (qmin_r (demand_at d p) (supply_at d p)). qlra.
  Qed.

  (** then the quantities are the same as well *)
  Lemma quantity_same tm tm' ps pb q q' :
    wins ps pb x' = true -> wins ps pb x = true ->
    huang_auction S d = Ok (tm, XHuang ps pb q) -> huang_auction S' d' = Ok (tm', XHuang ps pb q') ->
    tm_trans tm' <> [] ->
    traded_by (lbl x) (tm_trans tm) = traded_by (lbl x) (tm_trans tm').
  Proof.
    intros W' W E E' N. destruct x_fields as (El & _ & Eb & Eq).
    assert (W0 : forall r, In r d -> exists r', In r' d' /\ misprice u r r' /\ wins ps pb r' = wins ps pb r /\ buying r' = buying r).
    { intros r Hr. destruct (pair_of r Hr) as (r' & Hr' & M). exists r'. split; [exact Hr'|]. split; [exact M|].
      refine (pair_cases (fun r r' => wins ps pb r' = wins ps pb r /\ buying r' = buying r) _ _ r r' Hr Hr' M); [auto|]. rewrite W, W'. auto. }
    destruct (huang_alloc S' d' Qn' Hp' Hu' Hd' tm' ps pb q' E') as [Z|((b' & s' & Ib' & Is' & B' & S1' & Wb' & Ws') & tb' & ts' & A' & F1' & F2')]; [contradiction|].
    assert (NB : tm_trans tm <> []).
    { destruct (huang_traders S d Qn Hp Hu tm ps pb q Hd E) as (_ & _ & _ & T).
      assert (Kb : exists b, In b d /\ buying b = true /\ wins ps pb b = true).
      { destruct (pair_of' b' Ib') as (b & Ib & M). exists b. split; [exact Ib|].
        pose proof (pair_cases (fun r r' => wins ps pb r' = wins ps pb r /\ buying r' = buying r)) as G. cbv beta in G.
        destruct (G (fun r _ _ => conj eq_refl eq_refl) (conj (eq_trans W' (eq_sym W)) Eb) b b' Ib Ib' M) as [G1 G2]. split; congruence. }
      assert (Ks : exists s, In s d /\ buying s = false /\ wins ps pb s = true).
      { destruct (pair_of' s' Is') as (s & Is & M). exists s. split; [exact Is|].
        pose proof (pair_cases (fun r r' => wins ps pb r' = wins ps pb r /\ buying r' = buying r)) as G. cbv beta in G.
        destruct (G (fun r _ _ => conj eq_refl eq_refl) (conj (eq_trans W' (eq_sym W)) Eb) s s' Is Is' M) as [G1 G2]. split; congruence. }
      destruct Kb as (b & Ib & B & Wb), Ks as (s & Is & Sb & Ws).
      assert (Jb : In b (filter (fun r => buying r && qltb pb (price r)) d)).
      { apply filter_In. unfold wins in Wb. rewrite B in Wb. rewrite B. auto. }
      assert (Js : In s (filter (fun r => negb (buying r) && qltb (price r) ps) d)).
      { apply filter_In. unfold wins in Ws. rewrite Sb in Ws. rewrite Sb. auto. }
      destruct T as [T _]; [intro Z; rewrite Z in Jb; exact Jb | intro Z; rewrite Z in Js; exact Js |].
      intro Z. rewrite Z in T. destruct (T b Ib) as [_ T']. apply T'. left. exact Jb. }
    destruct (huang_alloc S d Qn Hp Hu Hd tm ps pb q E) as [Z|(_ & tb & ts & A & F1 & F2)]; [contradiction|].
    assert (D1 : demand_above d' pb = demand_above d pb).
    { unfold demand_above. rewrite !qsumf_filter. apply sum_same'; [reflexivity|]. rewrite Eb, Eq. unfold wins in W, W'. rewrite Eb in W'.
      destruct (buying x); [|reflexivity]. rewrite W, W'. reflexivity. }
    assert (D2 : supply_below d' ps = supply_below d ps).
    { unfold supply_below. rewrite !qsumf_filter. apply sum_same'; [reflexivity|]. rewrite Eb, Eq. unfold wins in W, W'. rewrite Eb in W'.
      destruct (buying x); [reflexivity|]. rewrite W, W'. reflexivity. }
    rewrite D1, D2 in F1', F2'.
    rewrite (A x Hx), W. rewrite <- El, (A' x' Hx'), W', Eb, Eq.
    destruct (buying x) eqn:B.
    - apply (ration_unique (fun r => buying r && wins ps pb r) d); [|exact Hx | rewrite B, W; reflexivity].
      rewrite F1, <- F1'. apply sum_same'; [reflexivity|]. rewrite Eb, B, W, W', Eq. reflexivity.
    - apply (ration_unique (fun r => negb (buying r) && wins ps pb r) d); [|exact Hx | rewrite B, W; reflexivity].
      rewrite F2, <- F2'. apply sum_same'; [reflexivity|]. rewrite Eb, B, W, W', Eq. reflexivity.
  Qed.

  Lemma by_user_x : by_user u d = [x]. Proof. exact (by_user_one u x d Hu Hx Ux One). Qed.

  (** what [u] earns with transactions at one price *)
  Lemma profit_x tl p : (forall t, In t tl -> t_bid t = lbl x -> t_price t = p) ->
    profit d u tl = gain p x * traded_by (lbl x) tl.
  Proof.
    intro H. unfold profit. rewrite by_user_x, qsumf_cons, qsumf_nil. unfold traded_by. rewrite <- qsumf_scale.
    rewrite (qsumf_ext _ (fun t => gain p x * t_qty t)); [ring|]. intros t Ht. apply filter_In in Ht. destruct Ht as [Ht Et].
    apply Nat.eqb_eq in Et. rewrite (H t Ht Et). reflexivity.
  Qed.

  Theorem huang_truthful tm ex tm' ex' :
    huang_auction S d = Ok (tm, ex) -> huang_auction S' d' = Ok (tm', ex') ->
    profit d u (tm_trans tm') <= profit d u (tm_trans tm).
  Proof.
    intros E E'. destruct x_fields as (El & _ & Eb & Eq).
    (* the truthful profit is not negative *)
    destruct (huang_summary S d Qn Hp Hu tm ex E) as (_ & _ & _ & Fe & Ra & _ & Ex1 & Ex2).
    assert (P0 : 0 <= profit d u (tm_trans tm)).
    { unfold profit. apply qsumf_nonneg. intros r Hr. apply qsumf_nonneg. intros t Ht. apply filter_In in Hr. apply filter_In in Ht.
      destruct Hr as [Hr _], Ht as [Ht Et]. apply Nat.eqb_eq in Et. pose proof (Ra t r Ht Hr (eq_sym Et)) as R.
      pose proof (proj1 Fe t Ht) as R'. assert (G : 0 <= gain (t_price t) r) by (unfold gain; destruct (buying r); qlra).
      clear - R' G. qnra. }
    destruct (huang_summary S' d' Qn' Hp' Hu' tm' ex' E') as (_ & _ & _ & Fe' & _ & _ & Ex1' & Ex2').
    destruct (tm_trans tm') as [|t0 tl0] eqn:Etl. { unfold profit at 1. simpl. rewrite qsumf_zero; [exact P0 | reflexivity]. }
    destruct Ex1' as (ps & pb & q' & -> & _); [discriminate|]. rewrite <- Etl in *.
    destruct (Ex2' ps pb q' eq_refl) as [_ Pr'].
    set (p' := if buying x then pb else ps).
    assert (Pf' : profit d u (tm_trans tm') = gain p' x * traded_by (lbl x) (tm_trans tm')).
    { apply profit_x. intros t Ht Et. rewrite (Pr' t x' Ht Hx'), Eb by congruence. reflexivity. }
    rewrite Pf'.
    assert (T0 : 0 <= traded_by (lbl x) (tm_trans tm')).
    { apply qsumf_nonneg. intros t Ht. apply filter_In in Ht. apply (proj1 Fe'), Ht. }
    destruct (huang_alloc S' d' Qn' Hp' Hu' Hd' tm' ps pb q' E') as [Z|(_ & tb' & ts' & A' & _)]; [rewrite Z in Etl; discriminate Etl|].
    destruct (wins ps pb x') eqn:W'.
    2:{ rewrite <- El, (A' x' Hx'), W'. rewrite Qcmult_0_r. exact P0. }
    destruct (wins ps pb x) eqn:W.
    2:{ assert (G : gain p' x <= 0).
        { unfold wins in W. unfold gain, p'. destruct (buying x); apply (proj1 (qltb_ge _ _)) in W; qlra. }
        assert (gain p' x * traded_by (lbl x) (tm_trans tm') <= 0) by (clear - G T0; qnra). qlra. }
    destruct (huang_marginal S' d' Qn' Hp' tm' ps pb q' Q' E') as (c & M' & _).
    pose proof (marginal_same ps pb c W' W M') as M.
    destruct (marginal_huang S d Qn Hp ps pb c Ha M) as (tm2 & q & E2). rewrite E in E2. injection E2 as <- ->.
    destruct (Ex2 ps pb q eq_refl) as [_ Pr].
    assert (Pf : profit d u (tm_trans tm) = gain p' x * traded_by (lbl x) (tm_trans tm)).
    { apply profit_x. intros t Ht Et. rewrite (Pr t x Ht Hx) by congruence. reflexivity. }
    rewrite Pf, (quantity_same tm tm' ps pb q q' W' W E E'); [apply Qcle_refl|]. rewrite Etl. discriminate.
  Qed.
End Truth.

(** the statement with only the tables *)
Lemma huang_truth S S' d d' u tm ex tm' ex' :
  qty_pos d -> price_nonneg d -> price_nonneg d' -> labels_unique d -> prices_distinct d -> prices_distinct d' -> asks_pos d ->
  (forall r r', In r d -> In r' d -> user r = u -> user r' = u -> r = r') -> Forall2 (misprice u) d d' ->
  huang_auction S d = Ok (tm, ex) -> huang_auction S' d' = Ok (tm', ex') ->
  profit d u (tm_trans tm') <= profit d u (tm_trans tm).
Proof.
  intros Q Hp Hp' Hu Hd Hd' Ha One Mis E E'.
  destruct (existsb (fun r => Z.eqb (user r) u) d) eqn:X.
  - apply existsb_exists in X. destruct X as (x & Hx & Ux). apply Z.eqb_eq in Ux.
    destruct (mp_in u d d' x Mis Hx) as (x' & Hx' & Mx).
    apply (huang_truthful S S' d d' u x Q Hp Hp' Hu Hd Hd' Ha Hx Ux (fun r Hr E => One r x Hr Hx E Ux) Mis x' Hx' Mx tm ex tm' ex' E E').
  - assert (N : by_user u d = []).
    { apply filter_none. intros r Hr. destruct (Z.eqb (user r) u) eqn:Y; [|reflexivity]. rewrite <- X. symmetry. apply existsb_exists. eauto. }
    unfold profit. rewrite N. apply Qcle_refl.
Qed.
