(** [Market.run("huang")] and truthfulness. *)
From Verif Require Import QcTac Num NumFacts ModelBase ModelCurves ModelHuang ModelMuda ModelMerge ModelMarket ListFacts StoreFacts
  Spec SpecTrade SpecMerge SpecMuda SpecHuang CurveFacts IntersectFacts UpdateFacts TradeFacts HuangFacts MergeFacts HuangMarketFacts
  MudaPrice HuangTop HuangTruth HuangMarketTop MudaTruth P2PTrades SpecAlloc.

Lemma rounded_id d : (forall r, In r d -> np_round 5 (price r) = price r) -> map (rounded 5) d = d.
Proof.
  intro H. rewrite <- (map_id d) at 2. apply map_ext_in. intros r Hr. unfold rounded. rewrite (H r Hr). destruct r; reflexivity.
Qed.

Lemma filter_singleton {A} (P : A -> bool) l x : NoDup l -> In x l -> P x = true -> (forall y, In y l -> P y = true -> y = x) -> filter P l = [x].
Proof.
  induction 1 as [|a l N D IH]; [intros []|]. intros [->|I] Px U; simpl.
  - rewrite Px, filter_none; [reflexivity|]. intros y Hy. destruct (P y) eqn:E; [|reflexivity]. exfalso. apply N. rewrite <- (U y (or_intror Hy) E). exact Hy.
  - destruct (P a) eqn:E; [exfalso; apply N; rewrite (U a (or_introl eq_refl) E); exact I|]. apply IH; auto. intros; apply U; auto. right; assumption.
Qed.

Lemma group_single d x : labels_unique d -> prices_distinct d -> (forall r, In r d -> np_round 5 (price r) = price r) -> In x d ->
  group_of 5 d (rounded 5 x) = [x].
Proof.
  intros Hu [Db Ds] Hr Hx. unfold group_of. apply filter_singleton.
  - apply (NoDup_map_inv lbl). exact Hu.
  - exact Hx.
  - simpl. rewrite eqb_reflx. apply qeqb_eq. reflexivity.
  - intros y Hy E. apply andb_true_iff in E. destruct E as [E1 E2]. apply eqb_prop in E1. apply (proj1 (qeqb_eq _ _)) in E2. simpl in E1, E2.
    rewrite !Hr in E2 by assumption. destruct (buying x) eqn:B.
    + apply (NoDup_map_in price (filter buying d)); auto; apply filter_In; auto.
    + apply (NoDup_map_in price (filter (fun r => negb (buying r)) d)); auto; apply filter_In; rewrite ?E1, ?B; auto.
Qed.

(** without ties and rounding, merging changes nothing *)
Lemma market_plain S S' smp cnt d tm ex tm' ex' : map lbl d = seq 0 (length d) -> qty_pos d -> price_nonneg d -> asks_pos d -> prices_distinct d ->
  (forall r, In r d -> np_round 5 (price r) = price r) ->
  mechanism (Some (smp, cnt)) (huang_auction S) d = Ok (tm, ex) -> huang_auction S' d = Ok (tm', ex') ->
  (forall x, In x d -> traded_by (lbl x) (tm_trans tm) = traded_by (lbl x) (tm_trans tm')) /\
  (ex = XEmpty /\ ex' = XEmpty /\ tm_trans tm = [] /\ tm_trans tm' = [] \/
   exists ps pb q q', ex = XHuang ps pb q /\ ex' = XHuang ps pb q' /\ (tm_trans tm' <> [] -> q = q')).
Proof.
  intros Hl Hq Hp Ha Hd Hr E E'.
  assert (Hu : labels_unique d) by (unfold labels_unique; rewrite Hl; apply seq_NoDup).
  assert (Hq0 : qty_nonneg d) by (intros r H; apply Qclt_le_weak, Hq, H).
  destruct (huang_market_top S smp cnt d tm ex Hl Hq Hp E) as [(-> & Z & N)|(ps & pb & q & -> & (c & Mg) & D)]; cbv zeta in *; rewrite (rounded_id d Hr) in *.
  - destruct ex' as [|ps pb q'| | |]; try solve [exfalso; pose proof (huang_cases S' d Hq0 Hp) as C; rewrite E' in C; inversion C].
    + pose proof (huang_cases S' d Hq0 Hp) as C. rewrite E' in C. inversion C. subst tm'. rewrite Z. simpl. split; [reflexivity|]. left. auto.
    + destruct (huang_marginal S' d Hq0 Hp tm' ps pb q' Hq E') as (c & Mg & _). destruct (N Ha ps pb c Mg).
  - destruct (marginal_huang S' d Hq0 Hp ps pb c Ha Mg) as (tm2 & q' & E2). rewrite E' in E2. injection E2 as <- ->.
    destruct D as [(Z & No)|(tb & ts & _ & _ & _ & (b & s & Ib & Is & Bb & Bs & Wb & Ws) & Eq & Ebq & A)].
    + assert (Z' : tm_trans tm' = []).
      { destruct (huang_alloc S' d Hq0 Hp Hu Hd tm' ps pb q' E') as [Z'|((b & s & Ib & Is & Bb & Bs & Wb & Ws) & _)]; [exact Z'|].
        exfalso. destruct No as [No|No]; [rewrite (No b Ib Bb) in Wb; discriminate Wb | rewrite (No s Is Bs) in Ws; discriminate Ws]. }
      rewrite Z, Z'. split; [reflexivity|]. right. exists ps, pb, q, q'. split; [reflexivity|]. split; [reflexivity|]. intro X. congruence.
    + destruct (huang_traders S' d Hq0 Hp Hu tm' ps pb q' Hd E') as (_ & _ & _ & T2). cbv zeta in T2.
      assert (Jb : In b (filter (fun r => buying r && qltb pb (price r)) d)).
      { apply filter_In. unfold wins in Wb. rewrite Bb in Wb. rewrite Bb. auto. }
      assert (Js : In s (filter (fun r => negb (buying r) && qltb (price r) ps) d)).
      { apply filter_In. unfold wins in Ws. rewrite Bs in Ws. rewrite Bs. auto. }
      destruct T2 as [T2 T3]; [intro Z; rewrite Z in Jb; exact Jb | intro Z; rewrite Z in Js; exact Js |].
      assert (Ne : tm_trans tm' <> []).
      { intro Z. rewrite Z in T2. destruct (T2 b Ib) as [_ T4]. apply T4. left. exact Jb. }
      destruct (huang_alloc S' d Hq0 Hp Hu Hd tm' ps pb q' E') as [Z|(_ & tb' & ts' & A' & F1 & F2)]; [contradiction|].
      assert (A0 : forall x, In x d -> traded_by (lbl x) (tm_trans tm) = if wins ps pb x then qmax 0 (qty x - if buying x then tb else ts) else 0).
      { intros x Hx. rewrite (A x Hx). rewrite (group_single d x Hu Hd Hr Hx), qsumf_cons, qsumf_nil.
        replace (wins ps pb (rounded 5 x)) with (wins ps pb x) by (unfold wins; simpl; rewrite (Hr x Hx); reflexivity).
        destruct (wins ps pb x); [|reflexivity]. replace (qty x + 0) with (qty x) by ring.
        pose proof (Hq x Hx) as P. field. intro Z. rewrite Z in P. qlra. }
      destruct (huang_market S smp cnt d Hl Hq Hp (ok_not_lone _ _ _ _ _ Hl E)) as (tmx & exx & Ex & Bal & _ & Ref & _). rewrite E in Ex. injection Ex as <- <-.
      assert (G1 : qsumf (fun r => if buying r && wins ps pb r then qmax 0 (qty r - tb) else 0) d = qmin (demand_above d pb) (supply_below d ps)).
      { rewrite <- Eq, <- Ebq, bought_by by assumption. unfold all_b. rewrite qsumf_filter. apply qsumf_ext. intros r Hr0. rewrite (A0 r Hr0).
        destruct (buying r); reflexivity. }
      assert (G2 : qsumf (fun r => if negb (buying r) && wins ps pb r then qmax 0 (qty r - ts) else 0) d = qmin (demand_above d pb) (supply_below d ps)).
      { rewrite <- Eq, <- Ebq, Bal, sold_by by assumption. unfold all_s. rewrite qsumf_filter. apply qsumf_ext. intros r Hr0. rewrite (A0 r Hr0).
        destruct (buying r); reflexivity. }
      split.
      * intros x Hx. rewrite (A0 x Hx), (A' x Hx). destruct (wins ps pb x) eqn:W; [|reflexivity]. destruct (buying x) eqn:B.
        -- apply (ration_unique (fun r => buying r && wins ps pb r) d); [congruence | exact Hx | rewrite B, W; reflexivity].
        -- apply (ration_unique (fun r => negb (buying r) && wins ps pb r) d); [congruence | exact Hx | rewrite B, W; reflexivity].
      * right. exists ps, pb, q, q'. split; [reflexivity|]. split; [reflexivity|]. intros _.
        destruct (huang_summary S' d Hq0 Hp Hu tm' _ E') as (_ & _ & _ & _ & _ & _ & H & _).
        destruct (H Ne) as (ps' & pb' & q'' & Ex & Eq''). injection Ex as <- <- <-. congruence.
Qed.

Lemma profit_prices d u tl tl' ps pb : labels_unique d ->
  (forall t r, In t tl -> In r d -> lbl r = t_bid t -> t_price t = if buying r then pb else ps) ->
  (forall t r, In t tl' -> In r d -> lbl r = t_bid t -> t_price t = if buying r then pb else ps) ->
  (forall x, In x d -> traded_by (lbl x) tl = traded_by (lbl x) tl') -> profit d u tl = profit d u tl'.
Proof.
  intros Hu H H' T. unfold profit. apply qsumf_ext. intros r Hr. apply filter_In in Hr. destruct Hr as [Hr _].
  assert (G : forall l, (forall t r, In t l -> In r d -> lbl r = t_bid t -> t_price t = if buying r then pb else ps) ->
    qsumf (fun t => gain (t_price t) r * t_qty t) (filter (fun t => Nat.eqb (t_bid t) (lbl r)) l) = gain (if buying r then pb else ps) r * traded_by (lbl r) l).
  { intros l Hl. unfold traded_by. rewrite <- qsumf_scale. apply qsumf_ext. intros t Ht. apply filter_In in Ht. destruct Ht as [Ht Et].
    apply Nat.eqb_eq in Et. rewrite (Hl t r Ht Hr (eq_sym Et)). reflexivity. }
  rewrite (G tl H), (G tl' H'), (T r Hr). reflexivity.
Qed.

Lemma market_profit S S' smp cnt d u tm ex tm' ex' e : map lbl d = seq 0 (length d) -> qty_pos d -> price_nonneg d -> asks_pos d -> prices_distinct d ->
  (forall r, In r d -> np_round 5 (price r) = price r) ->
  Forall2 (fun r r' => lbl r' = lbl r /\ buying r' = buying r) d e ->
  mechanism (Some (smp, cnt)) (huang_auction S) d = Ok (tm, ex) -> huang_auction S' d = Ok (tm', ex') ->
  profit e u (tm_trans tm) = profit e u (tm_trans tm').
Proof.
  intros Hl Hq Hp Ha Hd Hr F E E'.
  assert (Hu : labels_unique d) by (unfold labels_unique; rewrite Hl; apply seq_NoDup).
  assert (Hq0 : qty_nonneg d) by (intros r H; apply Qclt_le_weak, Hq, H).
  assert (Le : map lbl e = map lbl d) by (clear - F; induction F as [|r r' l l' [H _] _ IH]; simpl; congruence).
  assert (In' : forall r', In r' e -> exists r, In r d /\ lbl r' = lbl r /\ buying r' = buying r).
  { clear - F. induction F as [|r r' l l' H _ IH]; [intros ? []|]. intros x [<-|Hx]; [exists r; simpl; tauto|]. destruct (IH x Hx) as (y & ? & ?). exists y. simpl; tauto. }
  destruct (market_plain S S' smp cnt d tm ex tm' ex' Hl Hq Hp Ha Hd Hr E E') as [T [(_ & _ & -> & ->)|(ps & pb & q & q' & Ex & Ex' & _)]]; [reflexivity|].
  destruct (huang_summary S' d Hq0 Hp Hu tm' ex' E') as (_ & _ & _ & _ & _ & _ & _ & H). destruct (H ps pb q' Ex') as [_ P'].
  destruct (huang_market S smp cnt d Hl Hq Hp (ok_not_lone _ _ _ _ _ Hl E)) as (tmx & exx & Ex2 & _ & _ & _ & _ & D). rewrite E in Ex2. injection Ex2 as <- <-.
  apply profit_prices with (ps := ps) (pb := pb).
  - unfold labels_unique. rewrite Le. exact Hu.
  - intros t r' Ht Hr' El. destruct (In' r' Hr') as (r & Hr0 & L & B). rewrite B.
    destruct D as [Z|(ps' & pb' & q'' & Ex3 & _ & _ & P)]; [rewrite Z in Ht; contradiction|]. rewrite Ex in Ex3. injection Ex3 as <- <- <-.
    pose proof (P t r Ht Hr0 (eq_trans (eq_sym L) El)) as X. destruct (buying r); apply X.
  - intros t r' Ht Hr' El. destruct (In' r' Hr') as (r & Hr0 & L & B). rewrite B. apply (P' t r Ht Hr0). congruence.
  - intros r' Hr'. destruct (In' r' Hr') as (r & Hr0 & L & _). rewrite L. apply T, Hr0.
Qed.

Theorem market_truth S smp smp' cnt cnt' d d' u tm ex tm' ex' :
  map lbl d = seq 0 (length d) -> qty_pos d -> price_nonneg d -> price_nonneg d' -> asks_pos d -> asks_pos d' ->
  prices_distinct d -> prices_distinct d' ->
  (forall r, In r d -> np_round 5 (price r) = price r) -> (forall r, In r d' -> np_round 5 (price r) = price r) ->
  (forall r r', In r d -> In r' d -> user r = u -> user r' = u -> r = r') -> Forall2 (misprice u) d d' ->
  mechanism (Some (smp, cnt)) (huang_auction S) d = Ok (tm, ex) -> mechanism (Some (smp', cnt')) (huang_auction S) d' = Ok (tm', ex') ->
  profit d u (tm_trans tm') <= profit d u (tm_trans tm).
Proof.
  intros Hl Hq Hp Hp' Ha Ha' Hd Hd' Hr Hr' One Mis E E'.
  assert (Hu : labels_unique d) by (unfold labels_unique; rewrite Hl; apply seq_NoDup).
  assert (Hq0 : qty_nonneg d) by (intros r H; apply Qclt_le_weak, Hq, H).
  pose proof (mp_pos u d d' Mis Hq) as Hq'. assert (Hq0' : qty_nonneg d') by (intros r H; apply Qclt_le_weak, Hq', H).
  assert (Hl' : map lbl d' = seq 0 (length d')).
  { rewrite (mis_lbl u d d' (mp_mis u d d' Mis)), Hl. f_equal. apply (Forall2_len _ _ _ Mis). }
  destruct (huang_total S d Hq0 Hp) as (t1 & e1 & H1). destruct (huang_total S d' Hq0' Hp') as (t2 & e2 & H2).
  assert (F : Forall2 (fun r r' => lbl r' = lbl r /\ buying r' = buying r) d d).
  { clear. induction d; constructor; auto. }
  assert (F' : Forall2 (fun r r' => lbl r' = lbl r /\ buying r' = buying r) d' d).
  { clear - Mis. induction Mis as [|r r' l l' [(A & _ & B & _) _] _ IH]; constructor; auto. }
  rewrite (market_profit S S smp cnt d u tm ex t1 e1 d Hl Hq Hp Ha Hd Hr F E H1).
  rewrite (market_profit S S smp' cnt' d' u tm' ex' t2 e2 d Hl' Hq' Hp' Ha' Hd' Hr' F' E' H2).
  exact (huang_truth S S d d' u t1 e1 t2 e2 Hq Hp Hp' Hu Hd Hd' Ha One Mis H1 H2).
Qed.

(** the same for Market.run *)
Lemma run_top S m smp cnt tm ex : let d := get_df (mk_bm m) in qty_pos d -> price_nonneg d ->
  snd (market_run S m (AHuang smp cnt)) = Ok (tm, ex) ->
  let rd := map (rounded 5) d in
  (ex = XEmpty /\ tm_trans tm = [] /\ (asks_pos rd -> forall ps pb c, ~ Marginal rd ps pb c)) \/
  (exists ps pb q, ex = XHuang ps pb q /\ (exists c, Marginal rd ps pb c) /\
    (tm_trans tm = [] /\ ((forall r, In r rd -> buying r = true -> wins ps pb r = false) \/
                          (forall r, In r rd -> buying r = false -> wins ps pb r = false)) \/
     exists tb ts, 0 <= tb /\ 0 <= ts /\ (tb = 0 \/ ts = 0) /\
       (exists b s, In b rd /\ In s rd /\ buying b = true /\ buying s = false /\ wins ps pb b = true /\ wins ps pb s = true) /\
       q = qmin (demand_above rd pb) (supply_below rd ps) /\ bought d (tm_trans tm) = q /\
       forall x, In x d -> traded_by (lbl x) (tm_trans tm) =
         if wins ps pb (rounded 5 x)
         then qmax 0 (qsumf qty (group_of 5 d (rounded 5 x)) - (if buying x then tb else ts)) * (qty x / qsumf qty (group_of 5 d (rounded 5 x)))
         else 0)).
Proof. intros d Q P. rewrite market_run_snd. apply (huang_market_top S smp cnt d tm ex (get_df_lbl _) Q P). Qed.

Lemma run_truth S m m' smp smp' cnt cnt' u tm ex tm' ex' :
  let d := get_df (mk_bm m) in let d' := get_df (mk_bm m') in
  qty_pos d -> price_nonneg d -> price_nonneg d' -> asks_pos d -> asks_pos d' -> prices_distinct d -> prices_distinct d' ->
  (forall r, In r d -> np_round 5 (price r) = price r) -> (forall r, In r d' -> np_round 5 (price r) = price r) ->
  (forall r r', In r d -> In r' d -> user r = u -> user r' = u -> r = r') -> Forall2 (misprice u) d d' ->
  snd (market_run S m (AHuang smp cnt)) = Ok (tm, ex) -> snd (market_run S m' (AHuang smp' cnt')) = Ok (tm', ex') ->
  profit d u (tm_trans tm') <= profit d u (tm_trans tm).
Proof. intros d d'. rewrite !market_run_snd. apply (market_truth S smp smp' cnt cnt' d d' u tm ex tm' ex' (get_df_lbl _)). Qed.
