(** Adding and removing bids. *)
From Verif Require Import QcTac Num NumFacts ModelBase ModelCurves ModelHuang Spec SpecTrade SpecMuda SpecStats SpecAlloc SpecHuang
  ListFacts CurveFacts IntersectFacts StoreFacts TradeFacts P2PTrades AllocFacts SortFacts HuangFacts HuangTop HuangTruth.

(** ** The winners and the two prices determine the outcome of the Huang auction *)
Lemma max_ration_unique (q : list Qc) t t' : qsum (map (fun x => qmax 0 (x - t)) q) = qsum (map (fun x => qmax 0 (x - t')) q) ->
  map (fun x => qmax 0 (x - t)) q = map (fun x => qmax 0 (x - t')) q.
Proof.
  assert (M : forall a b x : Qc, a <= b -> qmax 0 (x - b) <= qmax 0 (x - a)).
  { intros a b x L. destruct (qmax_case 0 (x - a)) as [[E ?]|[E ?]], (qmax_case 0 (x - b)) as [[E' ?]|[E' ?]]; rewrite E, E'; qlra. }
  change (qsumf (fun x => qmax 0 (x - t)) q = qsumf (fun x => qmax 0 (x - t')) q -> map (fun x => qmax 0 (x - t)) q = map (fun x => qmax 0 (x - t')) q).
  intro E. apply map_ext_in. intros x Hx. destruct (qle_spec t t') as [L|L].
  - symmetry. apply (qsumf_le_eq (fun x => qmax 0 (x - t')) (fun x => qmax 0 (x - t)) q); [intros; apply M, L | symmetry; exact E | exact Hx].
  - apply (qsumf_le_eq (fun x => qmax 0 (x - t)) (fun x => qmax 0 (x - t')) q); [intros; apply M; qlra | exact E | exact Hx].
Qed.

Lemma winners_sorted S d tm ps pb q : qty_nonneg d -> price_nonneg d -> prices_distinct d -> huang_auction S d = Ok (tm, XHuang ps pb q) ->
  let B1 := s_desc S (filter (wins ps pb) (buyers d)) in let L1 := s_asc S (filter (wins ps pb) (sellers d)) in
  (B1 = [] \/ L1 = []) /\ tm_trans tm = [] /\ q = qsumf qty B1 \/
  B1 <> [] /\ L1 <> [] /\ exists qs qb, rationed (map qty L1) qs /\ rationed (map qty B1) qb /\
    qsum qs = qmin (qsumf qty B1) (qsumf qty L1) /\ qsum qb = qmin (qsumf qty B1) (qsumf qty L1) /\ q = qsum qb /\ tm_trans tm = trades L1 B1 qs qb ps pb.
Proof.
  intros Hq Hp [Db Ds] E. pose proof (huang_cases S d Hq Hp) as C. rewrite E in C.
  inversion C as [Hc E1|x B1 rb B2 L1 rs L2 qs qb tm' q' EB EL Lp Cr Sf Sg D E1]. subst.
  assert (Pb : Permutation (B1 ++ rb :: B2) (buyers d)) by (rewrite <- EB; apply s_desc_perm).
  assert (Pl : Permutation (L1 ++ rs :: L2) (sellers d)) by (rewrite <- EL; apply s_asc_perm).
  pose proof (s_desc_sorted S (buyers d)) as Sd. rewrite EB in Sd.
  pose proof (s_asc_sorted S (sellers d)) as Sa. rewrite EL in Sa.
  assert (NDb : NoDup (map price (B1 ++ rb :: B2))) by (apply (Permutation_NoDup (Permutation_map price (Permutation_sym Pb))), Db).
  assert (NDl : NoDup (map price (L1 ++ rs :: L2))) by (apply (Permutation_NoDup (Permutation_map price (Permutation_sym Pl))), Ds).
  assert (FB : Permutation (filter (wins (price rs) (price rb)) (buyers d)) B1).
  { rewrite <- (filter_perm _ _ _ Pb), filter_app. rewrite map_app in NDb. pose proof (NoDup_remove_2 _ _ _ NDb) as Nrb.
    assert (Wb : forall y, In y (B1 ++ rb :: B2) -> wins (price rs) (price rb) y = qltb (price rb) (price y)).
    { intros y Hy. apply (Permutation_in _ Pb) in Hy. apply filter_In in Hy. unfold wins. rewrite (proj2 Hy). reflexivity. }
    rewrite filter_all, filter_none, app_nil_r; [reflexivity| |].
    - intros y Hy. rewrite Wb by (apply in_or_app; right; exact Hy). destruct Hy as [<-|Hy]; [apply qltb_ge; qlra|]. apply qltb_ge. exact (proj1 (proj2 (sorted_app _ _ _ _ Sd)) y Hy).
    - intros y Hy. rewrite Wb by (apply in_or_app; left; exact Hy). apply qltb_lt. pose proof (proj1 (sorted_app _ _ _ _ Sd) y Hy) as L. simpl in L.
      assert (price y <> price rb) by (intro Z; apply Nrb; apply in_or_app; left; rewrite <- Z; apply in_map, Hy).
      destruct (Qclt_le_dec (price rb) (price y)); [assumption|]. exfalso. apply H. qlra. }
  assert (FL : Permutation (filter (wins (price rs) (price rb)) (sellers d)) L1).
  { rewrite <- (filter_perm _ _ _ Pl), filter_app. rewrite map_app in NDl. pose proof (NoDup_remove_2 _ _ _ NDl) as Nrb.
    assert (Wb : forall y, In y (L1 ++ rs :: L2) -> wins (price rs) (price rb) y = qltb (price y) (price rs)).
    { intros y Hy. apply (Permutation_in _ Pl) in Hy. apply filter_In in Hy. destruct Hy as [_ Hy]. apply negb_true_iff in Hy. unfold wins. rewrite Hy. reflexivity. }
    rewrite filter_all, filter_none, app_nil_r; [reflexivity| |].
    - intros y Hy. rewrite Wb by (apply in_or_app; right; exact Hy). destruct Hy as [<-|Hy]; [apply qltb_ge; qlra|]. apply qltb_ge. exact (proj1 (proj2 (sorted_app _ _ _ _ Sa)) y Hy).
    - intros y Hy. rewrite Wb by (apply in_or_app; left; exact Hy). apply qltb_lt. pose proof (proj1 (sorted_app _ _ _ _ Sa) y Hy) as L. simpl in L.
      assert (price y <> price rs) by (intro Z; apply Nrb; apply in_or_app; left; rewrite <- Z; apply in_map, Hy).
      destruct (Qclt_le_dec (price y) (price rs)); [assumption|]. exfalso. apply H. qlra. }
  rewrite map_app in NDb, NDl. apply NoDup_app_l in NDb. apply NoDup_app_l in NDl.
  assert (UB : s_desc S (filter (wins (price rs) (price rb)) (buyers d)) = B1).
  { symmetry. apply (sorted_unique price (fun a b => b <= a)); [intros a b H1 H2; apply Qcle_antisym; assumption | | exact NDb | | apply s_desc_sorted].
    - rewrite (s_desc_perm S). symmetry. exact FB.
    - exact (proj1 (proj2 (proj2 (sorted_app _ _ _ _ Sd)))). }
  assert (UL : s_asc S (filter (wins (price rs) (price rb)) (sellers d)) = L1).
  { symmetry. apply (sorted_unique price (fun a b => a <= b)); [intros a b H1 H2; apply Qcle_antisym; assumption | | exact NDl | | apply s_asc_sorted].
    - rewrite (s_asc_perm S). symmetry. exact FL.
    - exact (proj1 (proj2 (proj2 (sorted_app _ _ _ _ Sa)))). }
  cbv zeta. rewrite UB, UL. destruct D as [(Z & -> & Eq)|(NB & NL & Rs & Rb & _ & Ss & Sb & Eq & T)]; [left; auto | right]. split; [exact NB|]. split; [exact NL|].
  exists qs, qb. repeat (split; [assumption|]). assumption.
Qed.

Lemma huang_determined S S' d d' tm tm' ps pb q q' : qty_nonneg d -> price_nonneg d -> prices_distinct d -> qty_nonneg d' -> price_nonneg d' -> prices_distinct d' ->
  huang_auction S d = Ok (tm, XHuang ps pb q) -> huang_auction S' d' = Ok (tm', XHuang ps pb q') ->
  Permutation (filter (wins ps pb) d) (filter (wins ps pb) d') -> tm_trans tm' = tm_trans tm /\ q' = q.
Proof.
  intros Hq Hp Hd Hq' Hp' Hd' E E' P.
  pose proof (winners_sorted S d tm ps pb q Hq Hp Hd E) as W. pose proof (winners_sorted S' d' tm' ps pb q' Hq' Hp' Hd' E') as W'. cbv zeta in W, W'.
  assert (Sw : forall (f g : row -> bool) l, filter f (filter g l) = filter g (filter f l)).
  { intros f g l. rewrite !filter_filter. apply filter_ext. intro. apply andb_comm. }
  assert (UB : s_desc S' (filter (wins ps pb) (buyers d')) = s_desc S (filter (wins ps pb) (buyers d))).
  { apply desc_unique.
    - unfold buyers. rewrite !(Sw (wins ps pb)). apply filter_perm. symmetry. exact P.
    - apply NoDup_filter_map. apply Hd'. }
  assert (UL : s_asc S' (filter (wins ps pb) (sellers d')) = s_asc S (filter (wins ps pb) (sellers d))).
  { apply asc_unique.
    - unfold sellers. rewrite !(Sw (wins ps pb)). apply filter_perm. symmetry. exact P.
    - apply NoDup_filter_map. apply Hd'. }
  rewrite UB, UL in W'.
  destruct W as [(Z & T & Eq)|(N1 & N2 & qs & qb & (t & _ & Rs) & (s & _ & Rb) & Ss & Sb & Eq & T)], W' as [(Z' & T' & Eq')|(N1' & N2' & qs' & qb' & (t' & _ & Rs') & (s' & _ & Rb') & Ss' & Sb' & Eq' & T')].
  - split; congruence.
  - exfalso. destruct Z as [Z|Z]; congruence.
  - exfalso. destruct Z' as [Z'|Z']; congruence.
  - assert (qs' = qs) as ->. { rewrite Rs, Rs'. apply max_ration_unique. rewrite <- Rs, <- Rs'. congruence. }
    assert (qb' = qb) as ->. { rewrite Rb, Rb'. apply max_ration_unique. rewrite <- Rb, <- Rb'. congruence. }
    split; congruence.
Qed.

(** ** Losing bids may leave *)
Section Leave.
  Variables (d : df) (keep : row -> bool) (ps pb c : Qc).
  Hypothesis Hq : qty_nonneg d.
  Hypothesis K : forall r, In r d -> (if buying r then pb <= price r else price r <= ps) -> keep r = true.
  Let d' := filter keep d.
  Lemma leave_le (f g : row -> bool) : (forall r, f r = true -> g r = true) -> qsumf qty (filter f d') <= qsumf qty (filter g d).
  Proof.
    intro H. unfold d'. rewrite filter_filter, !qsumf_filter. apply qsumf_le. intros r Hr. specialize (Hq r Hr). specialize (H r).
    destruct (keep r), (f r), (g r); cbn [andb]; try qlra; discriminate (H eq_refl).
  Qed.
  Lemma leave_same (f : row -> bool) : (forall r, In r d -> f r = true -> keep r = true) -> qsumf qty (filter f d') = qsumf qty (filter f d).
  Proof.
    intro H. unfold d'. rewrite filter_filter. f_equal. apply filter_ext_in. intros r Hr. specialize (H r Hr).
    destruct (keep r), (f r); cbn [andb]; try reflexivity; discriminate (H eq_refl).
  Qed.
  Lemma leave_marginal : Marginal d ps pb c -> Marginal d' ps pb c.
  Proof.
    intros (C0 & L & D1 & D2 & D3 & D4 & M). split; [exact C0|]. split; [exact L|].
    assert (A1 : demand_above d' pb = demand_above d pb).
    { apply leave_same. intros r Hr H. apply andb_true_iff in H. destruct H as [B H]. apply qltb_lt in H. apply K; [exact Hr|]. rewrite B. qlra. }
    assert (A2 : demand_at d' pb = demand_at d pb).
    { apply leave_same. intros r Hr H. apply andb_true_iff in H. destruct H as [B H]. apply qleb_le in H. apply K; [exact Hr|]. rewrite B. exact H. }
    assert (A3 : supply_below d' ps = supply_below d ps).
    { apply leave_same. intros r Hr H. apply andb_true_iff in H. destruct H as [B H]. apply negb_true_iff in B. apply qltb_lt in H. apply K; [exact Hr|]. rewrite B. qlra. }
    assert (A4 : supply_at d' ps = supply_at d ps).
    { apply leave_same. intros r Hr H. apply andb_true_iff in H. destruct H as [B H]. apply negb_true_iff in B. apply qleb_le in H. apply K; [exact Hr|]. rewrite B. exact H. }
    rewrite A1, A2, A3, A4. repeat (split; [assumption|]). intro p. specialize (M p).
    assert (demand_at d' p <= demand_at d p) by (apply leave_le; auto). assert (supply_at d' p <= supply_at d p) by (apply leave_le; auto).
    destruct (qmin_case (demand_at d p) (supply_at d p)) as [[E ?]|[E ?]], (qmin_case (demand_at d' p) (supply_at d' p)) as [[E' ?]|[E' ?]]; rewrite E in M; rewrite E'; qlra.
  Qed.
End Leave.

Theorem huang_leave S S' d keep tm ps pb q : qty_pos d -> price_nonneg d -> prices_distinct d -> asks_pos d ->
  (forall r, In r d -> (if buying r then pb <= price r else price r <= ps) -> keep r = true) ->
  huang_auction S d = Ok (tm, XHuang ps pb q) ->
  exists tm', huang_auction S' (filter keep d) = Ok (tm', XHuang ps pb q) /\ tm_trans tm' = tm_trans tm.
Proof.
  intros Q Hp Hd Ha K E. assert (Hq : qty_nonneg d) by (intros r Hr; apply Qclt_le_weak, Q, Hr).
  assert (Sub : forall r, In r (filter keep d) -> In r d) by (intros r Hr; apply filter_In in Hr; tauto).
  assert (Hq' : qty_nonneg (filter keep d)) by (intros r Hr; apply Hq, Sub, Hr).
  assert (Hp' : price_nonneg (filter keep d)) by (intros r Hr; apply Hp, Sub, Hr).
  assert (Hd' : prices_distinct (filter keep d)).
  { destruct Hd as [H1 H2]. split; rewrite filter_filter; [rewrite (filter_ext _ (fun r => buying r && keep r)) by (intro; apply andb_comm) | rewrite (filter_ext _ (fun r => negb (buying r) && keep r)) by (intro; apply andb_comm)];
      rewrite <- filter_filter; apply NoDup_filter_map; assumption. }
  destruct (huang_marginal S d Hq Hp tm ps pb q Q E) as (c & M & _).
  pose proof (leave_marginal d keep ps pb c Hq K M) as M'.
  destruct (marginal_huang S' (filter keep d) Hq' Hp' ps pb c) as (tm' & q' & E'); [intros r Hr; apply Ha, Sub, Hr | exact M'|].
  destruct (huang_determined S S' d (filter keep d) tm tm' ps pb q q') as [T ->]; try assumption; [|exists tm'; auto].
  rewrite filter_filter. erewrite filter_ext_in; [reflexivity|]. intros r Hr. cbv beta.
  destruct (wins ps pb r) eqn:W; [|rewrite andb_false_r; reflexivity]. rewrite K; [reflexivity | exact Hr|].
  unfold wins in W. destruct (buying r); apply qltb_lt in W; qlra.
Qed.

(** ** More demand, more supply *)
Lemma more_demand d l ps pb c ps' pb' c' p : qty_nonneg d -> qty_nonneg l -> (forall r, In r l -> buying r = true) ->
  Marginal d ps pb c -> qmin (demand_at d p) (supply_at d p) = c -> Marginal (d ++ l) ps' pb' c' -> c <= c' /\ ps <= ps'.
Proof.
  intros Hq Hl B (C0 & L & D1 & D2 & D3 & D4 & M) At (C0' & L' & D1' & D2' & D3' & D4' & M').
  assert (A1 : demand_at d p <= demand_at (d ++ l) p).
  { unfold demand_at. rewrite filter_app, qsumf_app. assert (0 <= qsumf qty (filter (fun r => buying r && qleb p (price r)) l)); [|qlra].
    apply qsumf_nonneg. intros r Hr. apply filter_In in Hr. apply Hl; tauto. }
  assert (A2 : forall z, supply_at (d ++ l) z = supply_at d z).
  { intro z. unfold supply_at. rewrite filter_app, qsumf_app, (filter_none _ l); [rewrite qsumf_nil; ring|]. intros r Hr. rewrite (B r Hr). reflexivity. }
  assert (CC : c <= c').
  { specialize (M' p). rewrite A2 in M'. rewrite <- At. destruct (qmin_case (demand_at d p) (supply_at d p)) as [[E ?]|[E ?]], (qmin_case (demand_at (d ++ l) p) (supply_at d p)) as [[E' ?]|[E' ?]]; rewrite E; rewrite E' in M'; qlra. }
  split; [exact CC|]. apply Qcnot_lt_le. intro G. pose proof (supply_mono d ps' ps Hq G). rewrite A2 in D4'. qlra.
Qed.
Lemma more_supply d l ps pb c ps' pb' c' p : qty_nonneg d -> qty_nonneg l -> (forall r, In r l -> buying r = false) ->
  Marginal d ps pb c -> qmin (demand_at d p) (supply_at d p) = c -> Marginal (d ++ l) ps' pb' c' -> c <= c' /\ pb' <= pb.
Proof.
  intros Hq Hl B (C0 & L & D1 & D2 & D3 & D4 & M) At (C0' & L' & D1' & D2' & D3' & D4' & M').
  assert (A1 : supply_at d p <= supply_at (d ++ l) p).
  { unfold supply_at. rewrite filter_app, qsumf_app. assert (0 <= qsumf qty (filter (fun r => negb (buying r) && qleb (price r) p) l)); [|qlra].
    apply qsumf_nonneg. intros r Hr. apply filter_In in Hr. apply Hl; tauto. }
  assert (A2 : forall z, demand_at (d ++ l) z = demand_at d z).
  { intro z. unfold demand_at. rewrite filter_app, qsumf_app, (filter_none _ l); [rewrite qsumf_nil; ring|]. intros r Hr. rewrite (B r Hr). reflexivity. }
  assert (CC : c <= c').
  { specialize (M' p). rewrite A2 in M'. rewrite <- At. destruct (qmin_case (demand_at d p) (supply_at d p)) as [[E ?]|[E ?]], (qmin_case (demand_at d p) (supply_at (d ++ l) p)) as [[E' ?]|[E' ?]]; rewrite E; rewrite E' in M'; qlra. }
  split; [exact CC|]. apply Qcnot_lt_le. intro G. pose proof (demand_mono d pb pb' Hq G). rewrite A2 in D2'. qlra.
Qed.
Lemma huang_more S S' d l tm ps pb q tm' ps' pb' q' side : qty_pos d -> price_nonneg d -> qty_pos l -> price_nonneg l ->
  (forall r, In r l -> buying r = side) -> huang_auction S d = Ok (tm, XHuang ps pb q) -> huang_auction S' (d ++ l) = Ok (tm', XHuang ps' pb' q') ->
  (exists c c', Marginal d ps pb c /\ Marginal (d ++ l) ps' pb' c' /\ c <= c') /\ if side then ps <= ps' else pb' <= pb.
Proof.
  intros Q Hp Ql Hpl B E E'.
  assert (Hq : qty_nonneg d) by (intros r Hr; apply Qclt_le_weak, Q, Hr). assert (Hl : qty_nonneg l) by (intros r Hr; apply Qclt_le_weak, Ql, Hr).
  assert (Q' : qty_pos (d ++ l)) by (intros r Hr; apply in_app_or in Hr; destruct Hr; auto).
  assert (Hp' : price_nonneg (d ++ l)) by (intros r Hr; apply in_app_or in Hr; destruct Hr; auto).
  assert (Hq' : qty_nonneg (d ++ l)) by (intros r Hr; apply Qclt_le_weak, Q', Hr).
  destruct (huang_marginal S d Hq Hp tm ps pb q Q E) as (c & M & At).
  destruct (huang_marginal S' (d ++ l) Hq' Hp' tm' ps' pb' q' Q' E') as (c' & M' & _).
  assert (L : ps <= ps /\ ps <= pb) by (destruct M as (_ & L & _); split; qlra). specialize (At ps (proj1 L) (proj2 L)).
  destruct side.
  - destruct (more_demand d l ps pb c ps' pb' c' ps Hq Hl B M At M') as [C P]. split; [exists c, c'; auto | exact P].
  - destruct (more_supply d l ps pb c ps' pb' c' ps Hq Hl B M At M') as [C P]. split; [exists c, c'; auto | exact P].
Qed.
