(** A bid that becomes better does not trade less. *)
From Verif Require Import QcTac Num NumFacts ModelBase ModelCurves ModelHuang ModelMuda ModelMarket ModelUniform ListFacts Spec SpecTrade SpecMuda SpecHuang SpecAlloc SpecCompare SpecMono
  StoreFacts TradeFacts CurveFacts IntersectFacts P2PTrades AllocFacts HuangFacts HuangTop HuangTruth MudaSide MudaHalf MudaSolve MudaOutcome MudaFacts MudaTop UniformFacts UniformTop CompareVolume CompareTop.

(** ** Rows of one side served best first *)
Definition prio (w t : row -> Qc) (l : df) : Prop :=
  (forall x, In x l -> 0 <= t x /\ t x <= qty x) /\
  (forall x y, In x l -> In y l -> w y < w x -> t x < qty x -> t y = 0).

Lemma served_mono (w t t' : row -> Qc) l1 l2 r r' :
  prio w t (l1 ++ r :: l2) -> prio w t' (l1 ++ r' :: l2) ->
  qsumf t (l1 ++ r :: l2) <= qsumf t' (l1 ++ r' :: l2) -> qty r <= qty r' ->
  (w r < w r' \/ w r = w r' /\ forall x, In x (l1 ++ l2) -> w x <> w r) ->
  t r <= t' r'.
Proof.
  intros [B P] [B' P'] V Hq W.
  assert (Ir : In r (l1 ++ r :: l2)) by (apply in_or_app; right; left; reflexivity).
  assert (Ir' : In r' (l1 ++ r' :: l2)) by (apply in_or_app; right; left; reflexivity).
  assert (In1 : forall x, In x (l1 ++ l2) -> In x (l1 ++ r :: l2)) by (intros x Hx; apply in_app_or in Hx; apply in_or_app; simpl; tauto).
  assert (In2 : forall x, In x (l1 ++ l2) -> In x (l1 ++ r' :: l2)) by (intros x Hx; apply in_app_or in Hx; apply in_or_app; simpl; tauto).
  destruct (B r Ir) as [R0 R1]. destruct (B' r' Ir') as [R0' R1'].
  destruct (qeq_spec (t r) 0) as [Z|Z]; [rewrite Z; exact R0'|].
  destruct (qlt_spec (t' r') (qty r')) as [L|L]; [|qlra].
  assert (Pm : forall f, qsumf f (l1 ++ r :: l2) = f r + qsumf f (l1 ++ l2)) by (intro f; rewrite !qsumf_app, qsumf_cons; ring).
  assert (Pm' : forall f, qsumf f (l1 ++ r' :: l2) = f r' + qsumf f (l1 ++ l2)) by (intro f; rewrite !qsumf_app, qsumf_cons; ring).
  rewrite Pm, Pm' in V.
  assert (qsumf t' (l1 ++ l2) <= qsumf t (l1 ++ l2)); [|qlra].
  apply qsumf_le. intros x Hx. destruct (B x (In1 x Hx)) as [X0 X1]. destruct (B' x (In2 x Hx)) as [X0' X1'].
  destruct (qlt_spec (w x) (w r')) as [G|G]; [rewrite (P' r' x Ir' (In2 x Hx) G L); exact X0|].
  assert (G' : w r < w x).
  { destruct W as [W|[W N]]; [qlra|]. specialize (N x Hx). destruct (qlt_spec (w r) (w x)) as [|G']; [assumption|]. exfalso. apply N. qlra. }
  destruct (qlt_spec (t x) (qty x)) as [Lx|Lx]; [|qlra]. exfalso. apply Z. exact (P x r (In1 x Hx) Ir G' Lx).
Qed.

(** the value of a bid for its place in the order *)
Definition rank (r : row) : Qc := if buying r then price r else - price r.
Lemma rank_better l r r' : better r r' \/ larger l r r' ->
  forall m, (forall x, In x m -> In x l /\ buying x = buying r) -> rank r < rank r' \/ rank r = rank r' /\ forall x, In x m -> rank x <> rank r.
Proof.
  unfold rank. intros [(_ & -> & _ & W)|(_ & -> & _ & -> & N)] m Hm.
  - left. destruct (buying r); qlra.
  - right. split; [reflexivity|]. intros x Hx. destruct (Hm x Hx) as [I E]. specialize (N x I E). rewrite E. intro Z. apply N. destruct (buying r); qlra.
Qed.
Lemma better_parts l r r' : better r r' \/ larger l r r' -> lbl r' = lbl r /\ buying r' = buying r /\ qty r <= qty r' /\ (if buying r then price r <= price r' else price r' <= price r).
Proof. intros [(A & B & C & D)|(A & B & C & D & _)]; repeat (split; [assumption|]); destruct (buying r); qlra. Qed.

(** demand and supply at a price do not fall *)
Lemma demand_better l1 l2 r r' l q : (better r r' \/ larger l r r') -> 0 <= qty r -> demand_at (l1 ++ r :: l2) q <= demand_at (l1 ++ r' :: l2) q.
Proof.
  intros H Q0. apply better_parts in H. destruct H as (_ & B & Q & W). unfold demand_at. rewrite !filter_app, !qsumf_app. cbn [filter]. rewrite B.
  destruct (buying r); cbn [andb]; [|qlra].
  destruct (qle_spec q (price r)), (qle_spec q (price r')); rewrite ?qsumf_cons; qlra.
Qed.
Lemma supply_better l1 l2 r r' l q : (better r r' \/ larger l r r') -> 0 <= qty r -> supply_at (l1 ++ r :: l2) q <= supply_at (l1 ++ r' :: l2) q.
Proof.
  intros H Q0. apply better_parts in H. destruct H as (_ & B & Q & W). unfold supply_at. rewrite !filter_app, !qsumf_app. cbn [filter]. rewrite B.
  destruct (buying r); cbn [andb negb]; [qlra|].
  destruct (qle_spec (price r) q), (qle_spec (price r') q); rewrite ?qsumf_cons; qlra.
Qed.
Lemma qmin_mono a b c e : a <= c -> b <= e -> qmin a b <= qmin c e.
Proof. intros. destruct (qmin_case a b) as [[-> ?]|[-> ?]], (qmin_case c e) as [[-> ?]|[-> ?]]; qlra. Qed.

Lemma side_split b l1 r l2 : buying r = b -> side_of b (l1 ++ r :: l2) = side_of b l1 ++ r :: side_of b l2.
Proof. intro E. unfold side_of. rewrite filter_app. cbn [filter]. rewrite E, Bool.eqb_reflx. reflexivity. Qed.
Lemma side_in b l x : In x (side_of b l) <-> In x l /\ buying x = b.
Proof. unfold side_of. rewrite filter_In. pose proof (Bool.eqb_true_iff (buying x) b). tauto. Qed.

Lemma all_b_side d : all_b d = side_of true d.
Proof. unfold all_b, side_of. apply filter_ext. intro x. destruct (buying x); reflexivity. Qed.
Lemma all_s_side d : all_s d = side_of false d.
Proof. unfold all_s, side_of. apply filter_ext. intro x. destruct (buying x); reflexivity. Qed.
Lemma side_sum d tl b : labels_unique d -> refer d tl -> qsumf (fun x => traded_by (lbl x) tl) (side_of b d) = if b then bought d tl else sold d tl.
Proof. intros Hu Rf. destruct b; [rewrite (bought_by d tl Hu Rf), <- all_b_side | rewrite (sold_by d tl Hu Rf), <- all_s_side]; reflexivity. Qed.

(** two tables that serve one side best first, the second as much as the first *)
Lemma tables_mono l1 l2 r r' tl tl' : better r r' \/ larger (l1 ++ l2) r r' ->
  let d := l1 ++ r :: l2 in let d' := l1 ++ r' :: l2 in
  prio rank (fun x => traded_by (lbl x) tl) (side_of (buying r) d) -> prio rank (fun x => traded_by (lbl x) tl') (side_of (buying r) d') ->
  qsumf (fun x => traded_by (lbl x) tl) (side_of (buying r) d) <= qsumf (fun x => traded_by (lbl x) tl') (side_of (buying r) d') ->
  traded_by (lbl r) tl <= traded_by (lbl r) tl'.
Proof.
  intros H d d' P P' V. destruct (better_parts _ _ _ H) as (El & Eb & Eq & _). unfold d, d' in *. clear d d'.
  rewrite (side_split (buying r) l1 r l2 eq_refl) in P, V. rewrite (side_split (buying r) l1 r' l2 Eb) in P', V.
  pose proof (served_mono rank _ _ _ _ r r' P P' V Eq) as G. cbv beta in G. rewrite El in G. apply G.
  apply (rank_better (l1 ++ l2) r r' H). intros x Hx. apply in_app_or in Hx. rewrite !side_in in Hx. split; [apply in_or_app|]; tauto.
Qed.

(** ** MUDA *)
Lemma half_prio h q fees tl fees' b : HalfOk h q fees tl fees' -> prio rank (fun x => traded_by (lbl x) tl) (side_of b h).
Proof.
  intro R. split.
  - intros x Hx. apply side_in in Hx. destruct (ho_feasible _ _ _ _ _ R) as [F1 F2]. split; [|apply F2, Hx].
    apply qsumf_nonneg. intros t Ht. apply filter_In in Ht. apply F1, Ht.
  - intros x y Hx Hy W L. apply side_in in Hx. apply side_in in Hy. destruct Hx as [Hx Bx], Hy as [Hy By].
    apply (ho_priority _ _ _ _ _ R x y Hx Hy); [congruence| |exact L]. revert W. unfold rank, gain. rewrite Bx, By. destruct b; intro; qlra.
Qed.

Lemma rows_split L l1 r l2 : In (lbl r) L -> rows_in L (l1 ++ r :: l2) = rows_in L l1 ++ r :: rows_in L l2.
Proof. intro I. unfold rows_in. rewrite filter_app. cbn [filter]. apply mem_In in I. rewrite I. reflexivity. Qed.
Lemma rows_skip L l1 r l2 : ~ In (lbl r) L -> rows_in L (l1 ++ r :: l2) = rows_in L l1 ++ rows_in L l2.
Proof.
  intro I. unfold rows_in. rewrite filter_app. cbn [filter].
  destruct (existsb (Nat.eqb (lbl r)) L) eqn:X; [apply mem_In in X; contradiction|]. reflexivity.
Qed.
Lemma larger_rows L l1 l2 r r' : better r r' \/ larger (l1 ++ l2) r r' -> better r r' \/ larger (rows_in L l1 ++ rows_in L l2) r r'.
Proof.
  intros [H|(A & B & C & D & N)]; [left; exact H|]. right. repeat (split; [assumption|]).
  intros x Hx. apply N. apply in_app_or in Hx. rewrite !rows_in_In in Hx. apply in_or_app. tauto.
Qed.

(** one half at one price *)
Lemma half_mono L l1 l2 r r' p fees1 tl f1 fees2 tl' f2 :
  let d := l1 ++ r :: l2 in let d' := l1 ++ r' :: l2 in
  qty_nonneg d -> labels_unique d -> labels_unique d' -> better r r' \/ larger (l1 ++ l2) r r' -> In (lbl r) L ->
  HalfRes (rows_in L d) p fees1 tl f1 -> HalfRes (rows_in L d') p fees2 tl' f2 ->
  traded_by (lbl r) tl <= traded_by (lbl r) tl' /\
  (forall t t', In t tl -> In t' tl' -> t_price t' = t_price t).
Proof.
  intros d d' Hq Hu Hu' H I R R'. destruct (better_parts _ _ _ H) as (El & Eb & Eq & _).
  assert (I' : In (lbl r') L) by (rewrite El; exact I).
  destruct p as [q| | |]; cbn [HalfRes] in R, R'.
  2-4: destruct R as [-> _], R' as [-> _]; split; [apply Qcle_refl | intros t t' []].
  split; [|intros t t' Ht Ht'; rewrite (proj1 (ho_const _ _ _ _ _ R t Ht)), (proj1 (ho_const _ _ _ _ _ R' t' Ht')); reflexivity].
  pose proof (half_prio _ _ _ _ _ (buying r) R) as P. pose proof (half_prio _ _ _ _ _ (buying r) R') as P'.
  assert (V : qsumf (fun x => traded_by (lbl x) tl) (side_of (buying r) (rows_in L d)) <= qsumf (fun x => traded_by (lbl x) tl') (side_of (buying r) (rows_in L d'))).
  { rewrite (side_sum (rows_in L d) tl) by (apply rows_in_unique, Hu || apply (ho_refer _ _ _ _ _ R)).
    rewrite (side_sum (rows_in L d') tl') by (apply rows_in_unique, Hu' || apply (ho_refer _ _ _ _ _ R')).
    rewrite (ho_bought _ _ _ _ _ R), (ho_sold _ _ _ _ _ R), (ho_bought _ _ _ _ _ R'), (ho_sold _ _ _ _ _ R').
    assert (qmin (demand_at (rows_in L d) q) (supply_at (rows_in L d) q) <= qmin (demand_at (rows_in L d') q) (supply_at (rows_in L d') q)); [|destruct (buying r); assumption].
    assert (Q0 : 0 <= qty r) by (apply Hq, in_or_app; right; left; reflexivity).
    unfold d, d'. rewrite (rows_split L l1 r l2 I), (rows_split L l1 r' l2 I'). apply qmin_mono; [apply (demand_better _ _ r r' (l1 ++ l2)) | apply (supply_better _ _ r r' (l1 ++ l2))]; assumption. }
  unfold d, d' in *. rewrite (rows_split L l1 r l2 I) in P, V. rewrite (rows_split L l1 r' l2 I') in P', V.
  exact (tables_mono _ _ r r' tl tl' (larger_rows L l1 l2 r r' H) P P' V).
Qed.

Theorem muda_mono S l1 l2 r r' fl tm ex tm' ex' :
  let d := l1 ++ r :: l2 in let d' := l1 ++ r' :: l2 in
  qty_nonneg d -> labels_unique d -> better r r' \/ larger (l1 ++ l2) r r' ->
  muda S d fl = Ok (tm, ex) -> muda S d' fl = Ok (tm', ex') ->
  traded_by (lbl r) (tm_trans tm) <= traded_by (lbl r) (tm_trans tm') /\
  forall t t', In t (tm_trans tm) -> In t' (tm_trans tm') -> t_bid t = lbl r -> t_bid t' = lbl r -> t_price t' = t_price t.
Proof.
  intros d d' Hq Hu H E E'. destruct (better_parts _ _ _ H) as (El & Eb & Eq & _).
  assert (Em : map lbl d' = map lbl d) by (unfold d, d'; rewrite !map_app; cbn [map]; rewrite El; reflexivity).
  assert (Hu' : labels_unique d') by (unfold labels_unique; rewrite Em; exact Hu).
  assert (Ir : In r d) by (apply in_or_app; right; left; reflexivity).
  assert (Ir' : In r' d') by (apply in_or_app; right; left; reflexivity).
  assert (Hq' : qty_nonneg d').
  { intros x Hx. apply in_app_or in Hx. destruct Hx as [Hx|[<-|Hx]]; [apply Hq, in_or_app; left; exact Hx | specialize (Hq r Ir); qlra | apply Hq, in_or_app; right; right; exact Hx]. }
  destruct (muda_ok S d fl tm ex Hq Hu E) as (tlL & tlR & pl & pr & f1 & f2 & M & Et & _).
  destruct (muda_ok S d' fl tm' ex' Hq' Hu' E') as (tlL' & tlR' & pl' & pr' & f1' & f2' & M' & Et' & _).
  assert (EL : left_of d' fl = left_of d fl) by (unfold left_of; rewrite Em; reflexivity).
  assert (ER : right_of d' fl = right_of d fl) by (unfold right_of; rewrite Em, EL; reflexivity).
  assert (Dis : forall i, In i (left_of d fl) -> ~ In i (right_of d fl)) by (intros i; apply L_R).
  assert (Cov : In (lbl r) (left_of d fl ++ right_of d fl)) by (apply (Permutation_in _ (Permutation_sym (halves_perm d fl Hu))), in_map, Ir).
  rewrite Et, Et', !traded_by_app. apply in_app_or in Cov. destruct Cov as [C|C].
  - assert (Ep : pr' = pr).
    { pose proof (mo_pr _ _ _ _ _ _ _ _ _ M) as P1. pose proof (mo_pr _ _ _ _ _ _ _ _ _ M') as P2. rewrite ER in P2. unfold d, d' in P1, P2.
      rewrite rows_skip in P1 by (apply Dis, C). rewrite rows_skip in P2 by (rewrite El; apply Dis, C). congruence. }
    pose proof (mo_left _ _ _ _ _ _ _ _ _ M) as R. pose proof (mo_left _ _ _ _ _ _ _ _ _ M') as R'. rewrite EL, Ep in R'.
    destruct (half_mono _ l1 l2 r r' pr _ _ _ _ _ _ Hq Hu Hu' H C R R') as [G1 G2].
    assert (N : forall t, In t tlR -> t_bid t <> lbl r).
    { intros t Ht Z. apply (Dis (lbl r) C). rewrite <- Z. apply (tlR_lbl _ _ _ _ _ _ _ _ _ M t Ht). }
    assert (N' : forall t, In t tlR' -> t_bid t <> lbl r).
    { intros t Ht Z. apply (Dis (lbl r) C). rewrite <- Z, <- ER. apply (tlR_lbl _ _ _ _ _ _ _ _ _ M' t Ht). }
    split.
    + rewrite (traded_by_absent _ tlR), (traded_by_absent _ tlR'); [qlra| |]; rewrite in_map_iff; intros (t & Z & Ht); [exact (N' t Ht Z) | exact (N t Ht Z)].
    + intros t t' Ht Ht' Z Z'. apply in_app_or in Ht. apply in_app_or in Ht'.
      destruct Ht as [Ht|Ht]; [|destruct (N t Ht Z)]. destruct Ht' as [Ht'|Ht']; [|destruct (N' t' Ht' Z')]. apply G2; assumption.
  - assert (C' : ~ In (lbl r) (left_of d fl)) by (intro Z; exact (Dis _ Z C)).
    assert (Ep : pl' = pl).
    { pose proof (mo_pl _ _ _ _ _ _ _ _ _ M) as P1. pose proof (mo_pl _ _ _ _ _ _ _ _ _ M') as P2. rewrite EL in P2. unfold d, d' in P1, P2.
      rewrite rows_skip in P1 by exact C'. rewrite rows_skip in P2 by (rewrite El; exact C'). congruence. }
    pose proof (mo_right _ _ _ _ _ _ _ _ _ M) as R. pose proof (mo_right _ _ _ _ _ _ _ _ _ M') as R'. rewrite ER, Ep in R'.
    destruct (half_mono _ l1 l2 r r' pl _ _ _ _ _ _ Hq Hu Hu' H C R R') as [G1 G2].
    assert (N : forall t, In t tlL -> t_bid t <> lbl r).
    { intros t Ht Z. apply C'. rewrite <- Z. apply (tlL_lbl _ _ _ _ _ _ _ _ _ M t Ht). }
    assert (N' : forall t, In t tlL' -> t_bid t <> lbl r).
    { intros t Ht Z. apply C'. rewrite <- Z, <- EL. apply (tlL_lbl _ _ _ _ _ _ _ _ _ M' t Ht). }
    split.
    + rewrite (traded_by_absent _ tlL), (traded_by_absent _ tlL'); [qlra| |]; rewrite in_map_iff; intros (t & Z & Ht); [exact (N' t Ht Z) | exact (N t Ht Z)].
    + intros t t' Ht Ht' Z Z'. apply in_app_or in Ht. apply in_app_or in Ht'.
      destruct Ht as [Ht|Ht]; [destruct (N t Ht Z)|]. destruct Ht' as [Ht'|Ht']; [destruct (N' t' Ht' Z')|]. apply G2; assumption.
Qed.

(** ** The uniform price mechanism *)
Lemma uniform_prio S d tm ex b : qty_nonneg d -> price_nonneg d -> labels_unique d -> uniform_price_mechanism S d = Ok (tm, ex) ->
  prio rank (fun x => traded_by (lbl x) (tm_trans tm)) (side_of b d).
Proof.
  intros Hq Hp Hu E. destruct (uniform_summary S d Hq Hp Hu tm ex E) as (c & p & _ & _ & _ & _ & _ & _ & [F1 F2] & _ & _ & B1 & rb & B2 & L1 & rs & L2 & EB & EL & _ & _ & _ & _ & _ & _ & _ & _ & _ & T1 & _ & _ & T2).
  split.
  - intros x Hx. apply side_in in Hx. split; [|apply F2, Hx]. apply qsumf_nonneg. intros t Ht. apply filter_In in Ht. apply F1, Ht.
  - intros x y Hx Hy W L. apply side_in in Hx. apply side_in in Hy. destruct Hx as [Hx Bx], Hy as [Hy By]. unfold rank in W. rewrite Bx, By in W. destruct b.
    + pose proof (s_desc_sorted S (buyers d)) as Sd. rewrite EB in Sd. destruct (sorted_app _ _ _ _ Sd) as (S1 & S2 & _). cbv beta in S1, S2.
      assert (P : Permutation (B1 ++ rb :: B2) (buyers d)) by (rewrite <- EB; apply s_desc_perm).
      assert (Ix : In x (B1 ++ rb :: B2)) by (apply (Permutation_in _ (Permutation_sym P)), filter_In; auto).
      assert (Iy : In y (B1 ++ rb :: B2)) by (apply (Permutation_in _ (Permutation_sym P)), filter_In; auto).
      apply in_app_or in Ix. destruct Ix as [Ix|Ix]; [rewrite (T1 x (or_introl Ix)) in L; exfalso; exact (Qclt_not_le _ _ L (Qcle_refl _))|].
      assert (Wx : price x <= price rb) by (destruct Ix as [<-|Ix]; [apply Qcle_refl | apply S2, Ix]).
      apply in_app_or in Iy. destruct Iy as [Iy|[<-|Iy]]; [specialize (S1 y Iy); exfalso; qlra | exfalso; qlra | apply T2; left; exact Iy].
    + pose proof (s_asc_sorted S (sellers d)) as Sd. rewrite EL in Sd. destruct (sorted_app _ _ _ _ Sd) as (S1 & S2 & _). cbv beta in S1, S2.
      assert (P : Permutation (L1 ++ rs :: L2) (sellers d)) by (rewrite <- EL; apply s_asc_perm).
      assert (Ix : In x (L1 ++ rs :: L2)) by (apply (Permutation_in _ (Permutation_sym P)), filter_In; rewrite Bx; auto).
      assert (Iy : In y (L1 ++ rs :: L2)) by (apply (Permutation_in _ (Permutation_sym P)), filter_In; rewrite By; auto).
      apply in_app_or in Ix. destruct Ix as [Ix|Ix]; [rewrite (T1 x (or_intror Ix)) in L; exfalso; exact (Qclt_not_le _ _ L (Qcle_refl _))|].
      assert (Wx : price rs <= price x) by (destruct Ix as [<-|Ix]; [apply Qcle_refl | apply S2, Ix]).
      apply in_app_or in Iy. destruct Iy as [Iy|[<-|Iy]]; [specialize (S1 y Iy); exfalso; qlra | exfalso; qlra | apply T2; right; exact Iy].
Qed.

Theorem uniform_mono S S' l1 l2 r r' tm ex tm' ex' :
  let d := l1 ++ r :: l2 in let d' := l1 ++ r' :: l2 in
  qty_pos d -> price_nonneg d -> price_nonneg d' -> labels_unique d -> better r r' \/ larger (l1 ++ l2) r r' ->
  uniform_price_mechanism S d = Ok (tm, ex) -> uniform_price_mechanism S' d' = Ok (tm', ex') ->
  traded_by (lbl r) (tm_trans tm) <= traded_by (lbl r) (tm_trans tm').
Proof.
  intros d d' Q Hp Hp' Hu H E E'. destruct (better_parts _ _ _ H) as (El & Eb & Eq & _).
  assert (Ir : In r d) by (apply in_or_app; right; left; reflexivity).
  assert (Q' : qty_pos d').
  { intros x Hx. apply in_app_or in Hx. destruct Hx as [Hx|[<-|Hx]]; [apply Q, in_or_app; left; exact Hx | specialize (Q r Ir); qlra | apply Q, in_or_app; right; right; exact Hx]. }
  assert (Hu' : labels_unique d').
  { unfold labels_unique in *. replace (map lbl d') with (map lbl d); [exact Hu|]. unfold d, d'. rewrite !map_app. cbn [map]. rewrite El. reflexivity. }
  assert (Hq : qty_nonneg d) by (intros x Hx; apply Qclt_le_weak, Q, Hx).
  assert (Hq' : qty_nonneg d') by (intros x Hx; apply Qclt_le_weak, Q', Hx).
  apply (tables_mono l1 l2 r r' (tm_trans tm) (tm_trans tm') H).
  - apply (uniform_prio S d tm ex); assumption.
  - apply (uniform_prio S' d' tm' ex'); assumption.
  - destruct (uniform_summary S d Hq Hp Hu tm ex E) as (c & p & _ & _ & Bt & St & _ & Rf & _).
    destruct (uniform_summary S' d' Hq' Hp' Hu' tm' ex' E') as (c' & p' & _ & _ & Bt' & St' & _ & Rf' & _).
    rewrite (side_sum _ _ _ Hu Rf), (side_sum _ _ _ Hu' Rf').
    destruct (uniform_best S d tm ex Q Hp Hu E) as [_ [q Eqq]]. destruct (uniform_best S' d' tm' ex' Q' Hp' Hu' E') as [M' _]. specialize (M' q).
    rewrite Bt in Eqq. rewrite Bt' in M'. rewrite Bt, St, Bt', St'.
    assert (c <= c'); [|destruct (buying r); assumption]. rewrite <- Eqq. eapply Qcle_trans; [|exact M']. unfold tradable_at.
    apply qmin_mono; [apply (demand_better _ _ r r' (l1 ++ l2)) | apply (supply_better _ _ r r' (l1 ++ l2))]; auto.
Qed.
