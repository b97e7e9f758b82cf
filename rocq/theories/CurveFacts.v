(** Facts about demand and supply curves. *)
From Verif Require Import QcTac Num ModelBase ModelCurves NumFacts ListFacts Spec.

Definition crows (a : Qc) (l : df) : curve :=
  combine (map Fin (cumsum_from a (map qty l))) (map (fun r => Fin (price r)) l).

Lemma curve_rows_crows l : curve_rows l = crows 0 l.
Proof. reflexivity. Qed.
Lemma crows_cons a r l : crows a (r :: l) = (Fin (a + qty r), Fin (price r)) :: crows (a + qty r) l.
Proof. reflexivity. Qed.
Lemma crows_length a l : length (crows a l) = length l.
Proof. revert a; induction l as [|r l IH]; intro a; [reflexivity|]. rewrite crows_cons. simpl. rewrite IH. reflexivity. Qed.

Lemma crows_nth a l i r : nth_error l i = Some r ->
  nth_error (crows a l) i = Some (Fin (a + qsumf qty (firstn (S i) l)), Fin (price r)).
Proof.
  revert a i; induction l as [|x l IH]; intros a [|i] H; simpl in H; try discriminate; rewrite crows_cons.
  - injection H as ->. simpl firstn. rewrite qsumf_cons, qsumf_nil. simpl. do 2 f_equal. f_equal. ring.
  - simpl nth_error. rewrite (IH _ _ H). change (firstn (S (S i)) (x :: l)) with (x :: firstn (S i) l).
    rewrite qsumf_cons. do 2 f_equal. f_equal. ring.
Qed.

Lemma step_search_rows l a x tail : a < x -> 
  (exists l1 r l2, l = l1 ++ r :: l2 /\ a + qsumf qty l1 < x /\ x <= a + qsumf qty l1 + qty r /\
     step_search (Fin x) (crows a l ++ tail) = Some (Fin (price r))) \/
  (a + qsumf qty l < x /\ step_search (Fin x) (crows a l ++ tail) = step_search (Fin x) tail).
Proof.
  revert a; induction l as [|r l IH]; intros a Ha.
  - right. rewrite qsumf_nil. split; [qlra | reflexivity].
  - rewrite crows_cons. cbn [app step_search nleb].
    destruct (qle_spec x (a + qty r)) as [Hle|Hlt].
    + left. exists [], r, l. rewrite qsumf_nil. repeat split; try qlra.
    + destruct (IH _ Hlt) as [(l1 & r' & l2 & E & H1 & H2 & H3)|[H1 H2]].
      * left. exists (r :: l1), r', l2. rewrite qsumf_cons. subst l. repeat split; try qlra. exact H3.
      * right. rewrite qsumf_cons. split; [qlra | exact H2].
Qed.

(** rows kept by a price condition in a sorted list *)
Lemma sum_filter_ge l1 (r : row) l2 (p : row -> bool) :
  (forall y, In y (l1 ++ r :: l2) -> 0 <= qty y) ->
  (forall y, In y l1 -> p y = true) -> p r = true ->
  qsumf qty l1 + qty r <= qsumf qty (filter p (l1 ++ r :: l2)).
Proof.
  intros H0 H1 Hr. rewrite filter_app. simpl. rewrite Hr, (filter_all p l1 H1), qsumf_app, qsumf_cons.
  assert (0 <= qsumf qty (filter p l2)).
  { apply qsumf_nonneg. intros y Hy. apply filter_In in Hy. apply H0, in_or_app. right. right. apply Hy. }
  qlra.
Qed.
Lemma sum_filter_le l1 (r : row) l2 (p : row -> bool) :
  (forall y, In y (l1 ++ r :: l2) -> 0 <= qty y) ->
  (forall y, In y l2 -> p y = false) -> p r = false ->
  qsumf qty (filter p (l1 ++ r :: l2)) <= qsumf qty l1.
Proof.
  intros H0 H1 Hr. rewrite filter_app. simpl. rewrite Hr, (filter_none p l2 H1), app_nil_r.
  rewrite (qsumf_filter_split qty p l1).
  assert (0 <= qsumf qty (filter (fun x => negb (p x)) l1)).
  { apply qsumf_nonneg. intros y Hy. apply filter_In in Hy. apply H0, in_or_app. left. apply Hy. }
  qlra.
Qed.

Section Curves.
  Variable S : sorter.
  Variable d : df.
  Hypothesis Hq : qty_nonneg d.

  Lemma desc_in r : In r (s_desc S (buyers d)) <-> In r d /\ buying r = true.
  Proof.
    split.
    - intro H. apply (Permutation_in r (s_desc_perm S _)) in H. apply filter_In in H. exact H.
    - intro H. apply (Permutation_in r (Permutation_sym (s_desc_perm S _))). apply filter_In. exact H.
  Qed.
  Lemma asc_in r : In r (s_asc S (sellers d)) <-> In r d /\ buying r = false.
  Proof.
    split.
    - intro H. apply (Permutation_in r (s_asc_perm S _)) in H. apply filter_In in H.
      rewrite negb_true_iff in H. exact H.
    - intro H. apply (Permutation_in r (Permutation_sym (s_asc_perm S _))). apply filter_In.
      rewrite negb_true_iff. exact H.
  Qed.

  Lemma demand_filter (c : row -> bool) :
    qsumf qty (filter (fun r => buying r && c r) d) = qsumf qty (filter c (s_desc S (buyers d))).
  Proof.
    rewrite <- filter_filter. apply qsumf_perm, filter_perm. symmetry. apply s_desc_perm.
  Qed.
  Lemma supply_filter (c : row -> bool) :
    qsumf qty (filter (fun r => negb (buying r) && c r) d) = qsumf qty (filter c (s_asc S (sellers d))).
  Proof.
    rewrite <- (filter_filter c (fun r => negb (buying r))).
    apply qsumf_perm, filter_perm. symmetry. apply s_asc_perm.
  Qed.
  Lemma demand_total : total_demand d = qsumf qty (s_desc S (buyers d)).
  Proof. apply qsumf_perm. symmetry. apply s_desc_perm. Qed.
  Lemma supply_total : total_supply d = qsumf qty (s_asc S (sellers d)).
  Proof. apply qsumf_perm. symmetry. apply s_asc_perm. Qed.

  Lemma get_value_pos x f : 0 <= x -> get_value_stepwise (Fin x) f = step_search (Fin x) f.
  Proof.
    intro H. unfold get_value_stepwise. unfold nltb. destruct (qlt_spec x 0); [qlra | reflexivity].
  Qed.

  Lemma demand_inverse x : 0 < x -> x <= total_demand d ->
    exists p, get_value_stepwise (Fin x) (fst (demand_curve_from_bids S d)) = Some (Fin p) /\
      x <= demand_at d p /\ demand_above d p < x /\ exists r, In r d /\ buying r = true /\ price r = p.
  Proof.
    intros H0 Hx. rewrite get_value_pos by qlra. unfold demand_curve_from_bids; simpl fst.
    rewrite curve_rows_crows. set (l := s_desc S (buyers d)).
    assert (Hs : StronglySorted (fun a b => price b <= price a) l) by apply s_desc_sorted.
    assert (Hin : forall y, In y l -> 0 <= qty y) by (intros y Hy; apply Hq; apply desc_in in Hy; apply Hy).
    destruct (step_search_rows l 0 x [(PInf, Fin 0)] H0) as [(l1 & r & l2 & E & H1 & H2 & H3)|[H1 _]].
    - exists (price r). rewrite E in Hs, Hin. destruct (sorted_app _ _ _ _ Hs) as (A1 & A2 & _).
      unfold demand_at, demand_above. rewrite !demand_filter. fold l. rewrite E in H3. rewrite E.
      repeat split.
      + exact H3.
      + pose proof (sum_filter_ge l1 r l2 (fun y => qleb (price r) (price y)) Hin) as G.
        enough (qsumf qty l1 + qty r <= qsumf qty (filter (fun r0 => qleb (price r) (price r0)) (l1 ++ r :: l2))) by qlra.
        apply G.
        * intros y Hy. apply qleb_le. apply A1, Hy.
        * apply qleb_le. qlra.
      + pose proof (sum_filter_le l1 r l2 (fun y => qltb (price r) (price y)) Hin) as G.
        enough (qsumf qty (filter (fun r0 => qltb (price r) (price r0)) (l1 ++ r :: l2)) <= qsumf qty l1) by qlra.
        apply G.
        * intros y Hy. apply qltb_ge. apply A2, Hy.
        * apply qltb_ge. qlra.
      + exists r. assert (I : In r l) by (rewrite E; apply in_or_app; right; left; reflexivity).
        apply desc_in in I. tauto.
    - rewrite demand_total in Hx. fold l in Hx. exfalso. qlra.
  Qed.

  Lemma demand_beyond x : 0 <= x -> total_demand d < x ->
    get_value_stepwise (Fin x) (fst (demand_curve_from_bids S d)) = Some (Fin 0).
  Proof.
    intros H0 Hx. rewrite get_value_pos by qlra. unfold demand_curve_from_bids; simpl fst.
    rewrite curve_rows_crows. set (l := s_desc S (buyers d)).
    rewrite demand_total in Hx; fold l in Hx.
    assert (Hin : forall y, In y l -> 0 <= qty y) by (intros y Hy; apply Hq; apply desc_in in Hy; apply Hy).
    assert (Hx0 : 0 < x) by (pose proof (qsumf_nonneg qty l Hin); qlra).
    destruct (step_search_rows l 0 x [(PInf, Fin 0)] Hx0) as [(l1 & r & l2 & E & H1 & H2 & H3)|[H1 H2]].
    - exfalso. rewrite E in Hx, Hin. rewrite qsumf_app, qsumf_cons in Hx.
      assert (0 <= qsumf qty l2).
      { apply qsumf_nonneg. intros y Hy. apply Hin, in_or_app. right; right; exact Hy. }
      qlra.
    - rewrite H2. reflexivity.
  Qed.

  Lemma supply_inverse x : 0 < x -> x <= total_supply d ->
    exists p, get_value_stepwise (Fin x) (fst (supply_curve_from_bids S d)) = Some (Fin p) /\
      x <= supply_at d p /\ supply_below d p < x /\ exists r, In r d /\ buying r = false /\ price r = p.
  Proof.
    intros H0 Hx. rewrite get_value_pos by qlra. unfold supply_curve_from_bids; simpl fst.
    rewrite curve_rows_crows. set (l := s_asc S (sellers d)).
    assert (Hs : StronglySorted (fun a b => price a <= price b) l) by apply s_asc_sorted.
    assert (Hin : forall y, In y l -> 0 <= qty y) by (intros y Hy; apply Hq; apply asc_in in Hy; apply Hy).
    destruct (step_search_rows l 0 x [(PInf, PInf)] H0) as [(l1 & r & l2 & E & H1 & H2 & H3)|[H1 _]].
    - exists (price r). rewrite E in Hs, Hin. destruct (sorted_app _ _ _ _ Hs) as (A1 & A2 & _).
      unfold supply_at, supply_below. rewrite !supply_filter. fold l. rewrite E in H3. rewrite E.
      repeat split.
      + exact H3.
      + pose proof (sum_filter_ge l1 r l2 (fun y => qleb (price y) (price r)) Hin) as G.
        enough (qsumf qty l1 + qty r <= qsumf qty (filter (fun r0 => qleb (price r0) (price r)) (l1 ++ r :: l2))) by qlra.
        apply G.
        * intros y Hy. apply qleb_le. apply A1, Hy.
        * apply qleb_le. qlra.
      + pose proof (sum_filter_le l1 r l2 (fun y => qltb (price y) (price r)) Hin) as G.
        enough (qsumf qty (filter (fun r0 => qltb (price r0) (price r)) (l1 ++ r :: l2)) <= qsumf qty l1) by qlra.
        apply G.
        * intros y Hy. apply qltb_ge. apply A2, Hy.
        * apply qltb_ge. qlra.
      + exists r. assert (I : In r l) by (rewrite E; apply in_or_app; right; left; reflexivity).
        apply asc_in in I. tauto.
    - rewrite supply_total in Hx. fold l in Hx. exfalso. qlra.
  Qed.

  Lemma supply_beyond x : 0 <= x -> total_supply d < x ->
    get_value_stepwise (Fin x) (fst (supply_curve_from_bids S d)) = Some PInf.
  Proof.
    intros H0 Hx. rewrite get_value_pos by qlra. unfold supply_curve_from_bids; simpl fst.
    rewrite curve_rows_crows. set (l := s_asc S (sellers d)).
    rewrite supply_total in Hx; fold l in Hx.
    assert (Hin : forall y, In y l -> 0 <= qty y) by (intros y Hy; apply Hq; apply asc_in in Hy; apply Hy).
    assert (Hx0 : 0 < x) by (pose proof (qsumf_nonneg qty l Hin); qlra).
    destruct (step_search_rows l 0 x [(PInf, PInf)] Hx0) as [(l1 & r & l2 & E & H1 & H2 & H3)|[H1 H2]].
    - exfalso. rewrite E in Hx, Hin. rewrite qsumf_app, qsumf_cons in Hx.
      assert (0 <= qsumf qty l2).
      { apply qsumf_nonneg. intros y Hy. apply Hin, in_or_app. right; right; exact Hy. }
      qlra.
    - rewrite H2. reflexivity.
  Qed.
End Curves.

(** The price in [demand_inverse] is unique. *)
Lemma demand_mono d p q : qty_nonneg d -> p < q -> demand_at d q <= demand_above d p.
Proof.
  intros Hq L. unfold demand_at, demand_above. rewrite !qsumf_filter. apply qsumf_le.
  intros r Hr. specialize (Hq r Hr). destruct (buying r); simpl; [|qlra].
  destruct (qle_spec q (price r)), (qlt_spec p (price r)); qlra.
Qed.
Lemma supply_mono d p q : qty_nonneg d -> p < q -> supply_at d p <= supply_below d q.
Proof.
  intros Hq L. unfold supply_at, supply_below. rewrite !qsumf_filter. apply qsumf_le.
  intros r Hr. specialize (Hq r Hr). destruct (buying r); simpl; [qlra|].
  destruct (qle_spec (price r) p), (qlt_spec (price r) q); qlra.
Qed.
Lemma demand_price_unique d x p q : qty_nonneg d ->
  x <= demand_at d p -> demand_above d p < x -> x <= demand_at d q -> demand_above d q < x -> p = q.
Proof.
  intros Hq. intros. destruct (Qclt_le_dec p q) as [L|L].
  - pose proof (demand_mono d p q Hq L). exfalso; qlra.
  - destruct (Qclt_le_dec q p) as [L'|L']; [|qlra].
    pose proof (demand_mono d q p Hq L'). exfalso; qlra.
Qed.
Lemma supply_price_unique d x p q : qty_nonneg d ->
  x <= supply_at d p -> supply_below d p < x -> x <= supply_at d q -> supply_below d q < x -> p = q.
Proof.
  intros Hq. intros. destruct (Qclt_le_dec p q) as [L|L].
  - pose proof (supply_mono d p q Hq L). exfalso; qlra.
  - destruct (Qclt_le_dec q p) as [L'|L']; [|qlra].
    pose proof (supply_mono d q p Hq L'). exfalso; qlra.
Qed.

(** ** Evaluation as a relation *)
Lemma step_search_iff f x v : step_search x f = Some v <-> exists i, StepAt f x i v.
Proof.
  induction f as [|[a w] f IH]; simpl.
  - split; [discriminate|]. intros (i & (a & H & _) & _). destruct i; discriminate.
  - destruct (nleb x a) eqn:E.
    + split.
      * intro H. injection H as ->. exists 0%nat. split; [exists a; auto|]. intros j ? ? L. lia.
      * intros (i & (a' & H1 & H2) & H3). destruct i as [|i]; simpl in H1; [congruence|].
        rewrite (H3 0%nat a w) in E; [discriminate | lia | reflexivity].
    + rewrite IH. split.
      * intros (i & (a' & H1 & H2) & H3). exists (S i). split; [exists a'; auto|].
        intros [|j] b w' L Hj; simpl in Hj; [congruence|]. apply (H3 j b w'); [lia | exact Hj].
      * intros (i & (a' & H1 & H2) & H3). destruct i as [|i]; simpl in H1; [congruence|].
        exists i. split; [exists a'; auto|].
        intros j b w' L Hj. apply (H3 (S j) b w'); [lia | exact Hj].
Qed.

Lemma StepAt_fun f x i v j w : StepAt f x i v -> StepAt f x j w -> i = j /\ v = w.
Proof.
  intros ((a & H1 & H2) & H3) ((b & G1 & G2) & G3).
  destruct (Nat.lt_trichotomy i j) as [L|[->|L]].
  - rewrite (G3 i a v L H1) in H2. discriminate.
  - split; congruence.
  - rewrite (H3 j b w L G1) in G2. discriminate.
Qed.

Lemma get_value_iff f x v : nleb (Fin 0) x = true ->
  (get_value_stepwise x f = Some v <-> exists i, StepAt f x i v).
Proof.
  intro H. unfold get_value_stepwise. destruct (nltb x (Fin 0)) eqn:E.
  - exfalso. exact (nlt_not_le _ _ E H).
  - apply step_search_iff.
Qed.

Lemma StepAt_exists f x p : In p f -> nleb x (fst p) = true -> exists i v, StepAt f x i v.
Proof.
  intros Hp Hx. destruct (step_search x f) as [v|] eqn:E.
  - apply step_search_iff in E. destruct E as (i & E). eauto.
  - exfalso. induction f as [|[a w] f IH]; [contradiction|]. simpl in E.
    destruct (nleb x a) eqn:E'; [discriminate|]. destruct Hp as [<-|Hp]; simpl in *; [congruence | auto].
Qed.

Lemma StepAt_in f x i v : StepAt f x i v -> exists a, In (a, v) f /\ nleb x a = true /\ nth_error f i = Some (a, v).
Proof. intros ((a & H & L) & _). exists a. repeat split; auto. eapply nth_error_In; eauto. Qed.

Lemma sorted_nth {A} (R : A -> A -> Prop) l i j x y :
  StronglySorted R l -> (i < j)%nat -> nth_error l i = Some x -> nth_error l j = Some y -> R x y.
Proof.
  intro H; revert i j; induction H as [|a l H IH Ha]; intros [|i] [|j] L Hi Hj; simpl in *; try discriminate; try lia.
  - injection Hi as ->. rewrite Forall_forall in Ha. apply Ha. eapply nth_error_In; eauto.
  - apply (IH i j); auto. lia.
Qed.

Lemma StepAt_mono f x y i v j w : nle x y -> StepAt f x i v -> StepAt f y j w -> (i <= j)%nat.
Proof.
  intros L ((a & H1 & H2) & H3) ((b & G1 & G2) & G3).
  destruct (Nat.le_gt_cases i j) as [|C]; [assumption|].
  specialize (H3 j b w C G1). exfalso.
  assert (X : nle x b) by (apply (nle_trans _ y); assumption). unfold nle in X. congruence.
Qed.
Lemma StepAt_dec f x y i v j w : decreasing f -> nle x y -> StepAt f x i v -> StepAt f y j w -> nle w v.
Proof.
  intros [Hv Hs] L Hx Hy. pose proof (StepAt_mono _ _ _ _ _ _ _ L Hx Hy) as Le.
  destruct Hx as ((a & H1 & _) & _). destruct Hy as ((b & G1 & _) & _).
  destruct (Nat.eq_dec i j) as [->|N].
  - replace w with v by congruence. apply nle_refl. apply nth_error_In in H1. apply (Hv _ H1).
  - assert (Lt : (i < j)%nat) by lia. apply (sorted_nth _ _ i j _ _ Hs Lt H1 G1).
Qed.
Lemma StepAt_inc f x y i v j w : increasing f -> nle x y -> StepAt f x i v -> StepAt f y j w -> nle v w.
Proof.
  intros [Hv Hs] L Hx Hy. pose proof (StepAt_mono _ _ _ _ _ _ _ L Hx Hy) as Le.
  destruct Hx as ((a & H1 & _) & _). destruct Hy as ((b & G1 & _) & _).
  destruct (Nat.eq_dec i j) as [->|N].
  - replace w with v by congruence. apply nle_refl. apply nth_error_In in H1. apply (Hv _ H1).
  - assert (Lt : (i < j)%nat) by lia. apply (sorted_nth _ _ i j _ _ Hs Lt H1 G1).
Qed.
(** moving left without passing an end point does not change the piece *)
Lemma StepAt_left f x y i v : nle x y ->
  (forall p, In p f -> nle x (fst p) -> nle y (fst p)) -> StepAt f y i v -> StepAt f x i v.
Proof.
  intros L N ((a & H1 & H2) & H3). split.
  - exists a. split; [exact H1|]. apply (nle_trans _ y); assumption.
  - intros j b w Lt Hj. specialize (H3 j b w Lt Hj).
    destruct (nleb x b) eqn:E; [|reflexivity].
    specialize (N (b, w) (nth_error_In _ _ Hj) E). unfold nle in N; simpl in N. congruence.
Qed.

(** ** Shape of the curves (C05) *)
Section Shape.
  Variable S : sorter.
  Variable d : df.
  Lemma demand_index_perm : Permutation (snd (demand_curve_from_bids S d)) (map lbl (buyers d)).
  Proof. simpl. apply Permutation_map, s_desc_perm. Qed.
  Lemma supply_index_perm : Permutation (snd (supply_curve_from_bids S d)) (map lbl (sellers d)).
  Proof. simpl. apply Permutation_map, s_asc_perm. Qed.

  Lemma curve_shape l v :
    length (crows 0 l ++ [v]) = Datatypes.S (length l) /\
    nth_error (crows 0 l ++ [v]) (length l) = Some v /\
    forall i r, nth_error l i = Some r ->
      nth_error (crows 0 l ++ [v]) i = Some (Fin (qsumf qty (firstn (Datatypes.S i) l)), Fin (price r)).
  Proof.
    split; [rewrite app_length, crows_length; simpl; lia|]. split.
    - rewrite nth_error_app2 by (rewrite crows_length; lia). rewrite crows_length, Nat.sub_diag. reflexivity.
    - intros i r H. rewrite nth_error_app1 by (rewrite crows_length; apply nth_error_Some; congruence).
      rewrite (crows_nth 0 l i r H). do 3 f_equal. ring.
  Qed.
End Shape.

(** the curve rows of one side, in terms of the table itself *)
Lemma demand_shape S d : exists l,
  Permutation l (buyers d) /\ StronglySorted (fun a b => price b <= price a) l /\
  snd (demand_curve_from_bids S d) = map lbl l /\
  length (fst (demand_curve_from_bids S d)) = Datatypes.S (length l) /\
  nth_error (fst (demand_curve_from_bids S d)) (length l) = Some (PInf, Fin 0) /\
  forall i r, nth_error l i = Some r ->
    nth_error (fst (demand_curve_from_bids S d)) i = Some (Fin (qsumf qty (firstn (Datatypes.S i) l)), Fin (price r)).
Proof.
  exists (s_desc S (buyers d)). split; [apply s_desc_perm|]. split; [apply s_desc_sorted|]. split; [reflexivity|].
  apply curve_shape.
Qed.
Lemma supply_shape S d : exists l,
  Permutation l (sellers d) /\ StronglySorted (fun a b => price a <= price b) l /\
  snd (supply_curve_from_bids S d) = map lbl l /\
  length (fst (supply_curve_from_bids S d)) = Datatypes.S (length l) /\
  nth_error (fst (supply_curve_from_bids S d)) (length l) = Some (PInf, PInf) /\
  forall i r, nth_error l i = Some r ->
    nth_error (fst (supply_curve_from_bids S d)) i = Some (Fin (qsumf qty (firstn (Datatypes.S i) l)), Fin (price r)).
Proof.
  exists (s_asc S (sellers d)). split; [apply s_asc_perm|]. split; [apply s_asc_sorted|]. split; [reflexivity|].
  apply curve_shape.
Qed.
