(** What the figures of demand and supply show. *)
From Verif Require Import QcTac Num NumFacts ListFacts ModelBase ModelCurves ModelHuang ModelPlot Spec SpecPlot CurveFacts.

Definition ends (a X : Qc) (l : df) : list num := Fin a :: map Fin (cumsum_from a (map qty l)) ++ [Fin X].
Definition heights (e : Qc) (l : df) : list num := map (fun r => Fin (price r)) l ++ [Fin e; Fin e].

Lemma drawn_cons a b xs y ys x v : Drawn (Fin a :: Fin b :: xs) (y :: ys) x v ->
  (a <= x /\ x < b /\ y = Fin v) \/ Drawn (Fin b :: xs) ys x v.
Proof.
  intros ([|i] & a' & b' & H1 & H2 & H3 & H4 & H5); simpl in H1, H2, H5.
  - left. injection H1 as <-. injection H2 as <-. injection H5 as ->. auto.
  - right. exists i, a', b'. auto.
Qed.
Lemma drawn_tail a xs y ys x v : Drawn xs ys x v -> Drawn (Fin a :: xs) (y :: ys) x v.
Proof. intros (i & a' & b' & H). exists (S i), a', b'. exact H. Qed.
Lemma ends_cons a X r l : ends a X (r :: l) = Fin a :: ends (a + qty r) X l.
Proof. reflexivity. Qed.
Lemma drawn_rows e X x v : forall l a, Drawn (ends a X l) (heights e l) x v ->
  (exists l1 r l2, l = l1 ++ r :: l2 /\ a + qsumf qty l1 <= x /\ x < a + qsumf qty l1 + qty r /\ v = price r) \/
  (a + qsumf qty l <= x /\ x < X /\ v = e).
Proof.
  induction l as [|r l IH]; intros a D.
  - right. change (Drawn [Fin a; Fin X] [Fin e; Fin e] x v) in D. apply drawn_cons in D. rewrite qsumf_nil.
    destruct D as [(H1 & H2 & H3)|D]; [split; [qlra|]; split; congruence|].
    destruct D as ([|[|i]] & a' & b' & H1 & H2 & _); simpl in H1, H2; discriminate.
  - rewrite ends_cons in D. apply drawn_cons in D. destruct D as [(H1 & H2 & H3)|D].
    + left. exists [], r, l. rewrite qsumf_nil. repeat split; try qlra; congruence.
    + destruct (IH _ D) as [(l1 & r' & l2 & -> & H1 & H2 & H3)|(H1 & H2 & H3)].
      * left. exists (r :: l1), r', l2. rewrite qsumf_cons. repeat split; try qlra; exact H3.
      * right. rewrite qsumf_cons. repeat split; try qlra; exact H3.
Qed.
Lemma drawn_exists e X x : forall l a, a <= x -> x < X -> exists v, Drawn (ends a X l) (heights e l) x v.
Proof.
  induction l as [|r l IH]; intros a H1 H2.
  - exists e, 0%nat, a, X. repeat split; auto.
  - destruct (Qclt_le_dec x (a + qty r)) as [L|L].
    + exists (price r), 0%nat, a, (a + qty r). repeat split; auto.
    + destruct (IH _ L H2) as [v D]. exists v. rewrite ends_cons. apply drawn_tail, D.
Qed.

(** ** The arrays *)
Lemma removelast_last {A} (l : list A) x : removelast (l ++ [x]) = l.
Proof. rewrite removelast_app by discriminate. simpl. apply app_nil_r. Qed.
Lemma set_last_app v l x : set_last v (l ++ [x]) = l ++ [v].
Proof. unfold set_last. rewrite removelast_last. reflexivity. Qed.
Lemma crows_fst a l : map fst (crows a l) = map Fin (cumsum_from a (map qty l)).
Proof. revert a; induction l as [|r l IH]; intro a; [reflexivity|]. rewrite crows_cons. simpl. rewrite IH. reflexivity. Qed.
Lemma crows_snd a l : map snd (crows a l) = map (fun r => Fin (price r)) l.
Proof. revert a; induction l as [|r l IH]; intro a; [reflexivity|]. rewrite crows_cons. simpl. rewrite IH. reflexivity. Qed.
Lemma last_end : forall l a tl, from_end 2 (Fin a :: map Fin (cumsum_from a (map qty l)) ++ [tl]) = Fin (a + qsumf qty l).
Proof.
  induction l as [|r l IH]; intros a tl.
  - rewrite qsumf_nil. unfold from_end. simpl. f_equal. ring.
  - rewrite qsumf_cons. replace (a + (qty r + qsumf qty l)) with (a + qty r + qsumf qty l) by ring. rewrite <- (IH _ tl).
    unfold from_end. cbn [map cumsum_from app length]. rewrite app_length, map_length. cbn [length].
    replace (S (S (length (cumsum_from (a + qty r) (map qty l)) + 1)) - 2)%nat with (S (S (length (cumsum_from (a + qty r) (map qty l)) + 1) - 2))%nat by lia.
    reflexivity.
Qed.
Definition top_bid (l : df) : Qc := fold_left (fun m r => qmax m (price r)) l 0.
Lemma nmax_fin a b : nmax (Fin a) (Fin b) = Fin (qmax a b).
Proof. unfold nmax, nleb. destruct (qle_spec a b), (qmax_case a b) as [[E ?]|[E ?]]; rewrite E; f_equal; qlra. Qed.
Lemma max_shift : forall l a b, 0 <= a -> fold_left nmax (map (fun r => Fin (price r)) l ++ [Fin 0; Fin b]) (Fin a) = Fin (qmax (fold_left (fun m r => qmax m (price r)) l a) b).
Proof.
  induction l as [|r l IH]; intros a b H.
  - cbn [map app fold_left]. rewrite !nmax_fin. f_equal. destruct (qmax_case a 0) as [[-> _]|[-> ?]]; [reflexivity|]. f_equal. qlra.
  - cbn [map app fold_left]. rewrite nmax_fin. apply IH. pose proof (qmax_l a (price r)). qlra.
Qed.
Lemma top_bid_fold : forall l a, a <= fold_left (fun m r => qmax m (price r)) l a /\ (forall r, In r l -> price r <= fold_left (fun m r => qmax m (price r)) l a) /\
  (fold_left (fun m r => qmax m (price r)) l a = a \/ exists r, In r l /\ price r = fold_left (fun m r => qmax m (price r)) l a).
Proof.
  induction l as [|r l IH]; intro a; cbn [fold_left].
  - split; [apply Qcle_refl|]. split; [intros ? []|]. left; reflexivity.
  - destruct (IH (qmax a (price r))) as (H1 & H2 & H3). pose proof (qmax_l a (price r)). pose proof (qmax_r a (price r)).
    split; [qlra|]. split; [intros s [<-|Hs]; [qlra | apply H2, Hs]|].
    destruct H3 as [H3|(s & Hs & H3)]; [|right; exists s; split; [right; exact Hs | exact H3]].
    destruct (qmax_case a (price r)) as [[E _]|[E _]].
    + left. rewrite H3. exact E.
    + right. exists r. split; [left; reflexivity|]. rewrite H3, E. reflexivity.
Qed.
Lemma arr_max_rows l : (forall r, In r l -> 0 <= price r) -> arr_max (map (fun r => Fin (price r)) l ++ [Fin 0; Fin 0]) = Fin (top_bid l).
Proof.
  unfold top_bid. destruct l as [|r l]; intro H.
  - cbn [map app arr_max fold_left]. rewrite nmax_fin. reflexivity.
  - cbn [map app arr_max fold_left]. assert (P : 0 <= price r) by (apply H; left; reflexivity).
    rewrite max_shift by exact P. f_equal.
    assert (E : qmax 0 (price r) = price r) by (destruct (qmax_case 0 (price r)) as [[-> ?]|[-> _]]; [qlra | reflexivity]). rewrite E.
    destruct (top_bid_fold l (price r)) as (H1 & _). destruct (qmax_case (fold_left (fun m r => qmax m (price r)) l (price r)) 0) as [[-> _]|[-> ?]]; [reflexivity|qlra].
Qed.

Section Fig.
  Variables (S : sorter) (mx my : Qc) (d : df).
  Hypothesis Hq : qty_nonneg d.
  Hypothesis Hp : price_nonneg d.
  Let bs := s_desc S (buyers d).
  Let ss := s_asc S (sellers d).
  Lemma top_best : best_bid d (top_bid bs).
  Proof.
    destruct (top_bid_fold bs 0) as (H1 & H2 & H3). split.
    - intros r Hr B. apply H2. apply desc_in. auto.
    - destruct H3 as [H3|(r & Hr & H3)]; [left; exact H3|]. right. apply desc_in in Hr. exists r. tauto.
  Qed.
  Lemma best_bid_unique m m' : best_bid d m -> best_bid d m' -> m = m'.
  Proof.
    intros [A1 A2] [B1 B2]. apply Qcle_antisym.
    - destruct A2 as [->|(r & Hr & Br & <-)]; [|apply B1; assumption].
      destruct B2 as [->|(r & Hr & Br & <-)]; [apply Qcle_refl | apply Hp, Hr].
    - destruct B2 as [->|(r & Hr & Br & <-)]; [|apply A1; assumption].
      destruct A2 as [->|(r & Hr & Br & <-)]; [apply Qcle_refl | apply Hp, Hr].
  Qed.
  Lemma figure_eq : plot_demand_curves S mx my d =
    mkCurves (ends 0 (extent mx d) bs) (heights 0 bs) (ends 0 (extent mx d) ss) (heights (top_bid bs * my) ss).
  Proof.
    unfold plot_demand_curves, demand_curve_from_bids, supply_curve_from_bids. cbn [fst]. fold bs ss.
    rewrite (curve_rows_crows bs), (curve_rows_crows ss), !map_app, !crows_fst, !crows_snd. cbn [map fst snd].
    change (Fin 0 :: map Fin (cumsum_from 0 (map qty bs)) ++ [PInf]) with ((Fin 0 :: map Fin (cumsum_from 0 (map qty bs))) ++ [PInf]).
    change (Fin 0 :: map Fin (cumsum_from 0 (map qty ss)) ++ [PInf]) with ((Fin 0 :: map Fin (cumsum_from 0 (map qty ss))) ++ [PInf]).
    rewrite !set_last_app. cbn [app]. rewrite !last_end.
    assert (EM : nmul (py_max (Fin (0 + qsumf qty bs)) (Fin (0 + qsumf qty ss))) (Fin mx) = Fin (qmax (qsumf qty bs) (qsumf qty ss) * mx)).
    { rewrite !Qcplus_0_l. unfold py_max, nltb. destruct (qlt_spec (qsumf qty bs) (qsumf qty ss)), (qmax_case (qsumf qty bs) (qsumf qty ss)) as [[E ?]|[E ?]];
      rewrite E; cbn [nmul]; f_equal; f_equal; qlra. }
    rewrite EM.
    rewrite <- !app_assoc. cbn [app]. rewrite arr_max_rows by (intros r Hr; apply Hp; apply desc_in in Hr; apply Hr).
    cbn [nmul]. unfold from_end. rewrite app_length. cbn [length].
    rewrite app_nth2 by lia. replace (length (map (fun r => Fin (price r)) ss) + 1 - 1 - length (map (fun r => Fin (price r)) ss))%nat with 0%nat by lia.
    cbn [nth]. unfold ends, heights, extent. rewrite (demand_total S d), (supply_total S d). fold bs ss.
    reflexivity.
  Qed.

  Let fig := plot_demand_curves S mx my d.
  Lemma bs_nonneg : forall y, In y bs -> 0 <= qty y.
  Proof. intros y Hy. apply Hq. apply desc_in in Hy. apply Hy. Qed.
  Lemma ss_nonneg : forall y, In y ss -> 0 <= qty y.
  Proof. intros y Hy. apply Hq. apply asc_in in Hy. apply Hy. Qed.
  Lemma part_nonneg (l l1 l2 : df) (r : row) : (forall y, In y l -> 0 <= qty y) -> l = l1 ++ r :: l2 -> 0 <= qsumf qty l1 /\ qsumf qty l1 + qty r <= qsumf qty l.
  Proof.
    intros H ->. rewrite qsumf_app, qsumf_cons. split.
    - apply qsumf_nonneg. intros y Hy. apply H, in_or_app; left; exact Hy.
    - assert (0 <= qsumf qty l2) by (apply qsumf_nonneg; intros y Hy; apply H, in_or_app; right; right; exact Hy). qlra.
  Qed.
  Lemma plot_exists x : 0 <= x -> x < extent mx d ->
    (exists v, Drawn (fig_dx fig) (fig_dy fig) x v) /\ (exists v, Drawn (fig_sx fig) (fig_sy fig) x v).
  Proof. intros H1 H2. unfold fig. rewrite figure_eq. cbn [fig_dx fig_dy fig_sx fig_sy]. split; apply drawn_exists; assumption. Qed.
  Lemma demand_le p : demand_at d p <= total_demand d.
  Proof.
    unfold demand_at. rewrite (demand_filter S), (demand_total S). fold bs. rewrite (qsumf_filter_split qty (fun r => qleb p (price r)) bs).
    assert (0 <= qsumf qty (filter (fun x => negb (qleb p (price x))) bs)); [|qlra].
    apply qsumf_nonneg. intros y Hy. apply filter_In in Hy. apply bs_nonneg, Hy.
  Qed.
  Lemma supply_le p : supply_at d p <= total_supply d.
  Proof.
    unfold supply_at. rewrite (supply_filter S), (supply_total S). fold ss. rewrite (qsumf_filter_split qty (fun r => qleb (price r) p) ss).
    assert (0 <= qsumf qty (filter (fun x => negb (qleb (price x) p)) ss)); [|qlra].
    apply qsumf_nonneg. intros y Hy. apply filter_In in Hy. apply ss_nonneg, Hy.
  Qed.
  Theorem plot_demand x v : Drawn (fig_dx fig) (fig_dy fig) x v ->
    0 <= x /\ 0 <= v /\ forall p, 0 < p -> (p <= v <-> x < demand_at d p).
  Proof.
    unfold fig. rewrite figure_eq. cbn [fig_dx fig_dy fig_sx fig_sy]. intro D. apply drawn_rows in D.
    assert (Hs : StronglySorted (fun a b => price b <= price a) bs) by apply s_desc_sorted.
    pose proof bs_nonneg as Hn. destruct D as [(l1 & r & l2 & E & H1 & H2 & ->)|(H1 & H2 & ->)].
    - destruct (part_nonneg _ _ _ _ Hn E) as [N1 N2].
      assert (Ir : In r bs) by (rewrite E; apply in_or_app; right; left; reflexivity).
      split; [qlra|]. split; [apply Hp; apply desc_in in Ir; apply Ir|]. intros p P.
      unfold demand_at. rewrite (demand_filter S). fold bs. rewrite E in Hs, Hn |- *. destruct (sorted_app _ _ _ _ Hs) as (A1 & A2 & _). split.
      + intro L. pose proof (sum_filter_ge l1 r l2 (fun y => qleb p (price y)) Hn) as G.
        enough (qsumf qty l1 + qty r <= qsumf qty (filter (fun y => qleb p (price y)) (l1 ++ r :: l2))) by qlra. apply G.
        * intros y Hy. apply qleb_le. specialize (A1 y Hy). qlra.
        * apply qleb_le. qlra.
      + intro L. destruct (Qclt_le_dec (price r) p) as [C|C]; [|exact C]. exfalso.
        pose proof (sum_filter_le l1 r l2 (fun y => qleb p (price y)) Hn) as G.
        enough (qsumf qty (filter (fun y => qleb p (price y)) (l1 ++ r :: l2)) <= qsumf qty l1) by qlra. apply G.
        * intros y Hy. apply qleb_gt. specialize (A2 y Hy). qlra.
        * apply qleb_gt. qlra.
    - assert (0 <= qsumf qty bs) by (apply qsumf_nonneg, Hn). split; [qlra|]. split; [apply Qcle_refl|].
      intros p P. split; [intro; exfalso; qlra|]. intro L. exfalso. pose proof (demand_le p) as K. rewrite (demand_total S) in K. fold bs in K. qlra.
  Qed.
  Theorem plot_supply x v : Drawn (fig_sx fig) (fig_sy fig) x v ->
    0 <= x /\ (x < total_supply d -> 0 <= v /\ forall p, v <= p <-> x < supply_at d p) /\
    (total_supply d <= x -> forall m, best_bid d m -> v = m * my).
  Proof.
    unfold fig. rewrite figure_eq. cbn [fig_dx fig_dy fig_sx fig_sy]. intro D. apply drawn_rows in D.
    assert (Hs : StronglySorted (fun a b => price a <= price b) ss) by apply s_asc_sorted.
    pose proof ss_nonneg as Hn. rewrite (supply_total S). fold ss. destruct D as [(l1 & r & l2 & E & H1 & H2 & ->)|(H1 & H2 & ->)].
    - destruct (part_nonneg _ _ _ _ Hn E) as [N1 N2].
      assert (Ir : In r ss) by (rewrite E; apply in_or_app; right; left; reflexivity).
      split; [qlra|]. split; [|intro; exfalso; qlra]. intros _. split; [apply Hp; apply asc_in in Ir; apply Ir|]. intro p.
      unfold supply_at. rewrite (supply_filter S). fold ss. rewrite E in Hs, Hn |- *. destruct (sorted_app _ _ _ _ Hs) as (A1 & A2 & _). split.
      + intro L. pose proof (sum_filter_ge l1 r l2 (fun y => qleb (price y) p) Hn) as G.
        enough (qsumf qty l1 + qty r <= qsumf qty (filter (fun y => qleb (price y) p) (l1 ++ r :: l2))) by qlra. apply G.
        * intros y Hy. apply qleb_le. specialize (A1 y Hy). qlra.
        * apply qleb_le. qlra.
      + intro L. destruct (Qclt_le_dec p (price r)) as [C|C]; [|exact C]. exfalso.
        pose proof (sum_filter_le l1 r l2 (fun y => qleb (price y) p) Hn) as G.
        enough (qsumf qty (filter (fun y => qleb (price y) p) (l1 ++ r :: l2)) <= qsumf qty l1) by qlra. apply G.
        * intros y Hy. apply qleb_gt. specialize (A2 y Hy). qlra.
        * apply qleb_gt. qlra.
    - assert (0 <= qsumf qty ss) by (apply qsumf_nonneg, Hn). split; [qlra|]. split; [intro; exfalso; qlra|].
      intros _ m Hm. rewrite (best_bid_unique _ _ Hm top_best). reflexivity.
  Qed.
  (** the drawn demand never rises *)
  Theorem plot_demand_decreasing x y v w : Drawn (fig_dx fig) (fig_dy fig) x v -> Drawn (fig_dx fig) (fig_dy fig) y w -> x <= y -> w <= v.
  Proof.
    intros D1 D2 L. destruct (plot_demand x v D1) as (_ & V1 & C1). destruct (plot_demand y w D2) as (_ & V2 & C2).
    destruct (Qclt_le_dec 0 w) as [P|P]; [|qlra]. apply C1; [exact P|]. assert (y < demand_at d w) by (apply C2; [exact P | apply Qcle_refl]). qlra.
  Qed.
  Lemma best_nonneg m : best_bid d m -> 0 <= m.
  Proof. intros [_ [->|(r & Hr & _ & <-)]]; [apply Qcle_refl | apply Hp, Hr]. Qed.
  (** the drawn supply never falls exactly when no ask exceeds the top of the figure *)
  Theorem plot_supply_increasing m : 1 < mx -> best_bid d m ->
    ((forall x y v w, Drawn (fig_sx fig) (fig_sy fig) x v -> Drawn (fig_sx fig) (fig_sy fig) y w -> x <= y -> v <= w) <->
     (forall r, In r d -> buying r = false -> 0 < qty r -> price r <= m * my)).
  Proof.
    intros Mx Hm. pose proof (plot_supply) as PS. split.
    - intros Mono r Hr Br Qr.
      assert (Sb : 0 <= supply_below d (price r)).
      { unfold supply_below. apply qsumf_nonneg. intros y Hy. apply filter_In in Hy. apply Hq, Hy. }
      assert (Sa : supply_below d (price r) < supply_at d (price r)).
      { unfold supply_below, supply_at. rewrite !qsumf_filter.
        assert (H : 0 < qsumf (fun y => (if negb (buying y) && qleb (price y) (price r) then qty y else 0) - (if negb (buying y) && qltb (price y) (price r) then qty y else 0)) d).
        { assert (P : forall y, In y d -> 0 <= (if negb (buying y) && qleb (price y) (price r) then qty y else 0) - (if negb (buying y) && qltb (price y) (price r) then qty y else 0)).
          { intros y Hy. specialize (Hq y Hy). destruct (buying y); cbn [negb andb]; [qlra|]. destruct (qle_spec (price y) (price r)), (qlt_spec (price y) (price r)); qlra. }
          pose proof (qsumf_in_le _ d r P Hr) as K. cbv beta in K. rewrite Br in K. cbn [negb andb] in K.
          rewrite (proj2 (qleb_le (price r) (price r)) (Qcle_refl _)) in K. rewrite (proj2 (qltb_ge (price r) (price r)) (Qcle_refl _)) in K. qlra. }
        rewrite qsumf_minus in H. qlra. }
      pose proof (supply_le (price r)) as Sl.
      assert (Ex : total_supply d < extent mx d).
      { unfold extent. pose proof (qmax_r (total_demand d) (total_supply d)). set (z := qmax _ _) in *. clearbody z. 
        assert (0 < z * (mx - 1)) by (apply qmult_pos; qlra). replace (z * mx) with (z + z * (mx - 1)) by ring. qlra. }
      destruct (plot_exists (supply_below d (price r))) as (_ & v & Dv); [exact Sb | qlra |].
      destruct (plot_exists (total_supply d)) as (_ & w & Dw); [qlra | exact Ex |].
      assert (L : v <= w) by (apply (Mono _ _ _ _ Dv Dw); qlra).
      destruct (PS _ _ Dv) as (_ & C & _). destruct C as [V0 C]; [qlra|]. destruct (PS _ _ Dw) as (_ & _ & W). specialize (W (Qcle_refl _) m Hm). subst w.
      destruct (Qclt_le_dec v (price r)) as [K|K]; [|qlra]. exfalso.
      assert (supply_below d (price r) < supply_at d v) by (apply C, Qcle_refl). pose proof (supply_mono d v (price r) Hq K). qlra.
    - intros Top x y v w Dv Dw L. destruct (PS _ _ Dv) as (X0 & C1 & C2). destruct (PS _ _ Dw) as (_ & E1 & E2).
      destruct (Qclt_le_dec x (total_supply d)) as [Lx|Lx].
      + destruct (C1 Lx) as [V0 C]. destruct (Qclt_le_dec y (total_supply d)) as [Ly|Ly].
        * destruct (E1 Ly) as [W0 E]. apply C. assert (y < supply_at d w) by (apply E, Qcle_refl). qlra.
        * rewrite (E2 Ly m Hm). apply C. 
          assert (supply_at d (m * my) = total_supply d); [|qlra].
          unfold supply_at, total_supply. rewrite !qsumf_filter. apply qsumf_ext. intros r Hr.
          destruct (buying r) eqn:Br; cbn [negb andb]; [reflexivity|].
          destruct (Qclt_le_dec 0 (qty r)) as [Q|Q].
          -- rewrite (proj2 (qleb_le _ _) (Top r Hr Br Q)). reflexivity.
          -- assert (qty r = 0) by (specialize (Hq r Hr); qlra). destruct (qleb (price r) (m * my)); congruence.
      + rewrite (C2 Lx m Hm), (E2 (Qcle_trans _ _ _ Lx L) m Hm). apply Qcle_refl.
  Qed.
End Fig.
