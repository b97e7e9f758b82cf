(** The linear programs of the statistics are the allocation problems of SpecAlloc.v. *)
From Verif Require Import QcTac Num ModelBase ModelHuang ModelMuda ModelP2P ModelMarket ModelStats ListFacts Spec SpecAlloc
  AllocFacts CoverFacts P2PFacts.

Lemma mapM_map {A B} (f : A -> res B) (g : A -> B) l : (forall x, In x l -> f x = Ok (g x)) -> mapM f l = Ok (map g l).
Proof.
  induction l as [|a l IH]; intro H; [reflexivity|]. simpl. rewrite (H a) by (left; reflexivity). simpl.
  rewrite IH by (intros x Hx; apply H; right; exact Hx). reflexivity.
Qed.
Lemma pair_index_pairs d : pair_index d = all_pairs d.
Proof.
  unfold pair_index, all_pairs. rewrite flat_map_concat_map, map_map, <- flat_map_concat_map.
  apply flat_map_ext. intro b. rewrite map_map. reflexivity.
Qed.
Lemma var_eqb_eq v w : var_eqb v w = true <-> v = w.
Proof.
  unfold var_eqb. destruct v as [a b], w as [c e]. simpl. rewrite andb_true_iff, !Nat.eqb_eq. split; [intros [-> ->]; reflexivity | intro H; injection H; auto].
Qed.
Lemma var_mem_In v l : var_mem v l = true <-> In v l.
Proof.
  unfold var_mem. rewrite existsb_exists. split; [intros (w & H & E); apply var_eqb_eq in E; congruence | intro H; exists v; split; [exact H | apply var_eqb_eq; reflexivity]].
Qed.

(** sum over the pairs = double sum *)
Lemma sum_pairs d (f : nat * nat -> Qc) : qsumf f (all_pairs d) = qsumf (fun b => qsumf (fun s => f (lbl b, lbl s)) (all_s d)) (all_b d).
Proof.
  unfold all_pairs, all_b, all_s, buyers, sellers. induction (filter buying d) as [|b l IH]; [reflexivity|].
  simpl. rewrite qsumf_app, qsumf_map, qsumf_cons, IH. reflexivity.
Qed.

Section LP.
  Variable d : df.
  Hypothesis Hl : map lbl d = seq 0 (length d).
  Let Hu : labels_unique d := labels_ok d Hl.

  Lemma iloc_price_ok r : In r d -> iloc_price d (lbl r) = Ok (price r).
  Proof. intro H. unfold iloc_price. rewrite (row_pos d Hl r H). reflexivity. Qed.
  Lemma iloc_qty_ok r : In r d -> iloc_qty d (lbl r) = Ok (qty r).
  Proof. intro H. unfold iloc_qty. rewrite (row_pos d Hl r H). reflexivity. Qed.

  Definition pr (i : nat) : Qc := look d price i.
  Definition compat_index : list var := filter (fun v => qleb (pr (snd v)) (pr (fst v))) (all_pairs d).
  Lemma compatible_ok : compatible d (pair_index d) = Ok compat_index.
  Proof.
    rewrite pair_index_pairs. unfold compat_index.
    assert (P : forall v, In v (all_pairs d) -> exists b s, In b d /\ In s d /\ v = (lbl b, lbl s)).
    { intros [i j] H. apply pair_iff in H. destruct H as (x & y & H1 & H2 & _ & _ & <- & <-). exists x, y. auto. }
    revert P. induction (all_pairs d) as [|v l IH]; intro P; [reflexivity|].
    destruct (P v (or_introl eq_refl)) as (b & s & Hb & Hs & ->). cbn [compatible filter fst snd]. rewrite !iloc_price_ok by assumption. cbn [bind].
    rewrite IH by (intros w Hw; apply P; right; exact Hw). cbn [bind]. change (pr (lbl s)) with (look d price (lbl s)).
    change (pr (lbl b)) with (look d price (lbl b)). rewrite !look_lbl by assumption.
    destruct (qleb (price s) (price b)); reflexivity.
  Qed.
  Definition bcons (index : list var) : list (list var * Qc) :=
    map (fun b => (filter (fun v => var_mem v index) (map (fun s => (lbl b, lbl s)) (sellers d)), qty b)) (buyers d).
  Definition scons (index : list var) : list (list var * Qc) :=
    map (fun s => (filter (fun v => var_mem v index) (map (fun b => (lbl b, lbl s)) (buyers d)), qty s)) (sellers d).
  Lemma buyer_cons_ok index : buyer_cons d index = Ok (bcons index).
  Proof.
    unfold buyer_cons, bcons. rewrite (mapM_map _ (fun b => (filter (fun v => var_mem v index) (map (fun j => (b, j)) (map lbl (sellers d))), look d qty b))).
    - rewrite map_map. f_equal. apply map_ext_in. intros b Hb. rewrite map_map, look_lbl; auto. apply filter_In in Hb. tauto.
    - intros i Hi. apply in_map_iff in Hi. destruct Hi as (b & <- & Hb). apply filter_In in Hb.
      rewrite iloc_qty_ok by tauto. simpl. rewrite look_lbl by tauto. reflexivity.
  Qed.
  Lemma seller_cons_ok index : seller_cons d index = Ok (scons index).
  Proof.
    unfold seller_cons, scons. rewrite (mapM_map _ (fun b => (filter (fun v => var_mem v index) (map (fun j => (j, b)) (map lbl (buyers d))), look d qty b))).
    - rewrite map_map. f_equal. apply map_ext_in. intros b Hb. rewrite map_map, look_lbl; auto. apply filter_In in Hb. tauto.
    - intros i Hi. apply in_map_iff in Hi. destruct Hi as (b & <- & Hb). apply filter_In in Hb.
      rewrite iloc_qty_ok by tauto. simpl. rewrite look_lbl by tauto. reflexivity.
  Qed.

  (** the allocation given by the values of the variables *)
  Definition amat (index : list var) (a : assignment) : alloc := fun b s => if var_mem (b, s) index then a (b, s) else 0.
  Lemma feasible_iff index obj a : (forall v, In v index -> In v (all_pairs d)) ->
    lp_feasible (mkLP index obj (bcons index ++ scons index)) a <-> alloc_ok d (amat index a).
  Proof.
    intro Sub. unfold lp_feasible, alloc_ok. cbn [lp_vars lp_cons].
    assert (RB : forall b, qsumf a (filter (fun v => var_mem v index) (map (fun s => (lbl b, lbl s)) (sellers d))) = qsumf (fun s => amat index a (lbl b) (lbl s)) (all_s d)).
    { intro b. rewrite qsumf_filter, qsumf_map. reflexivity. }
    assert (RS : forall s, qsumf a (filter (fun v => var_mem v index) (map (fun b => (lbl b, lbl s)) (buyers d))) = qsumf (fun b => amat index a (lbl b) (lbl s)) (all_b d)).
    { intro s. rewrite qsumf_filter, qsumf_map. reflexivity. }
    split.
    - intros [H0 Hc]. split; [|split].
      + intros b s _ _. unfold amat. destruct (var_mem (lbl b, lbl s) index) eqn:E; [apply H0, var_mem_In, E | qlra].
      + intros b Hb. rewrite <- RB. eapply (Hc (_, _)). apply in_or_app. left. unfold bcons. apply in_map_iff. exists b. split; [reflexivity | exact Hb].
      + intros s Hs. rewrite <- RS. eapply (Hc (_, _)). apply in_or_app. right. unfold scons. apply in_map_iff. exists s. split; [reflexivity | exact Hs].
    - intros (H0 & Hb & Hs). split.
      + intros v Hv. pose proof (Sub v Hv) as Hp. destruct v as [i j]. apply pair_iff in Hp. destruct Hp as (x & y & H1 & H2 & H3 & H4 & <- & <-).
        specialize (H0 x y). unfold amat in H0. rewrite (proj2 (var_mem_In _ _) Hv) in H0. apply H0; apply filter_In; [auto | rewrite H4; auto].
      + intros c Hc. apply in_app_or in Hc. destruct Hc as [Hc|Hc]; apply in_map_iff in Hc; destruct Hc as (z & <- & Hz); cbn [fst snd].
        * rewrite RB. apply Hb, Hz.
        * rewrite RS. apply Hs, Hz.
  Qed.

  Lemma volume_lp_ok : volume_lp d = Ok (mkLP compat_index (map (fun v => (v, 1)) compat_index) (bcons compat_index ++ scons compat_index)).
  Proof. unfold volume_lp. rewrite compatible_ok. simpl. rewrite buyer_cons_ok. simpl. rewrite seller_cons_ok. reflexivity. Qed.
  Lemma compat_index_sub v : In v compat_index -> In v (all_pairs d).
  Proof. intro H. apply filter_In in H. tauto. Qed.
  Lemma amat_compat a : alloc_compat d (amat compat_index a).
  Proof.
    intros b s Hb Hs L. unfold amat. destruct (var_mem (lbl b, lbl s) compat_index) eqn:E; [|reflexivity].
    apply var_mem_In in E. apply filter_In in E. destruct E as [_ E]. simpl in E. unfold pr in E.
    rewrite !look_lbl in E by (auto; first [apply in_b, Hb | apply in_s, Hs]). apply qleb_le in E. exfalso. qlra.
  Qed.
  Lemma volume_value a : lp_value (mkLP compat_index (map (fun v => (v, 1)) compat_index) (bcons compat_index ++ scons compat_index)) a = volume d (amat compat_index a).
  Proof.
    unfold lp_value. cbn [lp_obj]. rewrite qsumf_map. cbn [fst snd]. rewrite (qsumf_ext _ a) by (intros; ring).
    unfold volume. etransitivity; [|exact (sum_pairs d (fun v => amat compat_index a (fst v) (snd v)))].
    unfold compat_index at 1. rewrite qsumf_filter. apply qsumf_ext. intros [i j] Hv. unfold amat. cbn [fst snd].
    destruct (qleb (pr j) (pr i)) eqn:E.
    - rewrite (proj2 (var_mem_In (i, j) compat_index)) by (apply filter_In; auto). reflexivity.
    - destruct (var_mem (i, j) compat_index) eqn:M; [|reflexivity]. apply var_mem_In in M. apply filter_In in M. destruct M as [_ M]. simpl in M. congruence.
  Qed.
  (** an allocation is an assignment *)
  Lemma of_alloc x : alloc_compat d x -> forall b s, In b (all_b d) -> In s (all_s d) ->
    amat compat_index (fun v => x (fst v) (snd v)) (lbl b) (lbl s) = x (lbl b) (lbl s).
  Proof.
    intros Hc b s Hb Hs. unfold amat. destruct (var_mem (lbl b, lbl s) compat_index) eqn:E; [reflexivity|].
    symmetry. destruct (Qclt_le_dec (price b) (price s)) as [L|L]; [apply Hc; assumption|]. exfalso.
    apply not_true_iff_false in E. apply E, var_mem_In, filter_In. split.
    - apply pair_iff. apply filter_In in Hb, Hs. destruct Hs as [? Hn]. apply negb_true_iff in Hn. exists b, s. tauto.
    - simpl. unfold pr. rewrite !look_lbl by (auto; first [apply in_b, Hb | apply in_s, Hs]). apply qleb_le, L.
  Qed.
  (** the answer of [maximum_traded_volume] *)
  Theorem volume_lp_optimal : qty_nonneg d -> exists p a, volume_lp d = Ok p /\ lp_optimal p a.
  Proof.
    intro Hq. rewrite volume_lp_ok. eexists. destruct (volume_optimum d Hu Hq) as (x0 & t & X1 & X2 & X3).
    set (a0 := fun v : var => x0 (fst v) (snd v)). exists a0. split; [reflexivity|]. split.
    - apply feasible_iff; [apply compat_index_sub|]. apply (alloc_ok_ext d x0); [|exact X1]. intros b s Hb Hs. symmetry. apply of_alloc; assumption.
    - intros a Ha. rewrite (volume_value a), (volume_value a0).
      rewrite (volume_ext d (amat compat_index a0) x0) by (intros b s Hb Hs; apply of_alloc; assumption).
      rewrite X3. apply volume_le_cover; [|apply amat_compat | exact Hu].
      exact (proj1 (feasible_iff compat_index _ a compat_index_sub) Ha).
  Qed.
  Theorem max_volume sv : qty_nonneg d -> solver_ok sv ->
    exists x t vars, maximum_traded_volume sv d = Ok (Some (volume d x, vars)) /\
      alloc_ok d x /\ alloc_compat d x /\ volume d x = wanted_above d price t + offered_at d price t /\
      (forall v, In v vars -> exists b s, In b (all_b d) /\ In s (all_s d) /\ v = ((lbl b, lbl s), x (lbl b) (lbl s))).
  Proof.
    intros Hq Hsv. unfold maximum_traded_volume. rewrite volume_lp_ok. cbn [bind]. set (P := mkLP _ _ _).
    destruct (volume_optimum d Hu Hq) as (x0 & t & X1 & X2 & X3).
    assert (F0 : lp_feasible P (fun v => x0 (fst v) (snd v))).
    { apply feasible_iff; [apply compat_index_sub|]. apply (alloc_ok_ext d x0); [|exact X1]. intros b s Hb Hs. symmetry. apply of_alloc; assumption. }
    assert (V0 : lp_value P (fun v => x0 (fst v) (snd v)) = volume d x0).
    { unfold P. rewrite volume_value. apply volume_ext. intros b s Hb Hs. apply of_alloc; assumption. }
    assert (Best : forall a, lp_feasible P a -> lp_value P a <= wanted_above d price t + offered_at d price t).
    { intros a Ha. unfold P in *. rewrite volume_value. apply volume_le_cover; [|apply amat_compat | exact Hu].
      exact (proj1 (feasible_iff compat_index _ a compat_index_sub) Ha). }
    destruct (Hsv P) as (a & Ea & Fa & Oa).
    { exists (fun v => x0 (fst v) (snd v)). split; [exact F0|]. intros a Ha. eapply Qcle_trans; [apply Best, Ha|]. rewrite <- X3. rewrite <- V0. apply Qcle_refl. }
    assert (Va : lp_value P a = volume d x0).
    { apply Qcle_antisym; [rewrite X3; apply Best, Fa | eapply Qcle_trans; [|apply Oa, F0]; rewrite <- V0; apply Qcle_refl]. }
    exists (amat compat_index a), t, (map (fun v => (v, a v)) compat_index). unfold solve_lp. rewrite Ea.
    assert (Ev : volume d (amat compat_index a) = lp_value P a) by (unfold P; rewrite volume_value; reflexivity).
    rewrite Ev. split; [reflexivity|]. split; [exact (proj1 (feasible_iff compat_index _ a compat_index_sub) Fa)|]. split; [apply amat_compat|].
    split; [rewrite Va; exact X3|]. intros v Hv. apply in_map_iff in Hv. destruct Hv as ([i j] & <- & Hv).
    pose proof (compat_index_sub _ Hv) as Hp. apply pair_iff in Hp. destruct Hp as (b & s & H1 & H2 & H3 & H4 & <- & <-).
    exists b, s. split; [apply filter_In; auto|]. split; [apply filter_In; rewrite H4; auto|].
    unfold amat. rewrite (proj2 (var_mem_In _ _) Hv). reflexivity.
  Qed.

  (** ** Welfare *)
  Lemma dict_fill_spec m : forall l, (forall i v, dict_get m i = Some v -> dict_get (dict_fill m l) i = Some v) /\
    (NoDup (map lbl l) -> forall r, In r l -> dict_get (dict_fill m l) (lbl r) = Some (match dict_get m (lbl r) with Some v => v | None => price r end)).
  Proof.
    assert (G : forall m i j v, dict_get (m ++ [(j, v)]) i = match dict_get m i with Some w => Some w | None => if Nat.eqb j i then Some v else None end).
    { induction m0 as [|[k w] m0 IH]; intros; simpl; [reflexivity|]. destruct (Nat.eqb k i); [reflexivity | apply IH]. }
    intro l. unfold dict_fill. revert m. induction l as [|a l IH]; intro m; simpl.
    - split; [auto | contradiction].
    - destruct (dict_get m (lbl a)) as [w|] eqn:E.
      + destruct (IH m) as [I1 I2]. split; [exact I1|]. intros N r [<-|Hr].
        * rewrite E. apply I1, E.
        * inversion_clear N. apply I2; assumption.
      + destruct (IH (m ++ [(lbl a, price a)])) as [I1 I2]. split.
        * intros i v Hv. apply I1. rewrite G, Hv. reflexivity.
        * intros N r [<-|Hr]; inversion_clear N as [|? ? N1 N2].
          -- rewrite E. apply I1. rewrite G, E, Nat.eqb_refl. reflexivity.
          -- rewrite I2 by assumption. rewrite G. destruct (dict_get m (lbl r)); [reflexivity|].
             destruct (Nat.eqb (lbl a) (lbl r)) eqn:Er; [|reflexivity]. apply Nat.eqb_eq in Er. exfalso. apply N1. rewrite Er. apply in_map, Hr.
  Qed.
  (** the value of a bid: reservation price, or its price *)
  Definition rvalue (rp : dict) (r : row) : Qc := match dict_get rp (lbl r) with Some v => v | None => price r end.
  Lemma lookup_ok rp r : In r d -> dict_lookup (dict_fill rp d) (lbl r) = Ok (rvalue rp r).
  Proof.
    intro H. unfold dict_lookup. destruct (dict_fill_spec rp d) as [_ I]. rewrite (I Hu r H). reflexivity.
  Qed.
  Definition all_index := all_pairs d.
  Lemma welfare_lp_ok rp : welfare_lp d (dict_fill rp d) =
    Ok (mkLP all_index (map (fun v => (v, look d (rvalue rp) (fst v) - look d (rvalue rp) (snd v))) all_index) (bcons all_index ++ scons all_index)).
  Proof.
    unfold welfare_lp. rewrite pair_index_pairs.
    rewrite (mapM_map _ (fun v => (v, look d (rvalue rp) (fst v) - look d (rvalue rp) (snd v)))).
    - simpl. rewrite buyer_cons_ok. simpl. rewrite seller_cons_ok. reflexivity.
    - intros [i j] Hv. apply pair_iff in Hv. destruct Hv as (b & s & H1 & H2 & _ & _ & <- & <-). cbn [fst snd].
      rewrite !lookup_ok by assumption. simpl. rewrite !look_lbl by assumption. reflexivity.
  Qed.
  Lemma all_mem b s : In b (all_b d) -> In s (all_s d) -> var_mem (lbl b, lbl s) all_index = true.
  Proof.
    intros Hb Hs. apply var_mem_In, pair_iff. apply filter_In in Hb, Hs. destruct Hs as [? Hn]. apply negb_true_iff in Hn. exists b, s. tauto.
  Qed.
  Lemma welfare_value rp a : lp_value (mkLP all_index (map (fun v => (v, look d (rvalue rp) (fst v) - look d (rvalue rp) (snd v))) all_index) (bcons all_index ++ scons all_index)) a
    = welfare d (rvalue rp) (amat all_index a).
  Proof.
    unfold lp_value. cbn [lp_obj]. rewrite qsumf_map. cbn [fst snd]. unfold all_index at 1. rewrite sum_pairs. unfold welfare.
    apply qsumf_ext. intros b Hb. apply qsumf_ext. intros s Hs. cbn [fst snd]. unfold amat. rewrite all_mem by assumption.
    rewrite !look_lbl by (auto; first [apply in_b, Hb | apply in_s, Hs]). reflexivity.
  Qed.
  Lemma of_alloc_all x b s : In b (all_b d) -> In s (all_s d) -> amat all_index (fun v => x (fst v) (snd v)) (lbl b) (lbl s) = x (lbl b) (lbl s).
  Proof. intros Hb Hs. unfold amat. rewrite all_mem by assumption. reflexivity. Qed.
  Theorem welfare_lp_optimal rp : qty_nonneg d -> exists p a, welfare_lp d (dict_fill rp d) = Ok p /\ lp_optimal p a.
  Proof.
    intro Hq. rewrite welfare_lp_ok. eexists.
    destruct (clearing_exists d (rvalue rp) Hq) as (p & Cp). destruct (clearing_optimum d (rvalue rp) p Hu Hq Cp) as (x0 & X1 & X2).
    set (a0 := fun v : var => x0 (fst v) (snd v)). exists a0. split; [reflexivity|]. split.
    - apply feasible_iff; [auto|]. apply (alloc_ok_ext d x0); [|exact X1]. intros b s Hb Hs. symmetry. apply of_alloc_all; assumption.
    - intros a Ha. rewrite (welfare_value rp a), (welfare_value rp a0).
      rewrite (welfare_ext d (rvalue rp) (amat all_index a0) x0) by (intros b s Hb Hs; apply of_alloc_all; assumption).
      rewrite X2. apply welfare_le_surplus. exact (proj1 (feasible_iff all_index _ a (fun v H => H)) Ha).
  Qed.
  Theorem max_welfare sv rp : qty_nonneg d -> solver_ok sv ->
    exists x p vars, maximum_aggregated_utility sv d rp =
        Ok (Some (welfare d (rvalue (match rp with Some m => m | None => [] end)) x, vars),
            option_map (fun m => dict_fill m d) rp) /\
      alloc_ok d x /\ clearing d (rvalue (match rp with Some m => m | None => [] end)) p /\
      welfare d (rvalue (match rp with Some m => m | None => [] end)) x = surplus d (rvalue (match rp with Some m => m | None => [] end)) p /\
      (forall v, In v vars -> exists b s, In b (all_b d) /\ In s (all_s d) /\ v = ((lbl b, lbl s), x (lbl b) (lbl s))).
  Proof.
    intros Hq Hsv. unfold maximum_aggregated_utility. set (m := match rp with Some m => m | None => [] end).
    rewrite welfare_lp_ok. cbn [bind]. set (P := mkLP _ _ _).
    destruct (clearing_exists d (rvalue m) Hq) as (p & Cp). destruct (clearing_optimum d (rvalue m) p Hu Hq Cp) as (x0 & X1 & X2).
    assert (F0 : lp_feasible P (fun v => x0 (fst v) (snd v))).
    { apply feasible_iff; [auto|]. apply (alloc_ok_ext d x0); [|exact X1]. intros b s Hb Hs. symmetry. apply of_alloc_all; assumption. }
    assert (V0 : lp_value P (fun v => x0 (fst v) (snd v)) = welfare d (rvalue m) x0).
    { unfold P. rewrite welfare_value. apply welfare_ext. intros b s Hb Hs. apply of_alloc_all; assumption. }
    assert (Best : forall a, lp_feasible P a -> lp_value P a <= surplus d (rvalue m) p).
    { intros a Ha. unfold P in *. rewrite welfare_value. apply welfare_le_surplus. exact (proj1 (feasible_iff all_index _ a (fun v H => H)) Ha). }
    destruct (Hsv P) as (a & Ea & Fa & Oa).
    { exists (fun v => x0 (fst v) (snd v)). split; [exact F0|]. intros a Ha. eapply Qcle_trans; [apply Best, Ha|]. rewrite <- X2. rewrite <- V0. apply Qcle_refl. }
    exists (amat all_index a), p, (map (fun v => (v, a v)) all_index). unfold solve_lp. rewrite Ea.
    assert (Ev : welfare d (rvalue m) (amat all_index a) = lp_value P a) by (unfold P; rewrite welfare_value; reflexivity).
    rewrite Ev. split; [destruct rp; reflexivity|]. split; [exact (proj1 (feasible_iff all_index _ a (fun v H => H)) Fa)|]. split; [exact Cp|].
    split.
    { apply Qcle_antisym; [apply Best, Fa|]. rewrite <- X2. eapply Qcle_trans; [|apply Oa, F0]. rewrite <- V0. apply Qcle_refl. }
    intros v Hv. apply in_map_iff in Hv. destruct Hv as ([i j] & <- & Hv).
    pose proof Hv as Hp. apply pair_iff in Hp. destruct Hp as (b & s & H1 & H2 & H3 & H4 & <- & <-).
    exists b, s. split; [apply filter_In; auto|]. split; [apply filter_In; rewrite H4; auto|].
    unfold amat. rewrite (proj2 (var_mem_In _ _) Hv). reflexivity.
  Qed.
End LP.

(** ** P2P against the best volume *)
From Verif Require Import SpecTrade TradeFacts P2PTrades.
Lemma half_sum (a b : Qc) : a = b -> (a + b) / qz 2 = a.
Proof. intros ->. replace (qz 2) with (1 + 1) by (apply Qc_is_canon; reflexivity). field. discriminate. Qed.
Lemma total_qty d tl : labels_unique d -> refer d tl -> qsumf t_qty tl = bought d tl + sold d tl.
Proof.
  intros Hu Hr. unfold bought, sold. rewrite (qsumf_filter_split t_qty (on_side true d) tl). f_equal.
  f_equal. apply filter_ext_in'. intros t Ht. destruct (Hr t Ht) as (r & H1 & H2). rewrite !(on_side_in _ d t r) by assumption.
  destruct (buying r); reflexivity.
Qed.
Theorem p2p_half_percentage sv d c r tm ex x : map lbl d = seq 0 (length d) -> qty_nonneg d -> solver_ok sv ->
  p2p_random d c r = Ok (tm, ex) -> percentage_traded sv d (tm_trans tm) = Ok (Some x) -> 1 / qz 2 <= x.
Proof.
  intros Hl Hq Hsv E. destruct (max_volume d Hl sv Hq Hsv) as (y & t & vars & Ey & Y1 & Y2 & _ & _).
  unfold percentage_traded. rewrite Ey. cbn [bind ratio].
  pose proof (p2p_half d c r tm ex y Hl Hq E Y1 Y2) as H. rewrite two_times in H.
  change (qsum (map t_qty (tm_trans tm))) with (qsumf t_qty (tm_trans tm)).
  rewrite (total_qty d (tm_trans tm) (labels_ok d Hl) (p2p_refer d c r Hl Hq tm ex E)).
  rewrite (half_sum _ _ (p2p_balanced d c r Hl Hq tm ex E)).
  destruct (qlt_spec 0 (volume d y)) as [P|P]; intro Z; [|discriminate]. injection Z as <-.
  assert (N : volume d y <> 0) by (intro Z; rewrite Z in P; revert P; apply Qcle_not_lt, Qcle_refl).
  set (V := volume d y) in *. set (T := bought d (tm_trans tm)) in *.
  assert (Ei : V * / V = 1) by (apply Qcmult_inv_r; exact N). pose proof (qinv_pos V P) as Hi.
  replace (1 / qz 2) with (/ qz 2) by (unfold Qcdiv; ring). unfold Qcdiv.
  assert (H2 : / qz 2 + / qz 2 = 1) by (apply Qc_is_canon; reflexivity).
  assert (H3 : V * / V <= (T + T) * / V) by (apply qmult_le_r; [qlra | exact H]).
  assert (H4 : (T + T) * / V = T * / V + T * / V) by ring. qlra.
Qed.
Theorem p2p_half_volume sv d c r tm ex : map lbl d = seq 0 (length d) -> qty_nonneg d -> solver_ok sv ->
  p2p_random d c r = Ok (tm, ex) ->
  exists obj vars, maximum_traded_volume sv d = Ok (Some (obj, vars)) /\ obj <= qz 2 * bought d (tm_trans tm).
Proof.
  intros Hl Hq Hsv E. destruct (max_volume d Hl sv Hq Hsv) as (y & t & vars & Ey & Y1 & Y2 & _ & _).
  exists (volume d y), vars. split; [exact Ey|]. eapply p2p_half; eauto.
Qed.
Lemma p2p_active_zero : exists (d : df) (c : Qc) (r : nat -> nat) tm ex t, map lbl d = seq 0 (length d) /\ qty_nonneg d /\
    p2p_random d c r = Ok (tm, ex) /\ In t (tm_trans tm) /\ t_active t = true /\
    forall x, In x d -> lbl x = t_bid t -> qty x = 0.
Proof.
  exists [mkRow 0 0 1 0 true 0 true; mkRow 1 1 (qz 2) 1 false 0 true], 0, (fun _ => 0%nat).
  do 2 eexists. exists (mkTrans 0 0 0 1 true).
  split; [reflexivity|]. split; [intros r [<-|[<-|[]]]; unfold Qcle; vm_compute; discriminate|].
  split; [vm_compute; reflexivity|]. split; [left; reflexivity|]. split; [reflexivity|].
  intros x [<-|[<-|[]]]; [reflexivity|]. intro H. discriminate.
Qed.
