(** Raising all prices by the same amount. *)
From Verif Require Import QcTac Num NumFacts ModelBase ModelCurves ModelHuang ModelMuda ModelP2P ListFacts Spec SpecTrade
  SpecHuang SpecUnits SpecSign CurveFacts IntersectFacts StoreFacts Sorter UnitFacts UnitMech MudaPrice SignFacts.

Lemma add_leb c x y : qleb (x + c) (y + c) = qleb x y.
Proof. destruct (qle_spec x y), (qle_spec (x + c) (y + c)); try reflexivity; exfalso; qlra. Qed.
Lemma add_ltb c x y : qltb (x + c) (y + c) = qltb x y.
Proof. destruct (qlt_spec x y), (qlt_spec (x + c) (y + c)); try reflexivity; exfalso; qlra. Qed.
Lemma add_eqb c x y : qeqb (x + c) (y + c) = qeqb x y.
Proof.
  destruct (qeqb x y) eqn:E.
  - apply (proj1 (qeqb_eq _ _)) in E. subst. apply qeqb_eq. reflexivity.
  - apply qeqb_neq. apply qeqb_neq in E. intro H. apply E. qlra.
Qed.

Section Raise.
  Variable c : Qc.
  Definition up_tm (tm : transmgr) : transmgr := mkTM (n_trans tm) (map (trans_raised c) (tm_trans tm)).
  Lemma up_add_all l : forall tm, add_all (up_tm tm) (map (trans_raised c) l) = up_tm (add_all tm l).
  Proof.
    unfold add_all. induction l as [|x l IH]; intros tm; cbn [map fold_left]; [reflexivity|]. rewrite <- IH. f_equal.
    unfold add_transaction, up_tm. cbn [fst n_trans tm_trans]. rewrite map_app. reflexivity.
  Qed.
  Lemma up_lbl l : map lbl (raised c l) = map lbl l.
  Proof. unfold raised. rewrite map_map. reflexivity. Qed.
  Lemma up_qty l : map qty (raised c l) = map qty l.
  Proof. unfold raised. rewrite map_map. reflexivity. Qed.
  Lemma up_user l : map user (raised c l) = map user l.
  Proof. unfold raised. rewrite map_map. reflexivity. Qed.
  Lemma up_filter (P Q : row -> bool) l : (forall r, Q (bid_raised c r) = P r) -> filter Q (raised c l) = raised c (filter P l).
  Proof.
    intro H. unfold raised. induction l as [|r l IH]; cbn [map filter]; [reflexivity|]. rewrite H, IH. destruct (P r); reflexivity.
  Qed.
  Lemma up_buyers l : buyers (raised c l) = raised c (buyers l).
  Proof. apply up_filter. reflexivity. Qed.
  Lemma up_sellers l : sellers (raised c l) = raised c (sellers l).
  Proof. apply up_filter. reflexivity. Qed.
  Lemma up_firstn n l : firstn n (raised c l) = raised c (firstn n l).
  Proof. apply firstn_map. Qed.
  Lemma up_skipn n l : skipn n (raised c l) = raised c (skipn n l).
  Proof. apply skipn_map. Qed.
  Lemma up_loc l ls : loc (raised c l) ls = raised c (loc l ls).
  Proof.
    unfold loc. induction ls as [|i ls IH]; cbn [flat_map]; [reflexivity|]. rewrite IH, (up_filter (fun r => Nat.eqb (lbl r) i)) by reflexivity.
    unfold raised. rewrite map_app. reflexivity.
  Qed.
  Lemma F2_raised l : Forall2 (fun r r' => r' = bid_raised c r) l (raised c l).
  Proof. induction l; constructor; auto. Qed.
  Lemma F2_is_raised l l' : Forall2 (fun r r' => r' = bid_raised c r) l l' -> l' = raised c l.
  Proof. induction 1 as [|x y l l' -> _ ->]; reflexivity. Qed.

  Variable S : sorter.
  Hypothesis HS : compares_prices S.
  Lemma up_sorted l : s_asc S (raised c l) = raised c (s_asc S l) /\ s_desc S (raised c l) = raised c (s_desc S l).
  Proof.
    destruct (HS (fun r r' => r' = bid_raised c r) l (raised c l) (F2_raised l)) as [A B].
    - intros x y x' y' _ _ -> ->. apply add_leb.
    - split; apply F2_is_raised; assumption.
  Qed.
  Lemma up_asc l : s_asc S (raised c l) = raised c (s_asc S l). Proof. apply up_sorted. Qed.
  Lemma up_desc l : s_desc S (raised c l) = raised c (s_desc S l). Proof. apply up_sorted. Qed.

  (** ** Curves *)
  Lemma up_rows_nth l a : forall i, nth_error (crows a (raised c l)) i = option_map (fun p => (fst p, num_raised c (snd p))) (nth_error (crows a l) i).
  Proof.
    revert a. induction l as [|r l IH]; intros a [|i]; [reflexivity..| |]; change (raised c (r :: l)) with (bid_raised c r :: raised c l);
      rewrite !crows_cons; cbn [nth_error option_map fst snd num_raised bid_raised qty price]; [reflexivity|apply IH].
  Qed.
  Lemma up_rows_fst l a : map fst (crows a (raised c l)) = map fst (crows a l).
  Proof.
    revert a. induction l as [|r l IH]; intros a; [reflexivity|]. change (raised c (r :: l)) with (bid_raised c r :: raised c l).
    rewrite !crows_cons. cbn [map fst]. f_equal. apply IH.
  Qed.

  Variable d : df.
  Notation f := (fst (demand_curve_from_bids S d)).
  Notation g := (fst (supply_curve_from_bids S d)).
  Notation f' := (fst (demand_curve_from_bids S (raised c d))).
  Notation g' := (fst (supply_curve_from_bids S (raised c d))).
  Lemma up_f_eq : f = crows 0 (s_desc S (buyers d)) ++ [(PInf, Fin 0)] /\ f' = crows 0 (raised c (s_desc S (buyers d))) ++ [(PInf, Fin 0)].
  Proof. unfold demand_curve_from_bids. cbn [fst]. rewrite !curve_rows_crows, up_buyers, up_desc. auto. Qed.
  Lemma up_g_eq : g = crows 0 (s_asc S (sellers d)) ++ [(PInf, PInf)] /\ g' = crows 0 (raised c (s_asc S (sellers d))) ++ [(PInf, PInf)].
  Proof. unfold supply_curve_from_bids. cbn [fst]. rewrite !curve_rows_crows, up_sellers, up_asc. auto. Qed.
  Lemma up_f_fst : map fst f' = map fst f.
  Proof. destruct up_f_eq as [-> ->]. rewrite !map_app, up_rows_fst. reflexivity. Qed.
  Lemma up_g_fst : map fst g' = map fst g.
  Proof. destruct up_g_eq as [-> ->]. rewrite !map_app, up_rows_fst. reflexivity. Qed.

  Definition fval_up (u u' : num) : Prop := (exists q, u = Fin q /\ u' = Fin (q + c)) \/ (u = Fin 0 /\ u' = Fin 0).
  Definition gval_up (w w' : num) : Prop := (exists q, 0 < q /\ 0 < q + c /\ w = Fin q /\ w' = Fin (q + c)) \/ (w = PInf /\ w' = PInf).
  Hypothesis A0 : asks_pos d.
  Hypothesis A1 : asks_pos (raised c d).
  Lemma up_f_nth i a u : nth_error f i = Some (a, u) -> exists u', nth_error f' i = Some (a, u') /\ fval_up u u'.
  Proof.
    destruct up_f_eq as [-> ->]. intro H. set (l := s_desc S (buyers d)) in *.
    assert (L : forall l', length (crows 0 (raised c l')) = length (crows 0 l')) by (intro l'; rewrite !crows_length; apply map_length).
    destruct (Nat.lt_ge_cases i (length (crows 0 l))) as [K|K].
    - rewrite nth_error_app1 in * by (rewrite ?L; exact K). rewrite up_rows_nth, H. cbn [option_map fst snd]. eexists. split; [reflexivity|].
      left. apply nth_error_In in H. apply crows_in in H. destruct H as (r & _ & E). cbn [snd] in E. subst u. eauto.
    - rewrite nth_error_app2 in * by (rewrite ?L; exact K). rewrite L. rewrite H. exists u. split; [reflexivity|]. right.
      destruct (i - length (crows 0 l))%nat as [|[|]]; cbn in H; inversion H. auto.
  Qed.
  Lemma up_g_nth i a w : nth_error g i = Some (a, w) -> exists w', nth_error g' i = Some (a, w') /\ gval_up w w'.
  Proof.
    destruct up_g_eq as [-> ->]. intro H. set (l := s_asc S (sellers d)) in *.
    assert (L : forall l', length (crows 0 (raised c l')) = length (crows 0 l')) by (intro l'; rewrite !crows_length; apply map_length).
    destruct (Nat.lt_ge_cases i (length (crows 0 l))) as [K|K].
    - rewrite nth_error_app1 in * by (rewrite ?L; exact K). rewrite up_rows_nth, H. cbn [option_map fst snd]. eexists. split; [reflexivity|].
      left. apply nth_error_In in H. apply crows_in in H. destruct H as (r & R1 & E). cbn [snd] in E. subst w.
      apply asc_in in R1. destruct R1 as [R1 R2]. exists (price r). split; [apply A0; assumption|].
      split; [exact (A1 (bid_raised c r) (in_map _ _ _ R1) R2)|]. auto.
    - rewrite nth_error_app2 in * by (rewrite ?L; exact K). rewrite L. rewrite H. exists w. split; [reflexivity|]. right.
      destruct (i - length (crows 0 l))%nat as [|[|]]; cbn in H; inversion H. auto.
  Qed.
  Lemma up_StepAt (h h' : steps) (V : num -> num -> Prop) x i u : map fst h' = map fst h ->
    (forall i a u, nth_error h i = Some (a, u) -> exists u', nth_error h' i = Some (a, u') /\ V u u') ->
    StepAt h x i u -> exists u', StepAt h' x i u' /\ V u u'.
  Proof.
    intros E N ((a & H1 & H2) & H3). destruct (N _ _ _ H1) as (u' & N1 & N2). exists u'. split; [|exact N2].
    split; [exists a; auto|]. intros j b v Lj Hj.
    assert (Q : nth_error (map fst h') j = Some b) by (rewrite nth_error_map, Hj; reflexivity). rewrite E, nth_error_map in Q.
    destruct (nth_error h j) as [[b0 v0]|] eqn:Ej; [|discriminate]. cbn in Q. injection Q as ->. exact (H3 j b v0 Lj Ej).
  Qed.
  Lemma up_search (h h' : steps) (V : num -> num -> Prop) x u : map fst h' = map fst h ->
    (forall i a u, nth_error h i = Some (a, u) -> exists u', nth_error h' i = Some (a, u') /\ V u u') ->
    get_value_stepwise x h = Some u -> exists u', get_value_stepwise x h' = Some u' /\ V u u'.
  Proof.
    intros E N. unfold get_value_stepwise. destruct (nltb x (Fin 0)); [discriminate|]. intro H. apply step_search_iff in H. destruct H as (i & H).
    destruct (up_StepAt h h' V x i u E N H) as (u' & H' & HV). exists u'. split; [|exact HV]. apply step_search_iff. eauto.
  Qed.
  Lemma up_none (h h' : steps) x : map fst h' = map fst h -> get_value_stepwise x h = None -> get_value_stepwise x h' = None.
  Proof.
    intro E. unfold get_value_stepwise. destruct (nltb x (Fin 0)); [reflexivity|]. revert h' E. induction h as [|[a v] h IH]; intros [|[a' v'] h'] E; try discriminate; [reflexivity|].
    cbn [map fst] in E. injection E as -> E. cbn [step_search]. destruct (nleb x a); [discriminate|]. apply IH, E.
  Qed.
  Lemma up_compare u u' w w' : fval_up u u' -> gval_up w w' -> nltb w' u' = nltb w u /\ nltb u' w' = nltb u w.
  Proof.
    intros [(q & -> & ->)|[-> ->]] [(p & P0 & P1 & -> & ->)|[-> ->]]; cbn [nltb]; try (split; reflexivity).
    - split; apply add_ltb.
    - destruct (qlt_spec (p + c) 0), (qlt_spec p 0), (qlt_spec 0 (p + c)), (qlt_spec 0 p); split; try reflexivity; exfalso; qlra.
  Qed.
  Definition pts_of (h k : steps) (xs : list num) := map (fun x => (x, get_value_stepwise x h, get_value_stepwise x k)) xs.
  Lemma up_gt x : opt_gt (get_value_stepwise x f') (get_value_stepwise x g') = opt_gt (get_value_stepwise x f) (get_value_stepwise x g) /\
    opt_gt (get_value_stepwise x g') (get_value_stepwise x f') = opt_gt (get_value_stepwise x g) (get_value_stepwise x f).
  Proof.
    destruct (get_value_stepwise x f) as [u|] eqn:Eu.
    - destruct (up_search f f' fval_up x u up_f_fst up_f_nth Eu) as (u' & -> & Vu). destruct (get_value_stepwise x g) as [w|] eqn:Ew.
      + destruct (up_search g g' gval_up x w up_g_fst up_g_nth Ew) as (w' & -> & Vw). cbn [opt_gt]. destruct (up_compare _ _ _ _ Vu Vw) as [-> ->]. auto.
      + rewrite (up_none g g' x up_g_fst Ew). auto.
    - rewrite (up_none f f' x up_f_fst Eu). split; [reflexivity|]. destruct (get_value_stepwise x g), (get_value_stepwise x g'); reflexivity.
  Qed.
  Lemma up_scan xs : forall acc, scan (pts_of f' g' xs) acc = scan (pts_of f g xs) acc.
  Proof.
    induction xs as [|x xs IH]; intro acc; [reflexivity|]. destruct xs as [|y xs]; [reflexivity|].
    unfold pts_of in *. cbn [map] in *. rewrite !scan_cons. cbn [fst snd]. unfold opt_lt.
    destruct (up_gt x) as [-> _]. destruct (up_gt y) as [_ ->].
    destruct (opt_gt (get_value_stepwise x f) (get_value_stepwise x g)) as [[]|]; cbn [bind]; [|apply IH|reflexivity].
    destruct (opt_gt _ _); cbn [bind]; [apply IH|reflexivity].
  Qed.
  Lemma up_first k : match intersect_stepwise f g k, intersect_stepwise f' g' k with Ok (x, _, _, _), Ok (x', _, _, _) => x' = x | _, _ => True end.
  Proof.
    unfold intersect_stepwise, col_max, common_xs. rewrite up_f_fst, up_g_fst. fold (pts_of f g) (pts_of f' g').
    destruct (match map fst f with [] => _ | _ => _ end); cbn [bind]; [|trivial]. destruct (match map fst g with [] => _ | _ => _ end); cbn [bind]; [|trivial].
    change (map (fun x => (x, get_value_stepwise x f, get_value_stepwise x g)) ?xs) with (pts_of f g xs).
    change (map (fun x => (x, get_value_stepwise x f', get_value_stepwise x g')) ?xs) with (pts_of f' g' xs).
    rewrite up_scan. destruct (scan _ None) as [x|]; cbn [bind]; [|trivial].
    repeat match goal with |- context [bind ?e _] => destruct e; cbn [bind]; [|trivial] end.
    all: repeat match goal with |- context [match ?e with Some _ => _ | None => _ end] => destruct e end; trivial.
    all: repeat match goal with |- context [bind ?e _] => destruct e; cbn [bind]; [|trivial] end.
    all: repeat match goal with |- context [match ?e with Some _ => _ | None => _ end] => destruct e end; trivial.
  Qed.
End Raise.
