(** The MUDA mechanism as a whole. *)
From Verif Require Import QcTac Num ModelBase ModelCurves ModelHuang ModelMuda ListFacts StoreFacts NumFacts CurveFacts IntersectFacts
  Spec SpecTrade SpecMuda TradeFacts MudaSide MudaHalf MudaSolve MudaOutcome.

(** ** The two halves *)
Lemma mem_In i ls : existsb (Nat.eqb i) ls = true <-> In i ls.
Proof.
  rewrite existsb_exists. split; [intros (x & H & E); apply Nat.eqb_eq in E; congruence | intro H; exists i; rewrite Nat.eqb_refl; auto].
Qed.
Lemma pick_left_sub ls fl i : In i (pick_left ls fl) -> In i ls.
Proof. revert fl; induction ls as [|a ls IH]; intros [|[] fl] H; simpl in *; try contradiction; [destruct H; eauto | eauto]. Qed.
Lemma pick_left_filter ls : NoDup ls -> forall fl, pick_left ls fl = filter (fun i => existsb (Nat.eqb i) (pick_left ls fl)) ls.
Proof.
  induction 1 as [|a ls Ha Hn IH]; intros [|[] fl]; try reflexivity.
  - simpl. symmetry. apply filter_none. reflexivity.
  - cbn [pick_left filter]. assert (E : existsb (Nat.eqb a) (a :: pick_left ls fl) = true) by (apply mem_In; left; reflexivity).
    rewrite E. f_equal. rewrite IH at 1. apply filter_ext_in'. intros i Hi. simpl.
    destruct (Nat.eqb_spec i a) as [->|]; [contradiction | reflexivity].
  - cbn [pick_left filter]. assert (E : existsb (Nat.eqb a) (pick_left ls fl) = false).
    { rewrite <- not_true_iff_false, mem_In. intro H. apply pick_left_sub in H. contradiction. }
    rewrite E. apply IH.
Qed.
Lemma loc_filter (d : df) P : labels_unique d -> loc d (filter P (map lbl d)) = filter (fun r => P (lbl r)) d.
Proof.
  intro Hu. rewrite filter_map. unfold loc. rewrite flat_map_concat_map, map_map.
  assert (G : forall e, (forall r, In r e -> In r d) -> concat (map (fun x => filter (fun r => Nat.eqb (lbl r) (lbl x)) d) e) = e).
  { induction e as [|a e IH]; intro H; [reflexivity|]. simpl. rewrite IH by (intros r Hr; apply H; right; exact Hr).
    assert (Ha : In a d) by (apply H; left; reflexivity). 
    assert (F : filter (fun r => Nat.eqb (lbl r) (lbl a)) d = [a]); [|rewrite F; reflexivity].
    clear - Hu Ha. unfold labels_unique in Hu. induction d as [|b d IH]; [contradiction|]. simpl in *. inversion_clear Hu as [|? ? H1 H2]. destruct Ha as [->|Ha].
    - rewrite Nat.eqb_refl. f_equal. apply filter_none. intros r Hr. apply Nat.eqb_neq. intro E. apply H1. rewrite <- E. apply in_map, Hr.
    - destruct (Nat.eqb_spec (lbl b) (lbl a)) as [E|]; [exfalso; apply H1; rewrite E; apply in_map, Ha|]. apply IH; assumption. }
  apply G. intros r Hr. apply filter_In in Hr. apply Hr.
Qed.
Definition left_of (d : df) (fl : list bool) : list nat := pick_left (map lbl d) fl.
Definition right_of (d : df) (fl : list bool) : list nat := filter (fun i => negb (existsb (Nat.eqb i) (left_of d fl))) (map lbl d).
Lemma loc_left d fl : labels_unique d -> loc d (left_of d fl) = rows_in (left_of d fl) d.
Proof. intro Hu. unfold left_of at 1. rewrite (pick_left_filter _ Hu). rewrite loc_filter by exact Hu. reflexivity. Qed.
Lemma right_mem d fl r : In r d -> existsb (Nat.eqb (lbl r)) (right_of d fl) = negb (existsb (Nat.eqb (lbl r)) (left_of d fl)).
Proof.
  intro Hr. destruct (negb (existsb (Nat.eqb (lbl r)) (left_of d fl))) eqn:E.
  - apply mem_In. unfold right_of. apply filter_In. split; [apply in_map, Hr | exact E].
  - rewrite <- not_true_iff_false, mem_In. unfold right_of. rewrite filter_In. intros [_ H]. congruence.
Qed.
Lemma loc_right d fl : labels_unique d -> loc d (right_of d fl) = rows_in (right_of d fl) d.
Proof.
  intro Hu. unfold right_of at 1. rewrite loc_filter by exact Hu. apply filter_ext_in'. intros r Hr. symmetry. apply right_mem, Hr.
Qed.
Lemma halves_perm d fl : labels_unique d -> Permutation (left_of d fl ++ right_of d fl) (map lbl d).
Proof.
  intro Hu. symmetry. etransitivity; [apply (filter_negb_perm (fun i => existsb (Nat.eqb i) (left_of d fl)))|].
  fold (right_of d fl). apply Permutation_app_tail. pose proof (pick_left_filter _ Hu fl) as E. fold (left_of d fl) in E. rewrite <- E. reflexivity.
Qed.
Lemma rows_in_In ls d r : In r (rows_in ls d) <-> In r d /\ In (lbl r) ls.
Proof. unfold rows_in. rewrite filter_In, mem_In. reflexivity. Qed.
Lemma rows_in_unique ls d : labels_unique d -> labels_unique (rows_in ls d).
Proof. apply NoDup_filter_map. Qed.

(** ** Outcome *)
Definition HalfRes (h : df) (p : num) (fees : list Qc) (tl : list trans) (fees' : list Qc) : Prop :=
  match p with Fin q => HalfOk h q fees tl fees' | _ => tl = [] /\ fees' = fees end.
Definition zero_fees (d : df) : list Qc := repeat 0 (length (uniqueZ (map user d))).

Lemma half_res S h p fees tm fees' : qty_nonneg h -> labels_unique h -> solve_market_side S h p fees = Ok (tm, fees') ->
  HalfRes h p fees (tm_trans tm) fees'.
Proof.
  intros Hq Hu E. destruct p as [q| | |]; [apply (half_ok S); assumption| | |];
  (rewrite half_infinite in E by discriminate; injection E as <- <-; split; reflexivity).
Qed.

Definition muda_body (S : sorter) (d : df) (fl : list bool) : res (transmgr * extra) :=
  pl <- find_competitive_price S (rows_in (left_of d fl) d) ;;
  pr <- find_competitive_price S (rows_in (right_of d fl) d) ;;
  '(tl, f1) <- solve_market_side S (rows_in (left_of d fl) d) pr (zero_fees d) ;;
  '(tr, f2) <- solve_market_side S (rows_in (right_of d fl) d) pl f1 ;;
  Ok (tm_merge tl tr, XMuda (left_of d fl) (right_of d fl) pl pr f2).
Lemma muda_eq S d fl : labels_unique d -> muda S d fl = check_equal_price d (muda_body S d fl).
Proof.
  intro Hu. unfold muda, check_equal_price. destruct (_ || _); [reflexivity|]. cbv zeta.
  fold (left_of d fl). fold (right_of d fl). rewrite (loc_left d fl Hu), (loc_right d fl Hu). reflexivity.
Qed.

Record MudaOk (S : sorter) (d : df) (fl : list bool) (tlL tlR : list trans) (pl pr : num) (f1 f2 : list Qc) : Prop := mkMuda {
  mo_pl : find_competitive_price S (rows_in (left_of d fl) d) = Ok pl;
  mo_pr : find_competitive_price S (rows_in (right_of d fl) d) = Ok pr;
  mo_left : HalfRes (rows_in (left_of d fl) d) pr (zero_fees d) tlL f1;
  mo_right : HalfRes (rows_in (right_of d fl) d) pl f1 tlR f2 }.

Lemma half_qty ls d : qty_nonneg d -> qty_nonneg (rows_in ls d).
Proof. intros H r Hr. apply H. apply rows_in_In in Hr. apply Hr. Qed.

Lemma muda_ok S d fl tm ex : qty_nonneg d -> labels_unique d -> muda S d fl = Ok (tm, ex) ->
  exists tlL tlR pl pr f1 f2, MudaOk S d fl tlL tlR pl pr f1 f2 /\ tm_trans tm = tlL ++ tlR /\
    ex = XMuda (left_of d fl) (right_of d fl) pl pr f2.
Proof.
  intros Hq Hu E. rewrite muda_eq in E by exact Hu. unfold check_equal_price in E. destruct (_ || _); [discriminate|].
  unfold muda_body in E.
  destruct (find_competitive_price S (rows_in (left_of d fl) d)) as [pl|] eqn:El; [|discriminate]. cbn [bind] in E.
  destruct (find_competitive_price S (rows_in (right_of d fl) d)) as [pr|] eqn:Er; [|discriminate]. cbn [bind] in E.
  destruct (solve_market_side S (rows_in (left_of d fl) d) pr (zero_fees d)) as [[tl f1]|] eqn:E1; [|discriminate]. cbn [bind] in E.
  destruct (solve_market_side S (rows_in (right_of d fl) d) pl f1) as [[tr f2]|] eqn:E2; [|discriminate]. cbn [bind] in E.
  injection E as <- <-. exists (tm_trans tl), (tm_trans tr), pl, pr, f1, f2. split; [|split; [apply tm_merge_trans | reflexivity]].
  constructor; auto; (eapply half_res; [apply half_qty, Hq | apply rows_in_unique, Hu | eassumption]).
Qed.

(** transactions of a half only concern its rows *)
Lemma res_refer h p f tl f' : HalfRes h p f tl f' -> refer h tl.
Proof. destruct p; simpl; [apply ho_refer | | |]; intros [-> _] t []. Qed.
Lemma res_once h p f tl f' : HalfRes h p f tl f' -> once tl.
Proof. destruct p; simpl; [apply ho_once | | |]; intros [-> _]; constructor. Qed.
Lemma res_feasible h p f tl f' : qty_nonneg h -> HalfRes h p f tl f' -> feasible h tl.
Proof. intro Hq. destruct p; simpl; [apply ho_feasible | | |]; intros [-> _]; (split; [intros t [] | intros r Hr; apply Hq, Hr]). Qed.
Lemma res_rational h p f tl f' : HalfRes h p f tl f' -> rational h tl.
Proof. destruct p; simpl; [apply ho_rational | | |]; intros [-> _] t r []. Qed.
Lemma res_const h p f tl f' t : HalfRes h p f tl f' -> In t tl -> p = Fin (t_price t) /\ t_source t = (-1)%Z /\ t_active t = false.
Proof.
  destruct p; simpl; [|intros [-> _] []..]. intros H Ht. destruct (ho_const _ _ _ _ _ H t Ht) as (<- & H2 & H3). auto.
Qed.
Lemma res_balanced h p f tl f' : HalfRes h p f tl f' -> bought h tl = sold h tl.
Proof. destruct p; simpl; [|intros [-> _]; reflexivity..]. intro H. rewrite (ho_bought _ _ _ _ _ H), (ho_sold _ _ _ _ _ H). reflexivity. Qed.

Section Muda.
  Variables (S : sorter) (d : df) (fl : list bool) (tlL tlR : list trans) (pl pr : num) (f1 f2 : list Qc).
  Hypotheses (Hq : qty_nonneg d) (Hu : labels_unique d).
  Hypothesis M : MudaOk S d fl tlL tlR pl pr f1 f2.
  Let L := left_of d fl.
  Let R := right_of d fl.
  Let hl := rows_in L d.
  Let hr := rows_in R d.

  Lemma L_R i : In i L -> ~ In i R.
  Proof. intros H HR. unfold R, right_of in HR. apply filter_In in HR. destruct HR as [_ HR]. apply mem_In in H. fold L in HR. rewrite H in HR. discriminate. Qed.
  Lemma in_half r : In r d -> In r hl \/ In r hr.
  Proof.
    intro Hr. destruct (existsb (Nat.eqb (lbl r)) L) eqn:E.
    - left. unfold hl. apply rows_in_In. split; [exact Hr | apply mem_In, E].
    - right. unfold hr. apply rows_in_In. split; [exact Hr|]. apply mem_In. unfold R. rewrite right_mem by exact Hr. fold L. rewrite E. reflexivity.
  Qed.
  Lemma tlL_lbl t : In t tlL -> In (t_bid t) L.
  Proof. intro H. destruct (res_refer _ _ _ _ _ (mo_left _ _ _ _ _ _ _ _ _ M) t H) as (r & Hr & <-). apply rows_in_In in Hr. apply Hr. Qed.
  Lemma tlR_lbl t : In t tlR -> In (t_bid t) R.
  Proof. intro H. destruct (res_refer _ _ _ _ _ (mo_right _ _ _ _ _ _ _ _ _ M) t H) as (r & Hr & <-). apply rows_in_In in Hr. apply Hr. Qed.
  Lemma traded_left i : In i L -> traded_by i (tlL ++ tlR) = traded_by i tlL.
  Proof.
    intro Hi. rewrite traded_by_app, (traded_by_absent i tlR); [ring|]. intro H. apply in_map_iff in H. destruct H as (t & <- & Ht). apply (L_R _ Hi), tlR_lbl, Ht.
  Qed.
  Lemma traded_right i : In i R -> traded_by i (tlL ++ tlR) = traded_by i tlR.
  Proof.
    intro Hi. rewrite traded_by_app, (traded_by_absent i tlL); [ring|]. intro H. apply in_map_iff in H. destruct H as (t & <- & Ht). apply (L_R (t_bid t)); [apply tlL_lbl, Ht | exact Hi].
  Qed.
  Lemma muda_refer : refer d (tlL ++ tlR).
  Proof.
    intros t Ht. apply in_app_or in Ht. destruct Ht as [Ht|Ht];
    [destruct (res_refer _ _ _ _ _ (mo_left _ _ _ _ _ _ _ _ _ M) t Ht) as (r & Hr & E) | destruct (res_refer _ _ _ _ _ (mo_right _ _ _ _ _ _ _ _ _ M) t Ht) as (r & Hr & E)];
    apply rows_in_In in Hr; exists r; split; [apply Hr | exact E | apply Hr | exact E].
  Qed.
  Lemma muda_once : once (tlL ++ tlR).
  Proof.
    unfold once. rewrite map_app. apply NoDup_app_intro; [exact (res_once _ _ _ _ _ (mo_left _ _ _ _ _ _ _ _ _ M)) | exact (res_once _ _ _ _ _ (mo_right _ _ _ _ _ _ _ _ _ M))|].
    intros i Hi Hj. apply in_map_iff in Hi, Hj. destruct Hi as (t & <- & Ht), Hj as (t' & E & Ht'). apply (L_R (t_bid t)); [apply tlL_lbl, Ht | rewrite <- E; apply tlR_lbl, Ht'].
  Qed.
  Lemma muda_feasible : feasible d (tlL ++ tlR).
  Proof.
    destruct (res_feasible _ _ _ _ _ (half_qty L d Hq) (mo_left _ _ _ _ _ _ _ _ _ M)) as [A1 A2].
    destruct (res_feasible _ _ _ _ _ (half_qty R d Hq) (mo_right _ _ _ _ _ _ _ _ _ M)) as [B1 B2].
    split.
    - intros t Ht. apply in_app_or in Ht. destruct Ht; auto.
    - intros r Hr. destruct (in_half r Hr) as [H|H]; pose proof (proj1 (rows_in_In _ _ _) H) as [_ Hi]; [rewrite traded_left by exact Hi; apply A2, H | rewrite traded_right by exact Hi; apply B2, H].
  Qed.
  Lemma muda_rational : rational d (tlL ++ tlR).
  Proof.
    intros t r Ht Hr E. apply in_app_or in Ht. destruct Ht as [Ht|Ht].
    - apply (res_rational _ _ _ _ _ (mo_left _ _ _ _ _ _ _ _ _ M) t r Ht); [|exact E]. apply rows_in_In. split; [exact Hr | rewrite E; apply tlL_lbl, Ht].
    - apply (res_rational _ _ _ _ _ (mo_right _ _ _ _ _ _ _ _ _ M) t r Ht); [|exact E]. apply rows_in_In. split; [exact Hr | rewrite E; apply tlR_lbl, Ht].
  Qed.
  Lemma muda_const t : In t (tlL ++ tlR) -> t_source t = (-1)%Z /\ t_active t = false /\
    (In (t_bid t) L /\ pr = Fin (t_price t) \/ In (t_bid t) R /\ pl = Fin (t_price t)).
  Proof.
    intro Ht. apply in_app_or in Ht. destruct Ht as [Ht|Ht].
    - destruct (res_const _ _ _ _ _ t (mo_left _ _ _ _ _ _ _ _ _ M) Ht) as (A & B & C). split; [exact B|]. split; [exact C|]. left. split; [apply tlL_lbl, Ht | exact A].
    - destruct (res_const _ _ _ _ _ t (mo_right _ _ _ _ _ _ _ _ _ M) Ht) as (A & B & C). split; [exact B|]. split; [exact C|]. right. split; [apply tlR_lbl, Ht | exact A].
  Qed.
  Lemma on_other s ls tl : (forall t, In t tl -> ~ In (t_bid t) ls) -> filter (on_side s (rows_in ls d)) tl = [].
  Proof.
    intro H. apply filter_none. intros t Ht. rewrite <- not_true_iff_false. unfold on_side. rewrite existsb_exists. intros (r & Hr & E).
    apply andb_true_iff in E. destruct E as [E _]. apply Nat.eqb_eq in E. apply rows_in_In in Hr. apply (H t Ht). rewrite <- E. apply Hr.
  Qed.
  Lemma sums_left : bought hl (tlL ++ tlR) = bought hl tlL /\ sold hl (tlL ++ tlR) = sold hl tlL.
  Proof.
    assert (Z : bought hl tlR = 0 /\ sold hl tlR = 0).
    { unfold bought, sold, hl. rewrite !(on_other _ L tlR) by (intros t Ht Hi; apply (L_R _ Hi), tlR_lbl, Ht). split; reflexivity. }
    destruct Z as [Z1 Z2]. rewrite bought_app, sold_app, Z1, Z2. split; ring.
  Qed.
  Lemma sums_right : bought hr (tlL ++ tlR) = bought hr tlR /\ sold hr (tlL ++ tlR) = sold hr tlR.
  Proof.
    assert (Z : bought hr tlL = 0 /\ sold hr tlL = 0).
    { unfold bought, sold, hr. rewrite !(on_other _ R tlL) by (intros t Ht Hi; apply (L_R (t_bid t)); [apply tlL_lbl, Ht | exact Hi]). split; reflexivity. }
    destruct Z as [Z1 Z2]. rewrite bought_app, sold_app, Z1, Z2. split; ring.
  Qed.
  Lemma muda_balanced : bought hl (tlL ++ tlR) = sold hl (tlL ++ tlR) /\ bought hr (tlL ++ tlR) = sold hr (tlL ++ tlR).
  Proof.
    destruct sums_left as [-> ->], sums_right as [-> ->]. split; [exact (res_balanced _ _ _ _ _ (mo_left _ _ _ _ _ _ _ _ _ M)) | exact (res_balanced _ _ _ _ _ (mo_right _ _ _ _ _ _ _ _ _ M))].
  Qed.

  (** profits *)
  Lemma profit_app u e a b : profit e u (a ++ b) = profit e u a + profit e u b.
  Proof. unfold profit. rewrite <- qsumf_plus. apply qsumf_ext. intros r _. rewrite filter_app. apply qsumf_app. Qed.
  Lemma profit_price u e tl p : (forall t, In t tl -> t_price t = p) -> profit e u tl = fill_gain (by_user u e) p (fun i => traded_by i tl).
  Proof.
    intro H. unfold profit, fill_gain. apply qsumf_ext. intros r _. unfold traded_by. rewrite <- qsumf_scale. apply qsumf_ext.
    intros t Ht. apply filter_In in Ht. rewrite (H t (proj1 Ht)). reflexivity.
  Qed.
  Lemma profit_half u ls tl : (forall t, In t tl -> In (t_bid t) ls) -> profit d u tl = profit (rows_in ls d) u tl.
  Proof.
    intro H. unfold profit, by_user, rows_in. rewrite filter_filter. rewrite !qsumf_filter. apply qsumf_ext. intros r _.
    destruct (existsb (Nat.eqb (lbl r)) ls) eqn:E; simpl; [reflexivity|]. destruct (Z.eqb (user r) u); [|reflexivity].
    rewrite filter_none; [reflexivity|]. intros t Ht. apply Nat.eqb_neq. intro Et. apply H in Ht. rewrite Et in Ht. apply mem_In in Ht. congruence.
  Qed.
  Lemma profit_split u : profit d u (tlL ++ tlR) = profit hl u tlL + profit hr u tlR.
  Proof. rewrite profit_app. rewrite (profit_half u L tlL tlL_lbl), (profit_half u R tlR tlR_lbl). reflexivity. Qed.
End Muda.

(** ** Fees *)
Lemma trades_on_dec b d tl u : trades_on b d tl u \/ ~ trades_on b d tl u.
Proof.
  destruct (existsb (fun t => existsb (fun r => Nat.eqb (lbl r) (t_bid t) && (Bool.eqb (buying r) b && Z.eqb (user r) u)) d) tl) eqn:Ex.
  - left. apply existsb_exists in Ex. destruct Ex as (t & Ht & Ex). apply existsb_exists in Ex. destruct Ex as (r & Hr & Ex).
    apply andb_true_iff in Ex. destruct Ex as [A B]. apply andb_true_iff in B. destruct B as [B C].
    exists t, r. apply Nat.eqb_eq in A. apply eqb_prop in B. apply Z.eqb_eq in C. auto.
  - right. intros (t & r & Ht & Hr & A & B & C). rewrite <- not_true_iff_false in Ex. apply Ex. apply existsb_exists. exists t. split; [exact Ht|].
    apply existsb_exists. exists r. split; [exact Hr|]. rewrite A, B, C, Nat.eqb_refl, eqb_reflx, Z.eqb_refl. reflexivity.
Qed.
Lemma fees_zero n u : fee_of (repeat 0 n) u = 0.
Proof. unfold fee_of. generalize (Z.to_nat u). induction n; intros [|k]; simpl; auto. Qed.

(** gains in a half *)
Section Gains.
  Variables (h : df) (p : Qc) (fees : list Qc) (tl : list trans) (fees' : list Qc).
  Hypotheses (Hq : qty_nonneg h) (Hu : labels_unique h) (Hn : forall r, In r h -> (0 <= user r)%Z).
  Hypothesis H : HalfOk h p fees tl fees'.
  Let x := fun i => traded_by i tl.

  Lemma row_gain r : In r h -> 0 <= gain p r * x (lbl r).
  Proof.
    intro Hr. destruct (x_bounds h p fees tl fees' H r Hr) as [X1 _]. fold x in X1.
    destruct (Qclt_le_dec (gain p r) 0) as [L|L]; [|apply qmult_nonneg; assumption].
    unfold x. rewrite traded_by_absent; [replace (gain p r * 0) with 0 by ring; apply Qcle_refl|].
    intro Hi. apply in_map_iff in Hi. destruct Hi as (t & Et & Ht).
    pose proof (ho_rational _ _ _ _ _ H t r Ht Hr (eq_sym Et)) as Rt. destruct (ho_const _ _ _ _ _ H t Ht) as [Ep _]. rewrite Ep in Rt.
    unfold gain in L. destruct (buying r); qlra.
  Qed.
  Lemma sides_gain u b : fill_gain (by_user u h) p x = fill_gain (by_user u (side_of b h)) p x + fill_gain (by_user u (side_of (negb b) h)) p x.
  Proof.
    unfold fill_gain, by_user, side_of. rewrite !filter_filter, !qsumf_filter, <- qsumf_plus. apply qsumf_ext. intros r _.
    destruct (buying r), b, (Z.eqb (user r) u); simpl; ring.
  Qed.
  Lemma user_gain_nonneg u b : 0 <= fill_gain (by_user u (side_of b h)) p x.
  Proof.
    apply qsumf_nonneg. intros r Hr. apply row_gain. unfold by_user, side_of in Hr. do 2 (apply filter_In in Hr; destruct Hr as [Hr _]). exact Hr.
  Qed.
  Lemma half_fee_bounds u : trades_on (long_side h p) h tl u ->
    0 <= fee_of fees' u /\ fee_of fees' u <= fill_gain (by_user u (side_of (long_side h p) h)) p x.
  Proof.
    intro T. destruct (ho_fees _ _ _ _ _ H Hn) as (_ & F1 & _). destruct (F1 u T) as (_ & F2 & F3). split; [exact F2|].
    set (l := long_side h p) in *.
    assert (B : fill_gain (not_by u (side_of l h)) p (fun i => traded_by i tl) + fee_of fees' u <= fill_gain (side_of l h) p (fun i => traded_by i tl)).
    { eapply best_sub; [| |apply (ho_best _ _ _ _ _ H l) | exact F3].
      - intros r Hr. apply Hq. unfold side_of in Hr. apply filter_In in Hr. apply Hr.
      - apply NoDup_filter_map, Hu. }
    rewrite (gain_split h p tl l u) in B. fold x in B. qlra.
  Qed.
End Gains.

Lemma res_half_fee h p f tl f' u : (forall r, In r h -> (0 <= user r)%Z) -> (0 <= u)%Z -> HalfRes h p f tl f' ->
  exists v, HalfFee h p tl u v /\
    (fee_of f' u = v \/ fee_of f' u = fee_of f u /\ v = 0) /\
    (forall q, p = Fin q -> trades_on (long_side h q) h tl u -> fee_of f' u = v) /\
    ((forall q, p = Fin q -> ~ trades_on (long_side h q) h tl u) -> fee_of f' u = fee_of f u /\ v = 0).
Proof.
  intros Hn H0 H. destruct p as [q| | |]; simpl in H.
  2-4: destruct H as [-> ->]; exists 0; simpl; (repeat split; auto; discriminate).
  destruct (ho_fees _ _ _ _ _ H Hn) as (_ & F1 & F2). destruct (trades_on_dec (long_side h q) h tl u) as [T|T].
  - exists (fee_of f' u). simpl. split; [split; [intros _; apply F1, T | contradiction]|]. split; [left; reflexivity|]. split; [reflexivity|].
    intro N. exfalso. apply (N q eq_refl T).
  - exists 0. simpl. split; [split; [contradiction | reflexivity]|]. pose proof (F2 u H0 T) as E. split; [right; auto|]. split; [|auto].
    intros q' Eq. injection Eq as <-. contradiction.
Qed.
Lemma HalfFee_unique h p tl u v v' : HalfFee h p tl u v -> HalfFee h p tl u v' -> v = v'.
Proof.
  destruct p as [q| | |]; simpl; [|congruence..]. intros [A1 A2] [B1 B2]. destruct (trades_on_dec (long_side h q) h tl u) as [T|T].
  - pose proof (best_unique _ _ _ _ _ (A1 T) (B1 T)) as E.
    set (c := fill_gain _ q _) in E. replace v with (c + v - c) by ring. rewrite E. ring.
  - rewrite A2, B2 by exact T. reflexivity.
Qed.
Lemma res_gain_nonneg h p f tl f' u : labels_unique h -> HalfRes h p f tl f' -> 0 <= profit h u tl.
Proof.
  intros Hu H. destruct p as [q| | |]; simpl in H; [|destruct H as [-> _]; unfold profit; apply qsumf_nonneg; intros r _; simpl; apply Qcle_refl..].
  rewrite (profit_price u h tl q) by (intros t Ht; apply (ho_const _ _ _ _ _ H t Ht)).
  rewrite (sides_gain h q tl u true). pose proof (user_gain_nonneg h q f tl f' H u true). pose proof (user_gain_nonneg h q f tl f' H u false). simpl negb. qlra.
Qed.
Lemma half_fee_le h p f tl f' u v : qty_nonneg h -> labels_unique h -> (forall r, In r h -> (0 <= user r)%Z) -> (0 <= u)%Z -> HalfRes h p f tl f' -> HalfFee h p tl u v ->
  0 <= v /\ v <= profit h u tl.
Proof.
  intros Hq Hu Hn H0 H Hv. pose proof (res_gain_nonneg h p f tl f' u Hu H) as G.
  destruct p as [q| | |]; simpl in Hv; [|subst v; split; [apply Qcle_refl | exact G]..].
  destruct (trades_on_dec (long_side h q) h tl u) as [T|T].
  - simpl in H. destruct (ho_fees _ _ _ _ _ H Hn) as (_ & F1 & _). destruct (F1 u T) as (_ & _ & F3).
    assert (v = fee_of f' u).
    { apply (HalfFee_unique h (Fin q) tl u); simpl; [exact Hv|]. split; [intros _; exact F3 | contradiction]. }
    subst v. destruct (half_fee_bounds h q f tl f' Hq Hu Hn H u T) as [B1 B2]. split; [exact B1|].
    rewrite (profit_price u h tl q) by (intros t Ht; apply (ho_const _ _ _ _ _ H t Ht)).
    rewrite (sides_gain h q tl u (long_side h q)). pose proof (user_gain_nonneg h q f tl f' H u (negb (long_side h q))). qlra.
  - destruct Hv as [_ Hv]. rewrite Hv by exact T. split; [apply Qcle_refl | exact G].
Qed.

(** the fee list of the whole mechanism *)
Lemma muda_fees S d fl tlL tlR pl pr f1 f2 : qty_nonneg d -> labels_unique d -> (forall r, In r d -> (0 <= user r)%Z) ->
  MudaOk S d fl tlL tlR pl pr f1 f2 -> forall u, (0 <= u)%Z ->
  exists vl vr, HalfFee (rows_in (left_of d fl) d) pr tlL u vl /\ HalfFee (rows_in (right_of d fl) d) pl tlR u vr /\
    ((forall q, pl = Fin q -> ~ trades_on (long_side (rows_in (right_of d fl) d) q) (rows_in (right_of d fl) d) tlR u) -> fee_of f2 u = vl /\ vr = 0) /\
    (forall q, pl = Fin q -> trades_on (long_side (rows_in (right_of d fl) d) q) (rows_in (right_of d fl) d) tlR u -> fee_of f2 u = vr) /\
    0 <= vl /\ 0 <= vr /\ vl <= profit (rows_in (left_of d fl) d) u tlL /\ vr <= profit (rows_in (right_of d fl) d) u tlR /\
    (fee_of f2 u = vl \/ fee_of f2 u = vr).
Proof.
  intros Hq Hu Hn [Epl Epr Hl Hr] u H0.
  assert (Nl : forall r, In r (rows_in (left_of d fl) d) -> (0 <= user r)%Z) by (intros r Hr'; apply Hn; apply rows_in_In in Hr'; apply Hr').
  assert (Nr : forall r, In r (rows_in (right_of d fl) d) -> (0 <= user r)%Z) by (intros r Hr'; apply Hn; apply rows_in_In in Hr'; apply Hr').
  destruct (res_half_fee _ _ _ _ _ u Nl H0 Hl) as (vl & A1 & A2 & _ & _). destruct (res_half_fee _ _ _ _ _ u Nr H0 Hr) as (vr & B1 & B2 & B3 & B4).
  destruct (half_fee_le _ _ _ _ _ u vl (half_qty _ d Hq) (rows_in_unique _ d Hu) Nl H0 Hl A1) as [C1 C2].
  destruct (half_fee_le _ _ _ _ _ u vr (half_qty _ d Hq) (rows_in_unique _ d Hu) Nr H0 Hr B1) as [D1 D2].
  assert (E1 : fee_of f1 u = vl) by (unfold zero_fees in A2; rewrite fees_zero in A2; destruct A2 as [A2|[A2 A3]]; congruence).
  exists vl, vr. split; [exact A1|]. split; [exact B1|]. split; [intro N; destruct (B4 N); split; congruence|]. split; [exact B3|].
  split; [exact C1|]. split; [exact D1|]. split; [exact C2|]. split; [exact D2|]. destruct B2 as [B2|[B2 _]]; [right; exact B2 | left; congruence].
Qed.
