(** MUDA on any prices: the whole mechanism. *)
From Verif Require Import QcTac Num NumFacts ModelBase ModelCurves ModelHuang ModelMuda ModelAny ModelWild ModelWildMuda ListFacts StoreFacts FillFacts CurveFacts IntersectFacts Spec SpecTrade SpecMuda SpecWild SpecWildMuda
  UnitFacts WildFacts WildSort WildCap WildTop MudaHalf MudaOutcome MudaFacts WildMuda WildMudaHalf.

(** ** The two halves *)
Lemma w_loc_filter (d : wdf) P : NoDup (map w_lbl d) -> w_loc d (filter P (map w_lbl d)) = filter (fun r => P (w_lbl r)) d.
Proof.
  intro Hu. rewrite filter_map. unfold w_loc. rewrite flat_map_concat_map, map_map.
  assert (G : forall e, (forall r, In r e -> In r d) -> concat (map (fun x => filter (fun r => Nat.eqb (w_lbl r) (w_lbl x)) d) e) = e).
  { induction e as [|a e IH]; intro H; [reflexivity|]. simpl. rewrite IH by (intros r Hr; apply H; right; exact Hr).
    assert (Ha : In a d) by (apply H; left; reflexivity).
    assert (F : filter (fun r => Nat.eqb (w_lbl r) (w_lbl a)) d = [a]); [|rewrite F; reflexivity].
    clear - Hu Ha. induction d as [|b d IH]; [contradiction|]. simpl in *. inversion_clear Hu as [|? ? H1 H2]. destruct Ha as [->|Ha].
    - rewrite Nat.eqb_refl. f_equal. apply filter_none. intros r Hr. apply Nat.eqb_neq. intro E. apply H1. rewrite <- E. apply in_map, Hr.
    - destruct (Nat.eqb_spec (w_lbl b) (w_lbl a)) as [E|]; [exfalso; apply H1; rewrite E; apply in_map, Ha|]. apply IH; assumption. }
  apply G. intros r Hr. apply filter_In in Hr. apply Hr.
Qed.
Definition wleft (d : wdf) (fl : list bool) : list nat := pick_left (map w_lbl d) fl.
Definition wright (d : wdf) (fl : list bool) : list nat := filter (fun i => negb (existsb (Nat.eqb i) (wleft d fl))) (map w_lbl d).
Lemma w_loc_left d fl : NoDup (map w_lbl d) -> w_loc d (wleft d fl) = w_rows_in (wleft d fl) d.
Proof. intro Hu. unfold wleft at 1. rewrite (pick_left_filter _ Hu). rewrite w_loc_filter by exact Hu. reflexivity. Qed.
Lemma w_right_mem d fl r : In r d -> existsb (Nat.eqb (w_lbl r)) (wright d fl) = negb (existsb (Nat.eqb (w_lbl r)) (wleft d fl)).
Proof.
  intro Hr. destruct (negb (existsb (Nat.eqb (w_lbl r)) (wleft d fl))) eqn:E.
  - apply mem_In. unfold wright. apply filter_In. split; [apply in_map, Hr | exact E].
  - rewrite <- not_true_iff_false, mem_In. unfold wright. rewrite filter_In. intros [_ H]. congruence.
Qed.
Lemma w_loc_right d fl : NoDup (map w_lbl d) -> w_loc d (wright d fl) = w_rows_in (wright d fl) d.
Proof. intro Hu. unfold wright at 1. rewrite w_loc_filter by exact Hu. apply filter_ext_in'. intros r Hr. symmetry. apply w_right_mem, Hr. Qed.
Lemma w_halves d fl : NoDup (map w_lbl d) -> Permutation (wleft d fl ++ wright d fl) (map w_lbl d).
Proof.
  intro Hu. pose proof (halves_perm (map (cap_row 0) d) fl) as H. unfold labels_unique, left_of, right_of, wleft, wright in *. 
  assert (M : map lbl (map (cap_row 0) d) = map w_lbl d) by (rewrite map_map; reflexivity). unfold left_of in H. rewrite M in H. apply H, Hu.
Qed.

Definition w_muda_body (S : wsorter) (d : wdf) (fl : list bool) : res (list (atrans Qc num) * wextra) :=
  pl <- w_comp_price S (w_rows_in (wleft d fl) d) ;;
  pr <- w_comp_price S (w_rows_in (wright d fl) d) ;;
  '(tl, f1) <- w_half S (w_rows_in (wleft d fl) d) pr (repeat (Fin 0) (length (uniqueZ (map w_user d)))) ;;
  '(tr, f2) <- w_half S (w_rows_in (wright d fl) d) pl f1 ;;
  Ok (tl ++ tr, mkWExtra (wleft d fl) (wright d fl) pl pr f2).
Lemma w_muda_eq S d fl : NoDup (map w_lbl d) -> w_muda S d fl = w_check d (w_muda_body S d fl).
Proof.
  intro Hu. unfold w_muda, w_check. destruct (_ || _); [reflexivity|]. cbv zeta. fold (wleft d fl). fold (wright d fl). rewrite (w_loc_left d fl Hu), (w_loc_right d fl Hu). reflexivity.
Qed.
Lemma w_rows_qty ls d : w_qty_nonneg d -> w_qty_nonneg (w_rows_in ls d).
Proof. intros H x Hx. apply filter_In in Hx. apply H, Hx. Qed.
Lemma w_rows_unique ls d : NoDup (map w_lbl d) -> NoDup (map w_lbl (w_rows_in ls d)).
Proof. apply NoDup_filter_map. Qed.

Lemma w_price_ok S d : w_qty_nonneg d -> exists p, w_comp_price S d = Ok p.
Proof.
  intro Hq. unfold w_comp_price.
  assert (QB : forall x, In x (w_desc S (w_buyers d)) -> 0 <= w_qty x) by (intros x Hx; apply (Permutation_in _ (w_desc_perm S _)) in Hx; apply filter_In in Hx; apply Hq, Hx).
  assert (QL : forall x, In x (w_asc S (w_sellers d)) -> 0 <= w_qty x) by (intros x Hx; apply (Permutation_in _ (w_asc_perm S _)) in Hx; apply filter_In in Hx; apply Hq, Hx).
  destruct (intersect_pairs (w_demand (w_desc S (w_buyers d))) (w_supply (w_asc S (w_sellers d))) (w_ends _ _ QB) (w_ends _ _ QL) (w_end_inf _ _) (w_end_inf _ _) (qf 1 2))
    as [(x & y & b & s & u & w & i' & j' & u' & w' & v & E & _)|(v & E & _)]; rewrite E; cbn [bind]; eauto.
Qed.

(** ** What a run guarantees *)
Theorem w_muda_fair S d fl ts e : w_qty_nonneg d -> NoDup (map w_lbl d) -> w_muda S d fl = Ok (ts, e) ->
  Permutation (e_left e ++ e_right e) (map w_lbl d) /\
  w_comp_price S (w_rows_in (e_left e) d) = Ok (e_price_left e) /\ w_comp_price S (w_rows_in (e_right e) d) = Ok (e_price_right e) /\
  (exists tl tr, ts = tl ++ tr /\ HalfFair (w_rows_in (e_left e) d) (e_price_right e) tl /\ HalfFair (w_rows_in (e_right e) d) (e_price_left e) tr) /\
  length (e_fees e) = length (uniqueZ (map w_user d)) /\ Forall fee_like (e_fees e).
Proof.
  intros Hq Hu E. rewrite w_muda_eq in E by exact Hu. unfold w_check in E. destruct (_ || _); [discriminate|]. unfold w_muda_body in E.
  destruct (w_comp_price S (w_rows_in (wleft d fl) d)) as [pl|] eqn:El; [|discriminate]. cbn [bind] in E.
  destruct (w_comp_price S (w_rows_in (wright d fl) d)) as [pr|] eqn:Er; [|discriminate]. cbn [bind] in E.
  destruct (w_half S (w_rows_in (wleft d fl) d) pr _) as [[tl f1]|] eqn:E1; [|discriminate]. cbn [bind] in E.
  destruct (w_half S (w_rows_in (wright d fl) d) pl f1) as [[tr f2]|] eqn:E2; [|discriminate]. cbn [bind] in E. injection E as <- <-. cbn [e_left e_right e_price_left e_price_right e_fees].
  destruct (half_fair _ _ _ _ _ _ (w_rows_qty _ _ Hq) (w_rows_unique _ _ Hu) E1) as [F1 L1].
  destruct (half_fair _ _ _ _ _ _ (w_rows_qty _ _ Hq) (w_rows_unique _ _ Hu) E2) as [F2 L2].
  split; [apply w_halves, Hu|]. split; [exact El|]. split; [exact Er|]. split; [exists tl, tr; auto|]. split; [rewrite L2, L1; apply repeat_length|].
  apply (half_fees _ _ _ _ _ _ (w_rows_qty _ _ Hq) E2). apply (half_fees _ _ _ _ _ _ (w_rows_qty _ _ Hq) E1). apply Forall_forall. intros x Hx. apply repeat_spec in Hx. subst x. exact fee_like_0.
Qed.

(** ** Errors *)
Lemma w_half_err S d p f e : w_qty_nonneg d -> w_half S d p f = Err e -> e = IndexError.
Proof.
  intros Hq E. destruct (inside_exists d p) as (P & HP & Ip & Ix). destruct (half_cap S d p P HP Ip Ix) as (S' & HC).
  specialize (HC f (repeat 0 (length f)) (repeat_length _ _)). rewrite E in HC. destruct (solve_market_side _ _ _ _) as [[tm b]|e'] eqn:E'; [contradiction|]. subst e'.
  refine (half_err S' _ _ _ _ _ E'). intros r Hr. apply in_map_iff in Hr. destruct Hr as (x & <- & Hx). apply filter_In in Hx. apply Hq, Hx.
Qed.
Lemma w_half_ok S d p f : w_qty_nonneg d -> NoDup (map w_lbl d) -> (forall x, In x d -> (0 <= w_user x)%Z /\ (w_user x < Z.of_nat (length f))%Z) -> exists ts a, w_half S d p f = Ok (ts, a).
Proof.
  intros Hq Hu Hn. destruct (inside_exists d p) as (P & HP & Ip & Ix). destruct (half_cap S d p P HP Ip Ix) as (S' & HC).
  specialize (HC f (repeat 0 (length f)) (repeat_length _ _)). 
  destruct (half_total S' (capped_at P p d) (cap P p) (repeat 0 (length f))) as (tm & b & E').
  - intros r Hr. apply in_map_iff in Hr. destruct Hr as (x & <- & Hx). apply filter_In in Hx. apply Hq, Hx.
  - unfold labels_unique, capped_at. rewrite map_map. apply (NoDup_filter_map w_lbl). exact Hu.
  - intros r Hr. rewrite repeat_length. apply in_map_iff in Hr. destruct Hr as (x & <- & Hx). apply filter_In in Hx. apply Hn, Hx.
  - rewrite E' in HC. destruct (w_half S d p f) as [[ts a]|e]; [eauto | contradiction].
Qed.
Theorem w_muda_runs S d fl : w_qty_nonneg d -> NoDup (map w_lbl d) -> (forall x, In x d -> (0 <= w_user x)%Z /\ (w_user x < Z.of_nat (length (uniqueZ (map w_user d))))%Z) ->
  w_dup (w_buyers d) = false -> w_dup (w_sellers d) = false -> exists ts e, w_muda S d fl = Ok (ts, e).
Proof.
  intros Hq Hu Hn D1 D2. rewrite w_muda_eq by exact Hu. unfold w_check. rewrite D1, D2. cbn [orb]. unfold w_muda_body.
  destruct (w_price_ok S (w_rows_in (wleft d fl) d) (w_rows_qty _ _ Hq)) as (pl & ->). cbn [bind]. destruct (w_price_ok S (w_rows_in (wright d fl) d) (w_rows_qty _ _ Hq)) as (pr & ->). cbn [bind].
  destruct (w_half_ok S (w_rows_in (wleft d fl) d) pr (repeat (Fin 0) (length (uniqueZ (map w_user d)))) (w_rows_qty _ _ Hq) (w_rows_unique _ _ Hu)) as (tl & f1 & E1).
  { intros x Hx. rewrite repeat_length. apply filter_In in Hx. apply Hn, Hx. }
  destruct (half_fair _ _ _ _ _ _ (w_rows_qty _ _ Hq) (w_rows_unique _ _ Hu) E1) as [_ L1].
  destruct (w_half_ok S (w_rows_in (wright d fl) d) pl f1 (w_rows_qty _ _ Hq) (w_rows_unique _ _ Hu)) as (tr & f2 & E2).
  { intros x Hx. rewrite L1, repeat_length. apply filter_In in Hx. apply Hn, Hx. }
  rewrite E1. cbn [bind]. rewrite E2. cbn [bind]. eauto.
Qed.
Theorem w_muda_errors S d fl e : w_qty_nonneg d -> NoDup (map w_lbl d) -> w_muda S d fl = Err e ->
  (e = NotImplementedError /\ (w_dup (w_buyers d) = true \/ w_dup (w_sellers d) = true)) \/ e = IndexError.
Proof.
  intros Hq Hu E. rewrite w_muda_eq in E by exact Hu. unfold w_check in E. destruct (_ || _) eqn:D.
  - apply orb_true_iff in D. injection E as <-. auto.
  - right. unfold w_muda_body in E.
    destruct (w_price_ok S (w_rows_in (wleft d fl) d) (w_rows_qty _ _ Hq)) as (pl & El). rewrite El in E. cbn [bind] in E. destruct (w_price_ok S (w_rows_in (wright d fl) d) (w_rows_qty _ _ Hq)) as (pr & Er). rewrite Er in E. cbn [bind] in E.
    destruct (w_half S (w_rows_in (wleft d fl) d) pr _) as [[tl f1]|e1] eqn:E1; cbn [bind] in E; [|injection E as <-; apply (w_half_err _ _ _ _ _ (w_rows_qty _ _ Hq) E1)].
    destruct (w_half S (w_rows_in (wright d fl) d) pl f1) as [[tr f2]|e2] eqn:E2; cbn [bind] in E; [discriminate|]. injection E as <-. apply (w_half_err _ _ _ _ _ (w_rows_qty _ _ Hq) E2).
Qed.

(** ** NaN bids and NaN prices *)
Theorem nan_left_out S d p f : w_half S (filter not_nan d) p f = w_half S d p f.
Proof.
  rewrite !w_half_eq. f_equal; f_equal; unfold w_buyers, w_sellers; rewrite !filter_and; apply filter_ext; intro x; unfold not_nan; destruct (w_price x), p, (w_buying x); reflexivity.
Qed.
Theorem nan_price S d f : w_half S d NaN f = Ok ([], f).
Proof. rewrite w_half_eq. rewrite (filter_none (fun r => nleb NaN (w_price r))) by reflexivity. rewrite (perm_nil _ (w_desc_perm S [])). apply w_body_nil. Qed.

(** ** All bids in one half *)
Lemma price_empty S : w_comp_price S [] = Ok PInf.
Proof. unfold w_comp_price. cbn [w_buyers w_sellers filter]. rewrite (perm_nil _ (w_desc_perm S [])), (perm_nil _ (w_asc_perm S [])). vm_compute. reflexivity. Qed.
Theorem one_half S d fl ts e : w_qty_nonneg d -> NoDup (map w_lbl d) -> w_muda S d fl = Ok (ts, e) -> e_right e = [] ->
  (forall t, In t ts -> x_price t = PInf) /\ forall b, w_moved b d ts = qmin (wanted_at_any_price d) (offered (filter not_nan d)).
Proof.
  intros Hq Hu E R. destruct (w_muda_fair S d fl ts e Hq Hu E) as (Pm & _ & Pr & (tl & tr & -> & H1 & H2) & _). rewrite R in *.
  assert (N : w_rows_in [] d = []) by (apply filter_none; reflexivity). rewrite N in *. rewrite price_empty in Pr. injection Pr as Pr. rewrite <- Pr in *.
  assert (T : tr = []) by (destruct tr as [|t tr]; [reflexivity|]; destruct (hf_trans _ _ _ H2 t (or_introl eq_refl)) as (_ & _ & _ & _ & x & [] & _)). subst tr. rewrite app_nil_r in *.
  assert (A : w_rows_in (e_left e) d = d).
  { unfold w_rows_in. transitivity (filter (fun _ : wrow => true) d).
    - apply filter_ext_in. intros x Hx. apply mem_In. apply (Permutation_in _ (Permutation_sym Pm)), in_map, Hx.
    - clear. induction d as [|x d IH]; [reflexivity|]. cbn [filter]. rewrite IH. reflexivity. }
  rewrite A in *. split; [intros t Ht; apply (hf_trans _ _ _ H1 t Ht)|]. intro b. rewrite (hf_volume _ _ _ H1 b). f_equal.
  - unfold w_demand_at, wanted_at_any_price. f_equal. apply filter_ext. intro x. unfold accepts, at_any_price. destruct (w_buying x), (w_price x); reflexivity.
  - unfold w_supply_at, offered. rewrite filter_and. f_equal. apply filter_ext. intro x. unfold accepts, not_nan. destruct (w_buying x), (w_price x); reflexivity.
Qed.
