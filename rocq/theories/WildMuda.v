(** MUDA on any prices: one half, compared with the main model. *)
From Verif Require Import QcTac Num ModelBase ModelCurves ModelHuang ModelMuda ModelAny ModelWild ModelWildMuda ListFacts StoreFacts Spec SpecTrade SpecMuda SpecWild SpecWildMuda NumFacts UnitFacts WildSort WildCap WildTop MudaHalf MudaOutcome.

Definition w_body (demand supply : wdf) (p : num) (fees : list num) : res (list (atrans Qc num) * list num) :=
  let supply_quantity := qsum (map w_qty supply) in
  let demand_quantity := qsum (map w_qty demand) in
  let supply_long := qltb demand_quantity supply_quantity in
  let long0 := if supply_long then supply else demand in
  let short0 := if supply_long then demand else supply in
  let total := if supply_long then demand_quantity else supply_quantity in
  if qltb 0 total then
    '(long_side, l_index) <- w_trading_bids long0 total ;;
    '(short_side, s_index) <- w_trading_bids short0 total ;;
    let mk := fun r => mkATrans (w_lbl r) (w_qty r) p (-1) false in
    let us := uniqueZ (map w_user (firstn (S l_index) long_side)) in
    fees' <- w_charge long_side l_index total p us fees ;;
    Ok (map mk (firstn (S s_index) short_side) ++ map mk (firstn (S l_index) long_side), fees')
  else Ok ([], fees).
Definition n_body (demand supply : df) (pr : Qc) (fees : list Qc) : res (transmgr * list Qc) :=
  let supply_quantity := qsum (map qty supply) in
  let demand_quantity := qsum (map qty demand) in
  let supply_long := qltb demand_quantity supply_quantity in
  let long0 := if supply_long then supply else demand in
  let short0 := if supply_long then demand else supply in
  let total := if supply_long then demand_quantity else supply_quantity in
  if qltb 0 total then
    '(long_side, l_index) <- get_trading_bids long0 total ;;
    '(short_side, s_index) <- get_trading_bids short0 total ;;
    let mk := fun r => mkTrans (lbl r) (qty r) pr (-1) false in
    let tm := add_all (add_all tm_init (map mk (firstn (S s_index) short_side))) (map mk (firstn (S l_index) long_side)) in
    let us := uniqueZ (map user (firstn (S l_index) long_side)) in
    fees' <- charge_users long_side l_index total pr us fees ;;
    Ok (tm, fees')
  else Ok (tm_init, fees).

Lemma perm_nil {A} (l : list A) : Permutation l [] -> l = [].
Proof. intro P. apply Permutation_nil. symmetry. exact P. Qed.
Lemma zero_pos : qltb 0 0 = false. Proof. reflexivity. Qed.
Lemma w_body_nil s p fees : w_body [] s p fees = Ok ([], fees).
Proof.
  unfold w_body. cbn [map]. change (qsum []) with 0. cbv zeta. destruct (qltb 0 (qsum (map w_qty s))) eqn:E; cbv iota; [rewrite zero_pos | rewrite E]; reflexivity.
Qed.
Lemma w_body_nil_r d p fees : w_body d [] p fees = Ok ([], fees).
Proof.
  unfold w_body. cbn [map]. change (qsum []) with 0. cbv zeta. destruct (qltb (qsum (map w_qty d)) 0) eqn:E; cbv iota; [|rewrite zero_pos; reflexivity].
  apply qltb_lt in E. assert (F : qltb 0 (qsum (map w_qty d)) = false) by (apply qltb_ge; apply Qclt_le_weak, E). rewrite F. reflexivity.
Qed.
Lemma n_body_nil s p fees : n_body [] s p fees = Ok (tm_init, fees).
Proof.
  unfold n_body. cbn [map]. change (qsum []) with 0. cbv zeta. destruct (qltb 0 (qsum (map qty s))) eqn:E; cbv iota; [rewrite zero_pos | rewrite E]; reflexivity.
Qed.
Lemma n_body_nil_r d p fees : n_body d [] p fees = Ok (tm_init, fees).
Proof.
  unfold n_body. cbn [map]. change (qsum []) with 0. cbv zeta. destruct (qltb (qsum (map qty d)) 0) eqn:E; cbv iota; [|rewrite zero_pos; reflexivity].
  apply qltb_lt in E. assert (F : qltb 0 (qsum (map qty d)) = false) by (apply qltb_ge; apply Qclt_le_weak, E). rewrite F. reflexivity.
Qed.
Lemma w_half_eq S d p fees :
  w_half S d p fees = w_body (w_desc S (filter (fun r => nleb p (w_price r)) (w_buyers d))) (w_asc S (filter (fun r => nleb (w_price r) p) (w_sellers d))) p fees.
Proof.
  unfold w_half. destruct (w_buyers d) as [|b bs].
  { cbn [filter]. rewrite (perm_nil _ (w_desc_perm S [])), w_body_nil. reflexivity. }
  destruct (w_sellers d) as [|s ss]; [|reflexivity]. change (filter (fun r => nleb (w_price r) p) []) with (@nil wrow). rewrite (perm_nil _ (w_asc_perm S [])), w_body_nil_r. reflexivity.
Qed.
Lemma n_half_eq S d q fees :
  solve_market_side S d (Fin q) fees = n_body (s_desc S (filter (fun r => nleb (Fin q) (Fin (price r))) (buyers d))) (s_asc S (filter (fun r => nleb (Fin (price r)) (Fin q)) (sellers d))) q fees.
Proof.
  unfold solve_market_side. destruct (buyers d) as [|b bs].
  { cbn [filter]. rewrite (perm_nil _ (s_desc_perm S [])), n_body_nil. reflexivity. }
  destruct (sellers d) as [|s ss]; [|reflexivity]. change (filter (fun r => nleb (Fin (price r)) (Fin q)) []) with (@nil row). rewrite (perm_nil _ (s_asc_perm S [])), n_body_nil_r. reflexivity.
Qed.

(** ** A map from one kind of rows to the other *)
Section Map.
  Variable g : wrow -> row.
  Hypotheses (Gl : forall x, lbl (g x) = w_lbl x) (Gq : forall x, qty (g x) = w_qty x) (Gu : forall x, user (g x) = w_user x).
  Hypothesis Gw : forall x q, g (w_with_qty x q) = with_qty (g x) q.
  Lemma map_q l : map qty (map g l) = map w_qty l.
  Proof. rewrite map_map. apply map_ext, Gq. Qed.
  Lemma cut_map l q : get_trading_bids (map g l) q = match w_trading_bids l q with Ok x => Ok (map g (fst x), snd x) | Err e => Err e end.
  Proof.
    unfold get_trading_bids, w_trading_bids. rewrite map_length, !map_q. cbv zeta. match goal with |- context [nth_error l ?j] => set (i := j) end. rewrite firstn_map, map_q.
    rewrite nth_error_map. destruct (nth_error l i) as [r|]; cbn [option_map]; [|reflexivity]. rewrite Gq.
    destruct (qltb _ (w_qty r)); [|reflexivity]. cbn [fst snd]. rewrite skipn_map, !map_app. cbn [map]. rewrite !Gw. reflexivity.
  Qed.
  Lemma user_map l : map user (map g l) = map w_user l.
  Proof. rewrite map_map. apply map_ext, Gu. Qed.
  Lemma charge_len long li t p long' li' t' p' us : forall f f0, length f0 = length f ->
    match w_charge long li t p us f, charge_users long' li' t' p' us f0 with Ok a, Ok b => length b = length a | Err e, Err e' => e = e' | _, _ => False end.
  Proof.
    induction us as [|u us IH]; intros f f0 L; cbn [w_charge charge_users]; [exact L|]. unfold w_set_fee, set_fee. rewrite L.
    destruct (_ && _); [cbn [bind]; apply IH; rewrite !set_nth_length; exact L|]. destruct (_ && _); [cbn [bind]; apply IH; rewrite !set_nth_length; exact L | reflexivity].
  Qed.
  Definition like_trans (q : Qc) (t : atrans Qc num) : trans := mkTrans (x_bid t) (x_qty t) q (x_source t) (x_active t).
  Lemma body_map demand supply p q f f0 : length f0 = length f ->
    match w_body demand supply p f, n_body (map g demand) (map g supply) q f0 with
    | Ok (ts, a), Ok (tm, b) => tm_trans tm = map (like_trans q) ts /\ length b = length a
    | Err e, Err e' => e = e' | _, _ => False end.
  Proof.
    intro L. unfold w_body, n_body. rewrite !map_q. cbv zeta. set (lg := qltb (qsum (map w_qty demand)) (qsum (map w_qty supply))).
    set (tot := if lg then _ else _). destruct (qltb 0 tot); [|auto].
    clearbody tot. destruct lg; cbv iota; rewrite !cut_map;
    match goal with |- match bind (w_trading_bids ?x tot) _ with _ => _ end => destruct (w_trading_bids x tot) as [[l i]|e]; cbn [bind]; [|reflexivity] end;
    match goal with |- match bind (w_trading_bids ?x tot) _ with _ => _ end => destruct (w_trading_bids x tot) as [[s j]|e]; cbn [bind fst snd]; [|reflexivity] end;
    rewrite !firstn_map, user_map;
    pose proof (charge_len l i tot p (map g l) i tot q (uniqueZ (map w_user (firstn (S i) l))) f f0 L) as C;
    destruct (w_charge _ _ _ _ _ _) as [a|e], (charge_users _ _ _ _ _ _) as [b|e']; cbn [bind]; try contradiction; try exact C;
    (split; [|exact C]; rewrite !add_all_trans; cbn [tm_trans tm_init app]; rewrite map_app, !map_map;
    f_equal; apply map_ext; intro x; unfold like_trans; cbn; rewrite Gl, Gq; reflexivity).
  Qed.
End Map.

(** ** The transactions of a half do not depend on the prices, given who accepts *)
Lemma filter_map_swap {A B} (g : A -> B) (p : B -> bool) (l : list A) : filter p (map g l) = map g (filter (fun x => p (g x)) l).
Proof. induction l as [|x l IH]; [reflexivity|]. cbn [map filter]. destruct (p (g x)); cbn [map]; rewrite IH; reflexivity. Qed.
Lemma filter_and {A} (p q : A -> bool) (l : list A) : filter p (filter q l) = filter (fun x => q x && p x) l.
Proof. induction l as [|x l IH]; [reflexivity|]. cbn [filter]. destruct (q x); cbn [filter andb]; [destruct (p x)|]; rewrite IH; reflexivity. Qed.
Lemma body_price demand supply p f ts a : w_body demand supply p f = Ok (ts, a) -> forall t, In t ts -> x_price t = p /\ x_source t = (-1)%Z /\ x_active t = false.
Proof.
  unfold w_body. cbv zeta. destruct (qltb 0 _); [|intro E; injection E as <- <-; intros t []].
  destruct (w_trading_bids _ _) as [[l i]|e]; cbn [bind]; [|discriminate]. destruct (w_trading_bids _ _) as [[s j]|e]; cbn [bind]; [|discriminate].
  destruct (w_charge _ _ _ _ _ _) as [a'|e]; cbn [bind]; [|discriminate]. intro E. injection E as <- <-. intros t H.
  apply in_app_or in H. destruct H as [H|H]; apply in_map_iff in H; destruct H as (x & <- & _); cbn; auto.
Qed.

(** [P] replaces the infinite prices *)
Definition inside (P : Qc) (p : num) : Prop := forall q, p = Fin q -> - P < q /\ q < P.
Lemma accepts_ok p x : accepts p x = true -> ok p /\ ok (w_price x).
Proof. unfold accepts. intro H. destruct (w_buying x); apply nle_ok in H; tauto. Qed.
Lemma cap_leb P a b : ok a -> ok b -> 0 < P -> inside P a -> inside P b -> qleb (cap P a) (cap P b) = nleb a b.
Proof.
  intros Oa Ob HP Ha Hb. destruct (nleb a b) eqn:E.
  - apply qleb_le. apply cap_le; assumption.
  - apply not_true_is_false. intro H. apply qleb_le in H. assert (nltb b a = true) as C.
    { destruct a as [a| | |], b as [b| | |]; cbn in *; try congruence. apply qltb_lt. destruct (qlt_spec b a) as [K|K]; [exact K|]. apply qleb_le in K. congruence. }
    rewrite <- (cap_ltb P b a Ob Oa HP Hb Ha) in C. apply qltb_lt in C. qlra.
Qed.

Definition capped_at (P : Qc) (p : num) (d : wdf) : df := map (cap_row P) (filter (accepts p) d).
Lemma half_cap S d p P : 0 < P -> inside P p -> (forall x, In x d -> inside P (w_price x)) -> exists S', forall f f0, length f0 = length f ->
  match w_half S d p f, solve_market_side S' (capped_at P p d) (Fin (cap P p)) f0 with
  | Ok (ts, a), Ok (tm, b) => tm_trans tm = map (cap_trans P) ts /\ length b = length a
  | Err e, Err e' => e = e' | _, _ => False end.
Proof.
  intros HP Hp Hb. set (D := filter (fun r => nleb p (w_price r)) (w_buyers d)). set (L := filter (fun r => nleb (w_price r) p) (w_sellers d)).
  assert (ID : forall x, In x (w_desc S D) -> In x d /\ ok (w_price x)).
  { intros x Hx. apply (Permutation_in _ (w_desc_perm S D)) in Hx. unfold D, w_buyers in Hx. rewrite !filter_In in Hx. destruct Hx as [[Hx _] H]. apply nle_ok in H. tauto. }
  assert (IL : forall x, In x (w_asc S L) -> In x d /\ ok (w_price x)).
  { intros x Hx. apply (Permutation_in _ (w_asc_perm S L)) in Hx. unfold L, w_sellers in Hx. rewrite !filter_In in Hx. destruct Hx as [[Hx _] H]. apply nle_ok in H. tauto. }
  destruct (sorter_for (map (cap_row P) D) (map (cap_row P) (w_desc S D)) (map (cap_row P) L) (map (cap_row P) (w_asc S L))) as (S' & E1 & E2).
  { apply Permutation_map, w_desc_perm. }
  { apply (map_sorted _ _ _ _ (w_desc_sorted S _)). intros a b Ha Hb' [H|H]; apply ID in Ha; apply ID in Hb'; destruct Ha as [A1 A2], Hb' as [B1 B2]; [contradiction|].
    cbn [cap_row price]. apply cap_le; try assumption; apply Hb; assumption. }
  { apply Permutation_map, w_asc_perm. }
  { apply (map_sorted _ _ _ _ (w_asc_sorted S _)). intros a b Ha Hb' [H|H]; apply IL in Ha; apply IL in Hb'; destruct Ha as [A1 A2], Hb' as [B1 B2]; [contradiction|].
    cbn [cap_row price]. apply cap_le; try assumption; apply Hb; assumption. }
  exists S'. intros f f0 Lf. rewrite w_half_eq, n_half_eq. fold D L.
  assert (A1 : filter (fun r => nleb (Fin (cap P p)) (Fin (price r))) (buyers (capped_at P p d)) = map (cap_row P) D).
  { unfold buyers, capped_at, D, w_buyers. rewrite !filter_map_swap, !filter_and. f_equal. apply filter_ext_in. intros x Hx. cbn [cap_row buying price nleb].
    pose proof (accepts_ok p x) as O. unfold accepts in *. destruct (w_buying x); [|cbn; rewrite ?andb_false_r; reflexivity].
    destruct (nleb p (w_price x)) eqn:Ex; [|reflexivity]. destruct (O eq_refl). rewrite cap_leb by (try assumption; apply Hb, Hx). rewrite Ex. reflexivity. }
  assert (A2 : filter (fun r => nleb (Fin (price r)) (Fin (cap P p))) (sellers (capped_at P p d)) = map (cap_row P) L).
  { unfold sellers, capped_at, L, w_sellers. rewrite !filter_map_swap, !filter_and. f_equal. apply filter_ext_in. intros x Hx. cbn [cap_row buying price nleb].
    pose proof (accepts_ok p x) as O. unfold accepts in *. destruct (w_buying x); [cbn; rewrite ?andb_false_r; reflexivity|].
    destruct (nleb (w_price x) p) eqn:Ex; [|reflexivity]. destruct (O eq_refl). rewrite cap_leb by (try assumption; apply Hb, Hx). rewrite Ex. reflexivity. }
  rewrite A1, A2, E1, E2.
  pose proof (body_map (cap_row P) (fun x => eq_refl) (fun x => eq_refl) (fun x => eq_refl) (fun x q => eq_refl) (w_desc S D) (w_asc S L) p (cap P p) f f0 Lf) as B.
  pose proof (body_price (w_desc S D) (w_asc S L) p f) as BP.
  destruct (w_body _ _ _ _) as [[ts a]|e]; destruct (n_body _ _ _ _) as [[tm b]|e']; try exact B. destruct B as [B1 B2]. split; [|exact B2]. rewrite B1. apply map_ext_in.
  intros t Ht. destruct (BP ts a eq_refl t Ht) as (Ep & _). unfold like_trans, cap_trans. rewrite Ep. reflexivity.
Qed.
