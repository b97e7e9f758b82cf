(** MUDA on tables with rational prices is MUDA of the main model. *)
From Verif Require Import QcTac Num NumFacts ModelBase ModelCurves ModelHuang ModelMuda ModelAny ModelWild ModelWildMuda ListFacts StoreFacts Spec SpecTrade SpecMuda SpecWild SpecWildMuda
  WildSort WildTop MudaHalf MudaOutcome WildMuda.

Notation W := (map wrow_of).
(** a sorter of the tables with rational prices *)
Lemma back l : (forall x, In x l -> exists r, x = wrow_of r) -> W (map (cap_row 0) l) = l.
Proof. intro H. rewrite map_map. rewrite <- (map_id l) at 2. apply map_ext_in. intros x Hx. destruct (H x Hx) as (r & ->). destruct r. reflexivity. Qed.
Lemma perm_of l d : Permutation l (W d) -> forall x, In x l -> exists r, x = wrow_of r.
Proof. intros P x Hx. apply (Permutation_in _ P), in_map_iff in Hx. destruct Hx as (r & <- & _). eauto. Qed.
Definition fin_asc (S : wsorter) (d : df) : df := map (cap_row 0) (w_asc S (W d)).
Definition fin_desc (S : wsorter) (d : df) : df := map (cap_row 0) (w_desc S (W d)).
Lemma fin_asc_perm S d : Permutation (fin_asc S d) d.
Proof. unfold fin_asc. rewrite <- (cap_of 0 d) at 2. apply Permutation_map, w_asc_perm. Qed.
Lemma fin_desc_perm S d : Permutation (fin_desc S d) d.
Proof. unfold fin_desc. rewrite <- (cap_of 0 d) at 2. apply Permutation_map, w_desc_perm. Qed.
Lemma fin_asc_sorted S d : StronglySorted (fun a b => price a <= price b) (fin_asc S d).
Proof.
  apply (map_sorted _ _ _ _ (w_asc_sorted S _)). intros a b Ha Hb H. destruct (perm_of _ _ (w_asc_perm S (W d)) a Ha) as (r & ->), (perm_of _ _ (w_asc_perm S (W d)) b Hb) as (s & ->).
  destruct H as [H|H]; [discriminate H|]. apply qleb_le, H.
Qed.
Lemma fin_desc_sorted S d : StronglySorted (fun a b => price b <= price a) (fin_desc S d).
Proof.
  apply (map_sorted _ _ _ _ (w_desc_sorted S _)). intros a b Ha Hb H. destruct (perm_of _ _ (w_desc_perm S (W d)) a Ha) as (r & ->), (perm_of _ _ (w_desc_perm S (W d)) b Hb) as (s & ->).
  destruct H as [H|H]; [discriminate H|]. apply qleb_le, H.
Qed.
Definition fin_sorter (S : wsorter) : sorter := mkSorter (fin_asc S) (fin_desc S) (fin_asc_perm S) (fin_desc_perm S) (fin_asc_sorted S) (fin_desc_sorted S).
Lemma asc_W S d : w_asc S (W d) = W (s_asc (fin_sorter S) d).
Proof. symmetry. apply back. exact (perm_of _ _ (w_asc_perm S (W d))). Qed.
Lemma desc_W S d : w_desc S (W d) = W (s_desc (fin_sorter S) d).
Proof. symmetry. apply back. exact (perm_of _ _ (w_desc_perm S (W d))). Qed.
Lemma buyers_W d : w_buyers (W d) = W (buyers d).
Proof. unfold w_buyers, buyers. rewrite filter_map_swap. reflexivity. Qed.
Lemma sellers_W d : w_sellers (W d) = W (sellers d).
Proof. unfold w_sellers, sellers. rewrite filter_map_swap. reflexivity. Qed.
Lemma map_W {A} (f : wrow -> A) (f' : row -> A) l : (forall r, f (wrow_of r) = f' r) -> map f (W l) = map f' l.
Proof. intro H. rewrite map_map. apply map_ext, H. Qed.
Lemma qty_W l : map w_qty (W l) = map qty l. Proof. apply map_W. reflexivity. Qed.

Lemma price_W S d : w_comp_price S (W d) = find_competitive_price (fin_sorter S) d.
Proof.
  unfold w_comp_price, find_competitive_price, demand_curve_from_bids, supply_curve_from_bids. rewrite buyers_W, sellers_W, asc_W, desc_W. cbn [fst].
  assert (C : forall l, w_rows (W l) = curve_rows l) by (intro l; unfold w_rows, curve_rows; rewrite qty_W, (map_W w_price (fun r => Fin (price r))) by reflexivity; reflexivity).
  unfold w_demand, w_supply. rewrite !C. reflexivity.
Qed.
Lemma cut_W l q : w_trading_bids (W l) q = match get_trading_bids l q with Ok x => Ok (W (fst x), snd x) | Err e => Err e end.
Proof.
  unfold get_trading_bids, w_trading_bids. rewrite map_length, !qty_W. cbv zeta. match goal with |- context [nth_error l ?j] => set (i := j) end. rewrite firstn_map, qty_W.
  rewrite nth_error_map. destruct (nth_error l i) as [r|]; cbn [option_map]; [|reflexivity]. change (w_qty (wrow_of r)) with (qty r).
  destruct (qltb _ (qty r)); [|reflexivity]. cbn [fst snd]. rewrite skipn_map, !map_app. reflexivity.
Qed.
Lemma sum_fin l : nsum_skip (map Fin l) = Fin (qsum l).
Proof.
  unfold nsum_skip. transitivity (Fin (0 + qsum l)); [|f_equal; apply Qcplus_0_l]. generalize 0. induction l as [|x l IH]; intro a; cbn [map filter fold_left qsum]; [f_equal; ring|].
  cbn [nadd]. rewrite IH. f_equal. ring.
Qed.
Lemma fee_W l i u q p : w_fee (combine (seq 0 (length (W l))) (W l)) i u q (Fin p) = Fin (compute_fee (indexed l) i u q p).
Proof.
  set (g := fun ir : nat * row => (fst ir, wrow_of (snd ir))).
  assert (I : combine (seq 0 (length (W l))) (W l) = map g (indexed l)).
  { unfold indexed. rewrite map_length. generalize (seq 0 (length l)). induction l as [|r l IH]; intros [|n k]; [reflexivity..|]. cbn [map combine]. rewrite IH. reflexivity. }
  rewrite I. generalize (indexed l). clear I. intro L. unfold compute_fee, w_fee.
  assert (Fi : forall (h : nat * wrow -> bool) (h' : nat * row -> bool) k, (forall x, h (g x) = h' x) -> filter h (map g k) = map g (filter h' k)).
  { intros h h' k H. induction k as [|x k IH]; [reflexivity|]. cbn [map filter]. rewrite H. destruct (h' x); cbn [map]; rewrite IH; reflexivity. }
  assert (Mp : forall (h : nat * wrow -> Qc) (h' : nat * row -> Qc) k, (forall x, h (g x) = h' x) -> map h (map g k) = map h' k) by (intros h h' k H; rewrite map_map; apply map_ext; exact H).
  rewrite (Fi _ (fun ir => negb (Z.eqb (user (snd ir)) u)) L) by reflexivity. set (O := filter _ L). clearbody O. destruct O as [|x0 O0]; [reflexivity|].
  match goal with |- match _ with [] => _ | _ :: _ => ?a end = Fin ?b => change (a = Fin b) end. generalize (x0 :: O0). clear x0 O0. intro O.
  cbv zeta. rewrite map_length, !(Mp _ (fun ir => qty (snd ir))) by reflexivity. match goal with |- context [nth_error O ?j] => set (n := j) end.
  rewrite !firstn_map, (Mp _ (fun ir => qty (snd ir))) by reflexivity. set (diff := q - _). rewrite nth_error_map.
  assert (SL : forall k v, w_set_last (map g k) v = map g (set_last_qty k v)).
  { intros k v. unfold set_last_qty, w_set_last. rewrite <- map_rev. destruct (rev k) as [|[j r] t]; [reflexivity|]. cbn [map]. unfold g at 1. cbn [fst snd]. rewrite map_app, <- map_rev. reflexivity. }
  set (V := match nth_error O n with Some (_, r) => if qltb diff (qty r) then set_last_qty (firstn (S n) O) diff else firstn (S n) O | None => firstn (S n) O end).
  match goal with |- nabs (nsum_skip (map _ (filter _ ?x))) = _ => replace x with (map g V) end.
  2: { unfold V. destruct (nth_error O n) as [[j r]|]; cbn [option_map g fst snd]; [|reflexivity]. change (w_qty (wrow_of r)) with (qty r). destruct (qltb diff (qty r)); [symmetry; apply SL | reflexivity]. }
  rewrite (Fi _ (fun ir => Nat.ltb i (fst ir))) by reflexivity. rewrite map_map.
  rewrite (map_ext _ (fun ir => Fin ((price (snd ir) - p) * qty (snd ir)))) by (intros [j r]; reflexivity).
  rewrite <- (map_map (fun ir => (price (snd ir) - p) * qty (snd ir)) Fin), sum_fin. reflexivity.
Qed.
Definition lift {A C} (h : A -> C) (x : res A) : res C := match x with Ok a => Ok (h a) | Err e => Err e end.
Lemma set_nth_map {A C} (h : A -> C) i v l : set_nth i (h v) (map h l) = map h (set_nth i v l).
Proof. revert i. induction l as [|x l IH]; intros [|i]; cbn; [reflexivity..|]. rewrite IH. reflexivity. Qed.
Lemma charge_W l i q p us : forall f, w_charge (W l) i q (Fin p) us (map Fin f) = lift (map Fin) (charge_users l i q p us f).
Proof.
  induction us as [|u us IH]; intro f; cbn [w_charge charge_users]; [reflexivity|]. rewrite fee_W. unfold w_set_fee, set_fee. rewrite map_length, !set_nth_map.
  destruct (_ && _); cbn [bind]; [apply IH|]. destruct (_ && _); cbn [bind]; [apply IH | reflexivity].
Qed.
Definition lift_half (x : transmgr * list Qc) : list (atrans Qc num) * list num := (map same_trans (tm_trans (fst x)), map Fin (snd x)).
Lemma body_W demand supply p f : w_body (W demand) (W supply) (Fin p) (map Fin f) = lift lift_half (n_body demand supply p f).
Proof.
  unfold w_body, n_body. rewrite !qty_W. cbv zeta. set (lg := qltb (qsum (map qty demand)) (qsum (map qty supply))).
  set (tot := if lg then _ else _). destruct (qltb 0 tot); [|reflexivity]. clearbody tot.
  destruct lg; cbv iota; rewrite !cut_W;
    match goal with |- bind (match get_trading_bids ?x tot with _ => _ end) _ = _ => destruct (get_trading_bids x tot) as [[l i]|e]; cbn [bind]; [|reflexivity] end;
    match goal with |- bind (match get_trading_bids ?x tot with _ => _ end) _ = _ => destruct (get_trading_bids x tot) as [[s j]|e]; cbn [bind fst snd]; [|reflexivity] end;
    rewrite !firstn_map, (map_W w_user user), charge_W by reflexivity;
    (destruct (charge_users _ _ _ _ _ _) as [b|e']; cbn [bind lift]; [|reflexivity]);
    unfold lift_half; cbn [fst snd]; rewrite !add_all_trans; cbn [tm_trans tm_init app]; rewrite map_app, !map_map; reflexivity.
Qed.
Lemma half_W S d p f : w_half S (W d) p (map Fin f) = lift lift_half (solve_market_side (fin_sorter S) d p f).
Proof.
  rewrite w_half_eq, buyers_W, sellers_W, !filter_map_swap, asc_W, desc_W. destruct p as [q| | |].
  - rewrite n_half_eq. apply body_W.
  - rewrite half_infinite by discriminate. rewrite (filter_none (fun x => nleb PInf (w_price (wrow_of x)))) by reflexivity. rewrite (perm_nil _ (s_desc_perm _ [])). apply w_body_nil.
  - rewrite half_infinite by discriminate. rewrite (filter_none (fun x => nleb (w_price (wrow_of x)) NInf)) by reflexivity. rewrite (perm_nil _ (s_asc_perm _ [])). apply w_body_nil_r.
  - rewrite half_infinite by discriminate. rewrite (filter_none (fun x => nleb NaN (w_price (wrow_of x)))) by reflexivity. rewrite (perm_nil _ (s_desc_perm _ [])). apply w_body_nil.
Qed.
Lemma dup_W d : w_dup (W d) = dup_price_user d.
Proof.
  induction d as [|r d IH]; [reflexivity|]. cbn [map w_dup dup_price_user]. rewrite IH. f_equal. clear IH. induction d as [|s d IH]; [reflexivity|]. cbn [map existsb]. rewrite IH. reflexivity.
Qed.
Lemma loc_W d ls : w_loc (W d) ls = W (loc d ls).
Proof. induction ls as [|i ls IH]; [reflexivity|]. unfold w_loc, loc in *. cbn [flat_map]. rewrite IH, filter_map_swap, map_app. reflexivity. Qed.

Lemma w_muda_lift S d fl : w_muda S (W d) fl = lift lift_run (muda (fin_sorter S) d fl).
Proof.
  unfold w_muda, muda, w_check, check_equal_price. rewrite buyers_W, sellers_W, !dup_W. destruct (_ || _); [reflexivity|]. cbv zeta.
  rewrite (map_W w_lbl lbl), (map_W w_user user) by reflexivity. rewrite !loc_W, !price_W.
  destruct (find_competitive_price _ _) as [pl|e]; cbn [bind lift]; [|reflexivity]. destruct (find_competitive_price _ _) as [pr|e]; cbn [bind lift]; [|reflexivity].
  replace (repeat (Fin 0) (length (uniqueZ (map user d)))) with (map Fin (repeat 0 (length (uniqueZ (map user d))))) by (generalize (length (uniqueZ (map user d))) as n; induction n as [|n IH]; cbn; [reflexivity | rewrite IH; reflexivity]).
  rewrite half_W. destruct (solve_market_side _ _ pr _) as [[tl f1]|e]; cbn [bind lift]; [|reflexivity]. unfold lift_half at 1. cbn [fst snd].
  rewrite half_W. destruct (solve_market_side _ _ pl _) as [[tr f2]|e]; cbn [bind lift]; [|reflexivity]. unfold lift_half, lift_run. cbn [fst snd].
  rewrite tm_merge_trans, map_app. reflexivity.
Qed.
Theorem w_muda_finite S d fl : exists S', w_muda S (W d) fl = match muda S' d fl with Ok x => Ok (lift_run x) | Err e => Err e end.
Proof. exists (fin_sorter S). apply w_muda_lift. Qed.
