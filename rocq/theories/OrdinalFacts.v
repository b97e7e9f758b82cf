(** Prices on another scale: curves, the Huang auction, the peer to peer and the uniform price mechanisms. *)
From Verif Require Import QcTac Num ModelBase ModelCurves ModelHuang ModelMuda ModelP2P ModelUniform ListFacts Spec SpecUnits SpecOrdinal Sorter StoreFacts UnitFacts UnitMech.

Section Scale.
  Variable h : Qc -> Qc.
  Hypothesis H0 : h 0 = 0.
  Hypothesis Hh : forall x y, x < y -> h x < h y.
  Let u := rescale_num h.
  Lemma h_ltb x y : qltb (h x) (h y) = qltb x y.
  Proof.
    destruct (qlt_spec x y) as [L|L]; [apply qltb_lt, Hh, L|]. apply qltb_ge. destruct (Qc_dec x y) as [[A|A]|A]; [exfalso; qlra | apply Qclt_le_weak, Hh, A | rewrite A; apply Qcle_refl].
  Qed.
  Lemma h_leb x y : qleb (h x) (h y) = qleb x y.
  Proof.
    pose proof (h_ltb y x) as E. destruct (qle_spec x y) as [L|L].
    - apply qleb_le. apply (proj1 (qltb_ge _ _)). rewrite E. apply qltb_ge, L.
    - apply qleb_gt, Hh, L.
  Qed.
  Lemma u_ltb' x y : nltb (u x) (u y) = nltb x y.
  Proof. destruct x, y; try reflexivity. apply h_ltb. Qed.

  Definition curve_scale (f : curve) : curve := map (fun p => (fst p, u (snd p))) f.
  Lemma cs_fst f : map fst (curve_scale f) = map fst f.
  Proof. unfold curve_scale. rewrite !map_map. reflexivity. Qed.
  Lemma cs_search x f : step_search x (curve_scale f) = option_map u (step_search x f).
  Proof. induction f as [|[y v] f IH]; [reflexivity|]. cbn [curve_scale map step_search fst snd]. destruct (nleb x y); [reflexivity|]. exact IH. Qed.
  Lemma cs_value x f : get_value_stepwise x (curve_scale f) = option_map u (get_value_stepwise x f).
  Proof. unfold get_value_stepwise. destruct (nltb x (Fin 0)); [reflexivity|]. apply cs_search. Qed.
  Lemma cs_max f : col_max (curve_scale f) = col_max f.
  Proof. unfold col_max. rewrite cs_fst. reflexivity. Qed.
  Lemma cs_xs f g x : common_xs (curve_scale f) (curve_scale g) x = common_xs f g x.
  Proof. unfold common_xs. rewrite !cs_fst. reflexivity. Qed.
  Definition pt_scale (p : num * option num * option num) := (fst (fst p), option_map u (snd (fst p)), option_map u (snd p)).
  Lemma cs_gt x y : opt_gt (option_map u x) (option_map u y) = opt_gt x y.
  Proof. destruct x, y; try reflexivity. cbn [option_map opt_gt]. rewrite u_ltb'. reflexivity. Qed.
  Lemma cs_scan l : forall x, scan (map pt_scale l) x = scan l x.
  Proof.
    induction l as [|p l IH]; intros y; [reflexivity|]. destruct l as [|q l]; [reflexivity|].
    cbn [map] in *. rewrite !scan_cons. change (pt_scale q :: map pt_scale l) with (map pt_scale (q :: l)) in *.
    cbn [pt_scale fst snd]. unfold opt_lt. rewrite !cs_gt. destruct (opt_gt (snd (fst p)) (snd p)) as [[]|]; cbn [bind]; [|apply IH|reflexivity].
    destruct (opt_gt (snd q) (snd (fst q))) as [[]|]; cbn [bind]; [|apply IH|reflexivity]. apply IH.
  Qed.
  Lemma cs_pos x f : argmax_bool (map (fun p => nleb x (fst p)) (curve_scale f)) = argmax_bool (map (fun p => nleb x (fst p)) f).
  Proof. f_equal. unfold curve_scale. rewrite map_map. reflexivity. Qed.
  Lemma cs_mem x f : mem_col x (curve_scale f) = mem_col x f.
  Proof. destruct x as [x|]; [|reflexivity]. cbn [mem_col]. rewrite cs_fst. reflexivity. Qed.
  Lemma cs_piece i xs g : piece_value i xs (curve_scale g) = match piece_value i xs g with Ok v => Ok (option_map u v) | Err e => Err e end.
  Proof.
    unfold piece_value. destruct i as [i|].
    - unfold curve_scale. rewrite nth_error_map. destruct (nth_error g i) as [[x v]|]; reflexivity.
    - unfold value_at_last. destruct (rev xs) as [|x l]; [reflexivity|]. rewrite cs_value. reflexivity.
  Qed.
  (** the quantity and the two pieces are the same; the value is one of the two pieces, or their mean *)
  Lemma cs_intersect f g k :
    match intersect_stepwise f g k with
    | Ok (x, i, j, v) => exists v', intersect_stepwise (curve_scale f) (curve_scale g) k = Ok (x, i, j, v') /\
        (x <> None -> mem_col x f && mem_col x g = false -> v' = u v)
    | Err e => intersect_stepwise (curve_scale f) (curve_scale g) k = Err e
    end.
  Proof.
    unfold intersect_stepwise. rewrite !cs_max. destruct (col_max f) as [fm|]; [|reflexivity]. destruct (col_max g) as [gm|]; [|reflexivity]. cbn [bind].
    rewrite cs_xs. set (xs := common_xs f g (nmin fm gm)).
    replace (map (fun x => (x, get_value_stepwise x (curve_scale f), get_value_stepwise x (curve_scale g))) xs)
      with (map pt_scale (map (fun x => (x, get_value_stepwise x f, get_value_stepwise x g)) xs))
      by (rewrite !map_map; apply map_ext; intros x; unfold pt_scale; cbn [fst snd]; rewrite !cs_value; reflexivity).
    rewrite cs_scan. destruct (scan _ None) as [x|]; [|reflexivity]. cbn [bind].
    assert (E : forall c, option_map (fun x => argmax_bool (map (fun p => nleb x (fst p)) (curve_scale c))) x =
                option_map (fun x => argmax_bool (map (fun p => nleb x (fst p)) c)) x)
      by (intros c; destruct x as [x|]; [|reflexivity]; cbn [option_map]; rewrite cs_pos; reflexivity).
    rewrite !E, !cs_piece, !cs_mem. set (gi := option_map _ x). set (fi := option_map _ x).
    destruct (piece_value gi xs g) as [gv|]; [|reflexivity]. cbn [bind]. destruct (piece_value fi xs f) as [fv|]; [|reflexivity]. cbn [bind].
    destruct gv as [gv|], fv as [fv|]; try reflexivity. cbn [option_map]. eexists. split; [reflexivity|].
    intros N M. destruct x as [x|]; [|congruence]. rewrite M. destruct (mem_col (Some x) f); reflexivity.
  Qed.

  Let R (r r' : row) : Prop := r' = rescale h r.
  Lemma R_map d : Forall2 R d (map (rescale h) d).
  Proof. induction d; constructor; [reflexivity | assumption]. Qed.
  Variable S : sorter.
  Hypothesis HS : compares_prices S.
  Lemma R_eq d d' : Forall2 R d d' -> d' = map (rescale h) d.
  Proof. induction 1 as [|x y d d' E F IH]; [reflexivity|]. cbn [map]. congruence. Qed.
  Lemma r_buyers d : buyers (map (rescale h) d) = map (rescale h) (buyers d).
  Proof. unfold buyers. induction d as [|r d IH]; [reflexivity|]. cbn [map filter]. cbn [rescale buying]. destruct (buying r); cbn [map]; rewrite IH; reflexivity. Qed.
  Lemma r_sellers d : sellers (map (rescale h) d) = map (rescale h) (sellers d).
  Proof. unfold sellers. induction d as [|r d IH]; [reflexivity|]. cbn [map filter]. cbn [rescale buying]. destruct (buying r); cbn [negb map]; rewrite IH; reflexivity. Qed.
  Lemma r_asc d : s_asc S (map (rescale h) d) = map (rescale h) (s_asc S d).
  Proof. apply R_eq. apply (HS R d _ (R_map d)). intros x y x' y' _ _ -> ->. apply h_leb. Qed.
  Lemma r_desc d : s_desc S (map (rescale h) d) = map (rescale h) (s_desc S d).
  Proof. apply R_eq. apply (HS R d _ (R_map d)). intros x y x' y' _ _ -> ->. apply h_leb. Qed.
  Lemma r_lbl d : map lbl (map (rescale h) d) = map lbl d.
  Proof. rewrite map_map. reflexivity. Qed.
  Lemma r_qty d : map qty (map (rescale h) d) = map qty d.
  Proof. rewrite map_map. reflexivity. Qed.
  Lemma r_rows d : curve_rows (map (rescale h) d) = curve_scale (curve_rows d).
  Proof.
    unfold curve_rows, curve_scale. rewrite r_qty, map_map. generalize (cumsum (map qty d)). induction d as [|r d IH]; intros [|x xs]; cbn [map combine]; [reflexivity..|].
    f_equal. apply IH.
  Qed.
  Lemma r_demand d : demand_curve_from_bids S (map (rescale h) d) = (curve_scale (fst (demand_curve_from_bids S d)), snd (demand_curve_from_bids S d)).
  Proof.
    unfold demand_curve_from_bids. cbn [fst snd]. rewrite r_buyers, r_desc, r_rows, r_lbl. unfold curve_scale. rewrite map_app. cbn [map fst snd u rescale_num]. rewrite H0. reflexivity.
  Qed.
  Lemma r_supply d : supply_curve_from_bids S (map (rescale h) d) = (curve_scale (fst (supply_curve_from_bids S d)), snd (supply_curve_from_bids S d)).
  Proof. unfold supply_curve_from_bids. cbn [fst snd]. rewrite r_sellers, r_asc, r_rows, r_lbl. unfold curve_scale. rewrite map_app. reflexivity. Qed.

  (** ** The Huang auction *)
  Lemma r_emit d : forall qs p, emit (map (rescale h) d) qs (h p) = map (rescale_trans h) (emit d qs p).
  Proof. unfold emit. induction d as [|r d IH]; intros qs p; [reflexivity|]. destruct qs as [|q qs]; [reflexivity|]. cbn [map combine fst snd]. rewrite IH. reflexivity. Qed.
  Lemma r_add l : forall tm, add_all (mkTM (n_trans tm) (map (rescale_trans h) (tm_trans tm))) (map (rescale_trans h) l) =
    mkTM (n_trans (add_all tm l)) (map (rescale_trans h) (tm_trans (add_all tm l))).
  Proof.
    unfold add_all. induction l as [|x l IH]; intros tm; cbn [map fold_left]; [reflexivity|]. rewrite <- IH. f_equal.
    unfold add_transaction. cbn [fst n_trans tm_trans]. rewrite map_app. reflexivity.
  Qed.
  Theorem huang_scale d : huang_auction S (map (rescale h) d) =
    match huang_auction S d with
    | Ok (tm, XHuang ps pb q) => Ok (mkTM (n_trans tm) (map (rescale_trans h) (tm_trans tm)), XHuang (h ps) (h pb) q)
    | x => x
    end.
  Proof.
    unfold huang_auction. rewrite r_demand, r_supply. cbn [fst]. pose proof (cs_intersect (fst (demand_curve_from_bids S d)) (fst (supply_curve_from_bids S d)) (qf 1 2)) as C.
    destruct (intersect_stepwise _ _ _) as [[[[x i] j] v]|]; cbn [bind]; [destruct C as (v' & -> & _)|rewrite C; reflexivity]. cbn [bind].
    destruct i as [i|]; [|reflexivity]. destruct j as [j|]; [|reflexivity].
    unfold curve_scale. rewrite !nth_error_map.
    destruct (nth_error (fst (supply_curve_from_bids S d)) j) as [[xs vs]|]; cbn [option_map]; [|reflexivity].
    destruct (nth_error (fst (demand_curve_from_bids S d)) i) as [[xd vd]|]; cbn [option_map fst snd]; [|destruct vs; reflexivity].
    destruct vs as [ps| | |]; cbn [u rescale_num]; try reflexivity. destruct vd as [pb| | |]; cbn [u rescale_num]; try reflexivity.
    rewrite r_buyers, r_sellers, r_asc, r_desc, !firstn_map, !r_qty.
    set (db := firstn i (s_desc S (buyers d))). set (ds := firstn j (s_asc S (sellers d))).
    destruct (Nat.ltb 0 i && Nat.ltb 0 j); [|reflexivity].
    set (Q := if qltb 0 _ then _ else _). destruct Q as [[qs qb]|]; cbn [bind]; [|reflexivity]. rewrite !r_emit.
    change tm_init with (mkTM (n_trans tm_init) (map (rescale_trans h) (tm_trans tm_init))) at 1. rewrite !r_add. reflexivity.
  Qed.

  (** ** Peer to peer: everything except the prices *)
  Lemma sbp_add tm tm' l l' : same_but_price tm tm' -> map unpriced l' = map unpriced l -> same_but_price (add_all tm l) (add_all tm' l').
  Proof.
    unfold add_all. revert tm tm' l'. induction l as [|x l IH]; intros tm tm' l' [N T] E; destruct l' as [|x' l']; try discriminate E; [split; assumption|].
    cbn [map] in E. injection E as E1 E2 E3 E4 E5. cbn [fold_left]. apply IH; [|exact E5]. unfold add_transaction. cbn [fst]. split; cbn [n_trans tm_trans].
    - rewrite N. reflexivity.
    - rewrite !map_app, T. cbn [map]. unfold unpriced. rewrite E1, E2, E3, E4. reflexivity.
  Qed.
  Lemma h_nth l i : nth i (map h l) 0 = h (nth i l 0).
  Proof. rewrite <- (map_nth h), H0. reflexivity. Qed.
  Lemma pair_scale c prices q tm tm' bs : same_but_price tm tm' ->
    fst (trade_pair c (map h prices) (q, tm') bs) = fst (trade_pair c prices (q, tm) bs) /\
    same_but_price (snd (trade_pair c prices (q, tm) bs)) (snd (trade_pair c (map h prices) (q, tm') bs)).
  Proof.
    intro T. destruct bs as [i j]. unfold trade_pair. rewrite !h_nth, h_leb. destruct (qleb (nth j prices 0) (nth i prices 0)); cbn [fst snd]; (split; [reflexivity|]); apply sbp_add; trivial.
  Qed.
  Lemma pairs_scale c prices l : forall q tm tm', same_but_price tm tm' ->
    fst (fold_left (trade_pair c (map h prices)) l (q, tm')) = fst (fold_left (trade_pair c prices) l (q, tm)) /\
    same_but_price (snd (fold_left (trade_pair c prices) l (q, tm))) (snd (fold_left (trade_pair c (map h prices)) l (q, tm'))).
  Proof.
    induction l as [|x l IH]; intros q tm tm' T; cbn [fold_left]; [split; [reflexivity | exact T]|].
    destruct (pair_scale c prices q tm tm' x T) as [E1 E2]. rewrite (surjective_pairing (trade_pair c (map h prices) (q, tm') x)), (surjective_pairing (trade_pair c prices (q, tm) x)), E1.
    apply IH, E2.
  Qed.
  Lemma next_scale d ps q act : next_tmp (map (rescale h) d) ps q act = next_tmp d ps q act.
  Proof. unfold next_tmp. rewrite r_buyers, r_sellers, !r_lbl. reflexivity. Qed.
  Lemma loop_scale d ps c prices r : forall fuel k act tmp q tm tm' g, same_but_price tm tm' ->
    match p2p_loop fuel d ps c prices r k act tmp q tm g with
    | Ok (t, gt) => exists t', p2p_loop fuel (map (rescale h) d) ps c (map h prices) r k act tmp q tm' g = Ok (t', gt) /\ same_but_price t t'
    | Err e => p2p_loop fuel (map (rescale h) d) ps c (map h prices) r k act tmp q tm' g = Err e
    end.
  Proof.
    induction fuel as [|fuel IH]; intros k act tmp q tm tm' g T; cbn [p2p_loop].
    - destruct (_ && _); [reflexivity | eauto].
    - destruct (_ && _); [|eauto]. destruct (pick_round _ _ _ _ _ _ _) as [[[tr act'] k']|]; cbn [bind]; [|reflexivity].
      destruct (pairs_scale c prices tr q tm tm' T) as [E1 E2].
      destruct (fold_left (trade_pair c prices) tr (q, tm)) as [q1 tm1], (fold_left (trade_pair c (map h prices)) tr (q, tm')) as [q2 tm2]. cbn [fst snd] in E1, E2. subst q2.
      rewrite next_scale. apply IH, E2.
  Qed.
  Theorem p2p_scale d c r :
    match p2p_random d c r with
    | Ok (tm, ex) => exists tm', p2p_random (map (rescale h) d) c r = Ok (tm', ex) /\ same_but_price tm tm'
    | Err e => p2p_random (map (rescale h) d) c r = Err e
    end.
  Proof.
    unfold p2p_random. rewrite !all_pairs_lbl, r_buyers, r_sellers, !r_lbl, r_qty, !map_length.
    replace (map price (map (rescale h) d)) with (map h (map price d)) by (rewrite !map_map; reflexivity).
    destruct (forallb _ _); [|reflexivity].
    pose proof (loop_scale d (list_prod (map lbl (buyers d)) (map lbl (sellers d))) c (map price d) r (length (list_prod (map lbl (buyers d)) (map lbl (sellers d)))) 0
      (repeat true (length (list_prod (map lbl (buyers d)) (map lbl (sellers d))))) (repeat true (length (list_prod (map lbl (buyers d)) (map lbl (sellers d)))))
      (map qty d) tm_init tm_init [] (conj eq_refl eq_refl)) as L.
    destruct (p2p_loop _ d _ _ _ _ _ _ _ _ _ _) as [[tm g]|]; cbn [bind]; [|rewrite L; reflexivity].
    destruct L as (t' & -> & L). cbn [bind]. eauto.
  Qed.
End Scale.
