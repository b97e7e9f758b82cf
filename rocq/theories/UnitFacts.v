(** Change of units: curves and their intersection. *)
From Verif Require Import QcTac Num ModelBase ModelCurves ModelHuang ModelMuda ModelP2P ListFacts SpecUnits Sorter.

Lemma scale_leb a x y : 0 < a -> qleb (a * x) (a * y) = qleb x y.
Proof.
  intros Ha. destruct (qle_spec x y) as [H|H].
  - apply qleb_le. apply qmult_le_l; qlra.
  - apply qleb_gt. assert (K : 0 < a * (y - x) \/ 0 < a * (x - y)) by (right; apply qmult_pos; qlra).
    destruct K as [K|K]; qnra.
Qed.
Lemma scale_ltb a x y : 0 < a -> qltb (a * x) (a * y) = qltb x y.
Proof. intros Ha. pose proof (scale_leb a y x Ha) as E. unfold qleb in E. unfold qltb. rewrite E. reflexivity. Qed.
Lemma scale_inj a x y : 0 < a -> a * x = a * y -> x = y.
Proof.
  intros Ha E. destruct (qle_spec x y) as [H|H]; [destruct (qle_spec y x) as [H'|H']; [qlra|]|].
  - assert (K : 0 < a * (y - x)) by (apply qmult_pos; qlra). assert (a * (y - x) = a * y - a * x) by ring. qlra.
  - assert (K : 0 < a * (x - y)) by (apply qmult_pos; qlra). assert (a * (x - y) = a * x - a * y) by ring. qlra.
Qed.
Lemma scale_eqb a x y : 0 < a -> qeqb (a * x) (a * y) = qeqb x y.
Proof.
  intros Ha. destruct (qeq_spec x y) as [->|H]; [apply qeqb_eq; reflexivity|]. apply qeqb_neq. intros E. apply H, (scale_inj a); assumption.
Qed.
Lemma scale_sum a l : qsum (map (Qcmult a) l) = a * qsum l.
Proof. induction l as [|x l IH]; cbn [map qsum]; [ring|]. rewrite IH. ring. Qed.
Lemma scale_max a x y : 0 < a -> qmax (a * x) (a * y) = a * qmax x y.
Proof. intros Ha. unfold qmax. rewrite scale_leb by exact Ha. destruct (qleb x y); reflexivity. Qed.
Lemma scale_min a x y : 0 < a -> qmin (a * x) (a * y) = a * qmin x y.
Proof. intros Ha. unfold qmin. rewrite scale_leb by exact Ha. destruct (qleb x y); reflexivity. Qed.
Lemma scale_ltb0 a x : 0 < a -> qltb 0 (a * x) = qltb 0 x.
Proof. intros Ha. replace 0 with (a * 0) at 1 by ring. apply scale_ltb, Ha. Qed.
Lemma scale_eqb0 a x : 0 < a -> qeqb (a * x) 0 = qeqb x 0.
Proof. intros Ha. replace 0 with (a * 0) at 1 by ring. apply scale_eqb, Ha. Qed.
Lemma scale_cumsum a l : cumsum (map (Qcmult a) l) = map (Qcmult a) (cumsum l).
Proof.
  unfold cumsum. replace 0 with (a * 0) at 1 by ring. generalize 0. induction l as [|x l IH]; intros acc; cbn [map cumsum_from]; [reflexivity|].
  replace (a * acc + a * x) with (a * (acc + x)) by ring. rewrite IH. reflexivity.
Qed.

Section Units.
  Variable a : Qc.
  Hypothesis Ha : 0 < a.
  Let u := in_units a.
  Lemma u_leb x y : nleb (u x) (u y) = nleb x y.
  Proof. destruct x, y; try reflexivity. apply scale_leb, Ha. Qed.
  Lemma u_ltb x y : nltb (u x) (u y) = nltb x y.
  Proof. destruct x, y; try reflexivity. apply scale_ltb, Ha. Qed.
  Lemma u_eqb x y : neqb (u x) (u y) = neqb x y.
  Proof. destruct x, y; try reflexivity. apply scale_eqb, Ha. Qed.
  Lemma u_0 : u (Fin 0) = Fin 0.
  Proof. unfold u, in_units. f_equal. ring. Qed.
  Lemma u_max x y : nmax (u x) (u y) = u (nmax x y).
  Proof. unfold nmax. rewrite u_leb. destruct x, y; try reflexivity; cbn [u in_units nleb]; try reflexivity. destruct (qleb q q0); reflexivity. Qed.
  Lemma u_min x y : nmin (u x) (u y) = u (nmin x y).
  Proof. unfold nmin. rewrite u_leb. destruct x, y; try reflexivity; cbn [u in_units nleb]; try reflexivity. destruct (qleb q q0); reflexivity. Qed.
  Lemma u_add x y : nadd (u x) (u y) = u (nadd x y).
  Proof. destruct x, y; try reflexivity. unfold u; cbn [nadd in_units]. f_equal. ring. Qed.
  Lemma u_mul_r x k : nmul (u x) (Fin k) = u (nmul x (Fin k)).
  Proof. destruct x; unfold u; cbn [nmul in_units]; try reflexivity; [f_equal; ring| |]; unfold ninf_times; destruct (qeqb k 0); [reflexivity| |reflexivity|]; destruct (qltb 0 k); reflexivity. Qed.
  Lemma u_mul_l x k : nmul (Fin k) (u x) = u (nmul (Fin k) x).
  Proof. destruct x; unfold u; cbn [nmul in_units]; try reflexivity; [f_equal; ring| |]; unfold ninf_times; destruct (qeqb k 0); [reflexivity| |reflexivity|]; destruct (qltb 0 k); reflexivity. Qed.
  Lemma u_mem x l : nmem (u x) (map u l) = nmem x l.
  Proof. unfold nmem. induction l as [|y l IH]; cbn [map existsb]; [reflexivity|]. rewrite u_eqb, IH. reflexivity. Qed.
  Lemma u_dedup l : ndedup (map u l) = map u (ndedup l).
  Proof. induction l as [|y l IH]; cbn [map ndedup]; [reflexivity|]. rewrite u_mem. destruct (nmem y l); [exact IH|]. cbn [map]. rewrite IH. reflexivity. Qed.
  Lemma u_insert x l : ninsert (u x) (map u l) = map u (ninsert x l).
  Proof. induction l as [|y l IH]; cbn [map ninsert]; [reflexivity|]. rewrite u_leb. destruct (nleb x y); [reflexivity|]. cbn [map]. rewrite IH. reflexivity. Qed.
  Lemma u_sort l : nsort (map u l) = map u (nsort l).
  Proof. unfold nsort. induction l as [|y l IH]; cbn [map fold_right]; [reflexivity|]. rewrite IH, u_insert. reflexivity. Qed.
  Lemma u_filter x l : filter (fun y => nleb y (u x)) (map u l) = map u (filter (fun y => nleb y x) l).
  Proof. induction l as [|y l IH]; cbn [map filter]; [reflexivity|]. rewrite u_leb. destruct (nleb y x); cbn [map]; rewrite IH; reflexivity. Qed.
  Lemma u_fold l : forall x, fold_left nmax (map u l) (u x) = u (fold_left nmax l x).
  Proof. induction l as [|y l IH]; intros x; cbn [map fold_left]; [reflexivity|]. rewrite u_max. apply IH. Qed.
End Units.

Section Curves.
  Variables a b : Qc.
  Hypothesis Ha : 0 < a.
  Hypothesis Hb : 0 < b.
  Definition curve_units (f : curve) : curve := map (fun p => (in_units a (fst p), in_units b (snd p))) f.
  Lemma cu_fst f : map fst (curve_units f) = map (in_units a) (map fst f).
  Proof. unfold curve_units. rewrite !map_map. reflexivity. Qed.
  Lemma cu_search x f : step_search (in_units a x) (curve_units f) = option_map (in_units b) (step_search x f).
  Proof.
    induction f as [|[y v] f IH]; [reflexivity|]. cbn [curve_units map step_search fst snd]. rewrite (u_leb a Ha).
    destruct (nleb x y); [reflexivity|]. exact IH.
  Qed.
  Lemma cu_value x f : get_value_stepwise (in_units a x) (curve_units f) = option_map (in_units b) (get_value_stepwise x f).
  Proof.
    unfold get_value_stepwise. rewrite <- (u_0 a) at 1. rewrite (u_ltb a Ha). destruct (nltb x (Fin 0)); [reflexivity|]. apply cu_search.
  Qed.
  Lemma cu_max f : col_max (curve_units f) = match col_max f with Ok x => Ok (in_units a x) | Err e => Err e end.
  Proof.
    unfold col_max. rewrite cu_fst. destruct (map fst f) as [|x l]; [reflexivity|]. cbn [map]. rewrite (u_fold a Ha). reflexivity.
  Qed.
  Lemma cu_xs f g x : common_xs (curve_units f) (curve_units g) (in_units a x) = map (in_units a) (common_xs f g x).
  Proof. unfold common_xs. rewrite !cu_fst, <- map_app, (u_dedup a Ha), (u_filter a Ha), (u_sort a Ha). reflexivity. Qed.
  Definition pt_units (p : num * option num * option num) := (in_units a (fst (fst p)), option_map (in_units b) (snd (fst p)), option_map (in_units b) (snd p)).
  Lemma cu_gt x y : opt_gt (option_map (in_units b) x) (option_map (in_units b) y) = opt_gt x y.
  Proof. destruct x, y; try reflexivity. cbn [option_map opt_gt]. rewrite (u_ltb b Hb). reflexivity. Qed.
  Lemma scan_cons p q l x : scan (p :: q :: l) x =
    (c1 <- opt_gt (snd (fst p)) (snd p) ;;
     if c1 then c2 <- opt_lt (snd (fst q)) (snd q) ;; scan (q :: l) (if c2 then Some (fst (fst p)) else x) else scan (q :: l) x).
  Proof. destruct p as [[? ?] ?], q as [[? ?] ?]. reflexivity. Qed.
  Lemma cu_scan l : forall x, scan (map pt_units l) (option_map (in_units a) x) = match scan l x with Ok y => Ok (option_map (in_units a) y) | Err e => Err e end.
  Proof.
    induction l as [|p l IH]; intros y; [reflexivity|]. destruct l as [|q l]; [reflexivity|].
    cbn [map] in *. rewrite !scan_cons. change (pt_units q :: map pt_units l) with (map pt_units (q :: l)) in *.
    cbn [pt_units fst snd]. unfold opt_lt. rewrite !cu_gt. destruct (opt_gt (snd (fst p)) (snd p)) as [[]|]; cbn [bind]; [|apply IH|reflexivity].
    destruct (opt_gt (snd q) (snd (fst q))) as [[]|]; cbn [bind]; [|apply IH|reflexivity]. apply (IH (Some (fst (fst p)))).
  Qed.
  Lemma cu_pos x f : argmax_bool (map (fun p => nleb (in_units a x) (fst p)) (curve_units f)) = argmax_bool (map (fun p => nleb x (fst p)) f).
  Proof. f_equal. unfold curve_units. rewrite map_map. apply map_ext. intros p. cbn [fst]. apply u_leb, Ha. Qed.
  Lemma cu_mem x f : mem_col (option_map (in_units a) x) (curve_units f) = mem_col x f.
  Proof. destruct x as [x|]; [|reflexivity]. cbn [option_map mem_col]. rewrite cu_fst. apply u_mem, Ha. Qed.
  Lemma cu_piece i xs g : piece_value i (map (in_units a) xs) (curve_units g) = match piece_value i xs g with Ok v => Ok (option_map (in_units b) v) | Err e => Err e end.
  Proof.
    unfold piece_value. destruct i as [i|].
    - unfold curve_units. rewrite nth_error_map. destruct (nth_error g i) as [[x v]|]; reflexivity.
    - unfold value_at_last. rewrite <- map_rev. destruct (rev xs) as [|x l]; [reflexivity|]. cbn [map]. rewrite cu_value. reflexivity.
  Qed.
  Lemma cu_intersect f g k : intersect_stepwise (curve_units f) (curve_units g) k =
    match intersect_stepwise f g k with Ok (x, i, j, v) => Ok (option_map (in_units a) x, i, j, in_units b v) | Err e => Err e end.
  Proof.
    unfold intersect_stepwise. rewrite !cu_max. destruct (col_max f) as [fm|]; [|reflexivity]. destruct (col_max g) as [gm|]; [|reflexivity]. cbn [bind].
    rewrite (u_min a Ha), cu_xs. set (xs := common_xs f g (nmin fm gm)).
    replace (map (fun x => (x, get_value_stepwise x (curve_units f), get_value_stepwise x (curve_units g))) (map (in_units a) xs))
      with (map pt_units (map (fun x => (x, get_value_stepwise x f, get_value_stepwise x g)) xs))
      by (rewrite !map_map; apply map_ext; intros x; unfold pt_units; cbn [fst snd]; rewrite !cu_value; reflexivity).
    change None with (option_map (in_units a) None) at 1. rewrite cu_scan. destruct (scan _ None) as [x|]; [|reflexivity]. cbn [bind].
    assert (E : forall h, option_map (fun x => argmax_bool (map (fun p => nleb x (fst p)) (curve_units h))) (option_map (in_units a) x) =
                option_map (fun x => argmax_bool (map (fun p => nleb x (fst p)) h)) x)
      by (intros h; destruct x as [x|]; [|reflexivity]; cbn [option_map]; rewrite cu_pos; reflexivity).
    rewrite !E, !cu_piece, !cu_mem. set (gi := option_map _ x). set (fi := option_map _ x).
    destruct (piece_value gi xs g) as [gv|]; [|reflexivity]. cbn [bind]. destruct (piece_value fi xs f) as [fv|]; [|reflexivity]. cbn [bind].
    destruct gv as [gv|], fv as [fv|]; try reflexivity. cbn [option_map].
    destruct x as [x|]; cbn [option_map]; [destruct (mem_col (Some x) f && mem_col (Some x) g); [|destruct (mem_col (Some x) f)]|];
      rewrite ?u_mul_r, ?u_mul_l, ?u_add; reflexivity.
  Qed.
End Curves.

(** ** Tables *)
Section Lists.
  Context {A B : Type} (R : A -> B -> Prop).
  Lemma F2_filter (P : A -> bool) (P' : B -> bool) l l' : Forall2 R l l' -> (forall x y, In x l -> R x y -> P' y = P x) -> Forall2 R (filter P l) (filter P' l').
  Proof.
    induction 1 as [|x y l l' H F IH]; intros K; cbn [filter]; [constructor|]. rewrite (K x y (or_introl eq_refl) H).
    assert (I := IH (fun a b Ia => K a b (or_intror Ia))). destruct (P x); [constructor; assumption|exact I].
  Qed.
  Lemma F2_map {C D} (f : A -> C) (g : B -> D) (h : C -> D) l l' : Forall2 R l l' -> (forall x y, In x l -> R x y -> g y = h (f x)) -> map g l' = map h (map f l).
  Proof.
    induction 1 as [|x y l l' H F IH]; intros K; cbn [map]; [reflexivity|]. rewrite (K x y (or_introl eq_refl) H), (IH (fun a b Ia => K a b (or_intror Ia))). reflexivity.
  Qed.
  Lemma F2_map_same {C} (f : A -> C) (g : B -> C) l l' : Forall2 R l l' -> (forall x y, In x l -> R x y -> g y = f x) -> map g l' = map f l.
  Proof. intros F K. rewrite (F2_map f g (fun x => x) l l' F K). apply map_id. Qed.
  Lemma F2_firstn n : forall l l', Forall2 R l l' -> Forall2 R (firstn n l) (firstn n l').
  Proof. induction n as [|n IH]; intros l l' F; [constructor|]. destruct F; cbn [firstn]; constructor; auto. Qed.
  Lemma F2_skipn n : forall l l', Forall2 R l l' -> Forall2 R (skipn n l) (skipn n l').
  Proof. induction n as [|n IH]; intros l l' F; [exact F|]. destruct F; cbn [skipn]; [constructor|]. auto. Qed.
  Lemma F2_nth l l' : Forall2 R l l' -> forall n, match nth_error l n, nth_error l' n with Some x, Some y => R x y | None, None => True | _, _ => False end.
  Proof. induction 1 as [|x y l l' H F IH]; intros [|n]; cbn [nth_error]; [trivial..|exact H|apply IH]. Qed.
  Lemma F2_impl (R' : A -> B -> Prop) l l' : (forall x y, R x y -> R' x y) -> Forall2 R l l' -> Forall2 R' l l'.
  Proof. intros K. induction 1; constructor; auto. Qed.
End Lists.

(** the stable sorter looks at prices only *)
Lemma ins_same (R : row -> row -> Prop) (le : row -> row -> bool) x x' l l' : R x x' -> Forall2 R l l' ->
  (forall y y', In y l -> R y y' -> le x' y' = le x y) -> Forall2 R (ins le x l) (ins le x' l').
Proof.
  intros H. induction 1 as [|y y' l l' Hy F IH]; intros K; cbn [ins]; [constructor; [exact H|constructor]|].
  rewrite (K y y' (or_introl eq_refl) Hy). destruct (le x y); constructor; try assumption; [constructor; assumption|].
  apply IH. intros z z' Iz. apply K. right; exact Iz.
Qed.
Lemma isort_same (R : row -> row -> Prop) (le : row -> row -> bool) l l' : Forall2 R l l' ->
  (forall x y x' y', In x l -> In y l -> R x x' -> R y y' -> le x' y' = le x y) -> Forall2 R (isort le l) (isort le l').
Proof.
  induction 1 as [|x x' l l' H F IH]; intros K; cbn [isort fold_right]; [constructor|]. apply ins_same; [exact H| |].
  - apply IH. intros y z y' z' Iy Iz. apply K; right; assumption.
  - intros y y' Iy Hy. apply K; [left; reflexivity| |exact H|exact Hy]. right. apply (Permutation_in y (isort_perm le l)), Iy.
Qed.
Lemma stable_compares : compares_prices stable_sorter.
Proof.
  intros R d d' F K. split; apply isort_same; try exact F.
  - intros x y x' y' Ix Iy Hx Hy. unfold le_asc. apply K; assumption.
  - intros x y x' y' Ix Iy Hx Hy. unfold le_desc. apply K; assumption.
Qed.

Section Table.
  Variables a b : Qc.
  Hypothesis Ha : 0 < a.
  Hypothesis Hb : 0 < b.
  Variable R : row -> row -> Prop.
  Hypothesis HR : forall r r', R r r' -> same_bid a b r r'.
  Lemma tb_lbl l l' : Forall2 R l l' -> map lbl l' = map lbl l.
  Proof. intros F. apply (F2_map_same R lbl lbl l l' F). intros x y _ H. apply (HR x y H). Qed.
  Lemma tb_qty l l' : Forall2 R l l' -> map qty l' = map (Qcmult a) (map qty l).
  Proof. intros F. apply (F2_map R qty qty _ l l' F). intros x y _ H. apply (HR x y H). Qed.
  Lemma tb_price l l' : Forall2 R l l' -> map price l' = map (Qcmult b) (map price l).
  Proof. intros F. apply (F2_map R price price _ l l' F). intros x y _ H. apply (HR x y H). Qed.
  Lemma tb_buyers l l' : Forall2 R l l' -> Forall2 R (buyers l) (buyers l').
  Proof. intros F. apply F2_filter; [exact F|]. intros x y _ H. apply (HR x y H). Qed.
  Lemma tb_sellers l l' : Forall2 R l l' -> Forall2 R (sellers l) (sellers l').
  Proof. intros F. apply F2_filter; [exact F|]. intros x y _ H. f_equal. apply (HR x y H). Qed.
  Lemma tb_le x y x' y' : R x x' -> R y y' -> qleb (price x') (price y') = qleb (price x) (price y).
  Proof. intros H K. destruct (HR _ _ H) as (_ & _ & -> & _), (HR _ _ K) as (_ & _ & -> & _). apply scale_leb, Hb. Qed.
  Variable S : sorter.
  Hypothesis HS : compares_prices S.
  Lemma tb_asc l l' : Forall2 R l l' -> Forall2 R (s_asc S l) (s_asc S l').
  Proof. intros F. apply (HS R l l' F). intros x y x' y' _ _. apply tb_le. Qed.
  Lemma tb_desc l l' : Forall2 R l l' -> Forall2 R (s_desc S l) (s_desc S l').
  Proof. intros F. apply (HS R l l' F). intros x y x' y' _ _. apply tb_le. Qed.
  Lemma tb_rows l l' : Forall2 R l l' -> curve_rows l' = curve_units a b (curve_rows l).
  Proof.
    intros F. unfold curve_rows, curve_units. rewrite (tb_qty l l' F), scale_cumsum, <- (map_map price Fin), (tb_price l l' F), <- (map_map price Fin l).
    generalize (cumsum (map qty l)) (map price l). intros xs ys. revert ys.
    induction xs as [|x xs IH]; intros [|y ys]; cbn [map combine]; [reflexivity..|]. f_equal. apply IH.
  Qed.
  Lemma tb_demand l l' : Forall2 R l l' -> demand_curve_from_bids S l' = (curve_units a b (fst (demand_curve_from_bids S l)), snd (demand_curve_from_bids S l)).
  Proof.
    intros F. unfold demand_curve_from_bids. cbn [fst snd]. assert (G := tb_desc _ _ (tb_buyers _ _ F)). rewrite (tb_rows _ _ G), (tb_lbl _ _ G).
    unfold curve_units. rewrite map_app. cbn [map fst snd in_units]. replace (b * 0) with 0 by ring. reflexivity.
  Qed.
  Lemma tb_supply l l' : Forall2 R l l' -> supply_curve_from_bids S l' = (curve_units a b (fst (supply_curve_from_bids S l)), snd (supply_curve_from_bids S l)).
  Proof.
    intros F. unfold supply_curve_from_bids. cbn [fst snd]. assert (G := tb_asc _ _ (tb_sellers _ _ F)). rewrite (tb_rows _ _ G), (tb_lbl _ _ G).
    unfold curve_units. rewrite map_app. reflexivity.
  Qed.
  Lemma tb_fcp l l' : Forall2 R l l' -> find_competitive_price S l' = match find_competitive_price S l with Ok p => Ok (in_units b p) | Err e => Err e end.
  Proof.
    intros F. unfold find_competitive_price. rewrite (tb_demand _ _ F), (tb_supply _ _ F). cbn [fst]. rewrite (cu_intersect a b Ha Hb).
    destruct (intersect_stepwise _ _ _) as [[[[x i] j] v]|]; reflexivity.
  Qed.
End Table.
