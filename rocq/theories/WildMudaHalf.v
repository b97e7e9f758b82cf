(** What a half guarantees on any prices. *)
From Verif Require Import QcTac Num NumFacts ModelBase ModelCurves ModelHuang ModelMuda ModelAny ModelWild ModelWildMuda ListFacts StoreFacts FillFacts Spec SpecTrade SpecMuda SpecWild SpecWildMuda UnitFacts WildSort WildCap WildTop MudaHalf MudaOutcome WildMuda.

Lemma inside_exists (d : wdf) p : exists P, 0 < P /\ inside P p /\ forall x, In x d -> inside P (w_price x).
Proof.
  assert (One : forall P v, 0 < P -> exists P', P <= P' /\ inside P' v).
  { intros P v HP. destruct v as [q| | |]; [|exists P; split; [apply Qcle_refl | intros q E; discriminate E]..].
    exists (qmax P (qabs q + 1)). assert (A := qmax_l P (qabs q + 1)). assert (C := qmax_r P (qabs q + 1)). split; [exact A|].
    intros q' E. injection E as <-. unfold qabs in *. destruct (qle_spec 0 q); split; qlra. }
  assert (Mono : forall P P' v, P <= P' -> inside P v -> inside P' v) by (intros P P' v L H q E; destruct (H q E); split; qlra).
  induction d as [|x d (P & HP & Hp & H)].
  - destruct (One 1 p) as (P & L & I); [qlra|]. exists P. split; [qlra|]. split; [exact I | intros x []].
  - destruct (One P (w_price x) HP) as (P' & L & I). exists P'. split; [qlra|]. split; [apply (Mono P), Hp; exact L|]. intros y [<-|Hy]; [exact I|]. apply (Mono P), H, Hy. exact L.
Qed.

Lemma w_traded_cap P i ts : traded_by i (map (cap_trans P) ts) = w_traded_by i ts.
Proof. unfold traded_by, w_traded_by. rewrite filter_map_swap, qsumf_map. reflexivity. Qed.

Lemma charge_length l i q p us : forall f a, w_charge l i q p us f = Ok a -> length a = length f.
Proof.
  induction us as [|u us IH]; intros f a E; cbn [w_charge] in E; [injection E as <-; reflexivity|]. unfold w_set_fee in E.
  destruct (_ && _); cbn [bind] in E; [rewrite (IH _ _ E); apply set_nth_length|]. destruct (_ && _); cbn [bind] in E; [rewrite (IH _ _ E); apply set_nth_length | discriminate].
Qed.
Lemma body_length demand supply p f ts a : w_body demand supply p f = Ok (ts, a) -> length a = length f.
Proof.
  unfold w_body. cbv zeta. destruct (qltb 0 _); [|intro E; injection E as <- <-; reflexivity].
  destruct (w_trading_bids _ _) as [[l i]|e]; cbn [bind]; [|discriminate]. destruct (w_trading_bids _ _) as [[s j]|e]; cbn [bind]; [|discriminate].
  destruct (w_charge _ _ _ _ _ _) as [a'|e] eqn:C; cbn [bind]; [|discriminate]. intro E. injection E as <- <-. exact (charge_length _ _ _ _ _ _ _ C).
Qed.

Section Half.
  Variables (S : wsorter) (d : wdf) (p : num) (f a : list num) (ts : list (atrans Qc num)).
  Hypotheses (Hq : w_qty_nonneg d) (Hu : NoDup (map w_lbl d)) (E : w_half S d p f = Ok (ts, a)).
  Theorem half_fair : HalfFair d p ts /\ length a = length f.
  Proof.
    destruct (inside_exists d p) as (P & HP & Ip & Ix). destruct (half_cap S d p P HP Ip Ix) as (S' & HC).
    specialize (HC f (repeat 0 (length f)) (repeat_length _ _)). rewrite E in HC.
    destruct (solve_market_side _ _ _ _) as [[tm b]|e] eqn:E'; [|contradiction]. destruct HC as [Et Lb].
    set (h := capped_at P p d) in *.
    assert (Q' : qty_nonneg h). { intros r Hr. unfold h, capped_at in Hr. apply in_map_iff in Hr. destruct Hr as (x & <- & Hx). apply filter_In in Hx. apply Hq, Hx. }
    assert (U' : labels_unique h).
    { unfold labels_unique, h, capped_at. rewrite map_map. apply (NoDup_filter_map w_lbl). exact Hu. }
    pose proof (half_ok S' h (cap P p) _ tm b Q' U' E') as O. rewrite Et in O.
    assert (Same : forall x y, In x d -> In y d -> w_lbl x = w_lbl y -> x = y) by (intros x y; apply (NoDup_map_in w_lbl d x y Hu)).
    assert (R : forall t, In t ts -> exists x, In x d /\ w_lbl x = x_bid t /\ accepts p x = true).
    { intros t Ht. destruct (ho_refer _ _ _ _ _ O (cap_trans P t) (in_map _ _ _ Ht)) as (r & Hr & El). unfold h, capped_at in Hr. apply in_map_iff in Hr. destruct Hr as (x & <- & Hx).
      apply filter_In in Hx. exists x. destruct Hx. auto. }
    assert (T0 : forall x, In x d -> accepts p x = false -> w_traded_by (w_lbl x) ts = 0).
    { intros x Hx A. unfold w_traded_by. rewrite filter_none; [reflexivity|]. intros t Ht. apply Nat.eqb_neq. intro N. destruct (R t Ht) as (y & Hy & Ey & Ay).
      assert (x = y) by (apply Same; auto; congruence). subst y. congruence. }
    assert (Pr : forall t, In t ts -> x_price t = p /\ x_source t = (-1)%Z /\ x_active t = false).
    { rewrite w_half_eq in E. exact (body_price _ _ _ _ _ _ E). }
    assert (Mv : forall s, qsumf t_qty (filter (on_side s h) (map (cap_trans P) ts)) = w_moved s d ts).
    { intro s. unfold w_moved. rewrite filter_map_swap, qsumf_map. cbn [cap_trans t_qty]. f_equal. apply filter_ext_in. intros t Ht. unfold on_side, h, capped_at. cbn [cap_trans t_bid].
      destruct (R t Ht) as (x & Hx & Ex & Ax).
      destruct (existsb (fun x0 => Nat.eqb (w_lbl x0) (x_bid t) && Bool.eqb (w_buying x0) s) d) eqn:X.
      - apply existsb_exists in X. destruct X as (y & Hy & Yc). apply andb_true_iff in Yc. destruct Yc as [Y1 Y2]. apply Nat.eqb_eq in Y1.
        assert (y = x) by (apply Same; auto; congruence). subst y. apply existsb_exists. exists (cap_row P x). split; [apply in_map, filter_In; auto|]. cbn. rewrite Y1, Nat.eqb_refl, Y2. reflexivity.
      - apply not_true_is_false. intro Y. apply existsb_exists in Y. destruct Y as (r & Hr & Yc). apply in_map_iff in Hr. destruct Hr as (y & <- & Hy). apply filter_In in Hy.
        rewrite <- not_true_iff_false in X. apply X. apply existsb_exists. exists y. split; [apply Hy | exact Yc]. }
    assert (Dm : demand_at h (cap P p) = w_demand_at p d).
    { unfold demand_at, w_demand_at, h, capped_at. rewrite filter_map_swap, qsumf_map, filter_and. cbn [cap_row qty buying price]. f_equal. apply filter_ext_in. intros x Hx.
      pose proof (accepts_ok p x) as K. destruct (accepts p x) eqn:Ax; cbn [andb]; [|rewrite andb_false_r; reflexivity]. destruct (K eq_refl). rewrite cap_leb by (try assumption; apply Ix, Hx).
      unfold accepts in Ax. destruct (w_buying x); [rewrite Ax|]; reflexivity. }
    assert (Sm : supply_at h (cap P p) = w_supply_at p d).
    { unfold supply_at, w_supply_at, h, capped_at. rewrite filter_map_swap, qsumf_map, filter_and. cbn [cap_row qty buying price]. f_equal. apply filter_ext_in. intros x Hx.
      pose proof (accepts_ok p x) as K. destruct (accepts p x) eqn:Ax; cbn [andb]; [|rewrite andb_false_r; reflexivity]. destruct (K eq_refl). rewrite cap_leb by (try assumption; apply Ix, Hx).
      unfold accepts in Ax. destruct (w_buying x); [|rewrite Ax]; reflexivity. }
    split; [constructor|rewrite <- Lb].
    - intros t Ht. destruct (Pr t Ht) as (P1 & P2 & P3). repeat split; auto. exact (proj1 (ho_feasible _ _ _ _ _ O) (cap_trans P t) (in_map _ _ _ Ht)).
    - pose proof (ho_once _ _ _ _ _ O) as N. unfold once in N. rewrite map_map in N. exact N.
    - intros x Hx. destruct (accepts p x) eqn:Ax; [|rewrite T0 by assumption; apply Hq, Hx]. rewrite <- (w_traded_cap P).
      apply (proj2 (ho_feasible _ _ _ _ _ O) (cap_row P x)). apply in_map, filter_In. auto.
    - intro s. rewrite <- Mv, <- Dm, <- Sm. destruct s; [apply (ho_bought _ _ _ _ _ O) | apply (ho_sold _ _ _ _ _ O)].
    - intros x y Hx Hy Bxy Bt L. destruct (accepts p y) eqn:Ay; [|apply T0; assumption].
      assert (Ax : accepts p x = true).
      { unfold accepts, w_better in *. rewrite <- Bxy in Ay. destruct (w_buying x).
        - apply nlt_le. eapply nle_lt_trans; [exact Ay | exact Bt].
        - apply nlt_le. eapply nlt_le_trans; [exact Bt | exact Ay]. }
      rewrite <- (w_traded_cap P) in *. apply (ho_priority _ _ _ _ _ O (cap_row P x) (cap_row P y)); try exact L; try (apply in_map, filter_In; auto); [exact Bxy|].
      destruct (accepts_ok p x Ax) as [_ Ox], (accepts_ok p y Ay) as [_ Oy]. unfold gain, w_better in *. cbn [cap_row buying price]. rewrite <- Bxy.
      destruct (w_buying x); (rewrite <- (cap_ltb P) in Bt by (try assumption; apply Ix; assumption)); apply qltb_lt in Bt; qlra.
    - rewrite w_half_eq in E. rewrite Lb. exact (body_length _ _ _ _ _ _ E).
  Qed.
End Half.

(** ** Fees *)
Lemma prefix_le (qs : list Qc) (q : Qc) : 0 < q -> (forall x, In x qs -> 0 <= x) ->
  qsum (firstn (if qltb q (qsum qs) then argmax_bool (map (fun c => qleb q c) (cumsum qs)) else (length qs - 1)%nat) qs) <= q.
Proof.
  intros H0 Hq. destruct (qlt_spec q (qsum qs)) as [L|L].
  - apply Qclt_le_weak. apply (argmax_cum qs q H0). apply Qclt_le_weak, L.
  - eapply Qcle_trans; [|exact L]. generalize (length qs - 1)%nat. clear H0 L. induction qs as [|x qs IH]; intros [|n]; cbn [firstn qsum]; [apply Qcle_refl..| |].
    + assert (A := Hq x (or_introl eq_refl)). assert (B := IH (fun y Hy => Hq y (or_intror Hy)) O). cbn [firstn qsum] in B. qlra.
    + assert (B := IH (fun y Hy => Hq y (or_intror Hy)) n). qlra.
Qed.
Lemma trading_rows (l : wdf) (q : Qc) l' i : 0 < q -> (forall x, In x l -> 0 <= w_qty x) -> w_trading_bids l q = Ok (l', i) ->
  forall y, In y l' -> 0 <= w_qty y /\ exists x, In x l /\ w_price y = w_price x /\ w_user y = w_user x.
Proof.
  intros H0 Hq. unfold w_trading_bids. cbv zeta. assert (PL := prefix_le (map w_qty l) q H0). rewrite map_length in PL.
  match goal with |- context [nth_error l ?j] => set (k := j) in * end. rewrite firstn_map in PL.
  destruct (nth_error l k) as [r|] eqn:N; [|discriminate]. assert (Hr : In r l) by (eapply nth_error_In; exact N).
  assert (D : 0 <= q - qsum (map w_qty (firstn k l))).
  { assert (X : qsum (map w_qty (firstn k l)) <= q) by (apply PL; intros x Hx; apply in_map_iff in Hx; destruct Hx as (z & <- & Hz); apply Hq, Hz). qlra. }
  destruct (qlt_spec (q - qsum (map w_qty (firstn k l))) (w_qty r)) as [L|L]; intro E; injection E as <- <-; intros y Hy.
  2:{ split; [apply Hq, Hy | exists y; auto]. }
  apply in_app_or in Hy. destruct Hy as [Hy|[<-|[<-|Hy]]].
  - assert (In y l) by (rewrite <- (firstn_skipn k l); apply in_or_app; left; exact Hy). split; [auto | exists y; auto].
  - split; [exact D | exists r; auto].
  - split; [cbn [w_with_qty w_qty]; qlra | exists r; auto].
  - assert (In y l) by (rewrite <- (firstn_skipn (Datatypes.S k) l); apply in_or_app; right; exact Hy). split; [auto | exists y; auto].
Qed.

Definition loss_like (v : num) : Prop := v = NInf \/ exists q, v = Fin q /\ q <= 0.
Lemma term_up a p q : nleb p a = true -> 0 <= q -> let v := nmul (nsub a p) (Fin q) in v = NaN \/ fee_like v.
Proof.
  intros H Hq. unfold fee_like. destruct a as [x| | |], p as [y| | |]; try discriminate H; cbn; auto; try (unfold ninf_times; destruct (qeqb q 0) eqn:Z; [auto|]; destruct (qlt_spec 0 q) as [L|L]; [auto|]; exfalso; apply qeqb_neq in Z; apply Z, Qcle_antisym; assumption).
  right. right. eexists. split; [reflexivity|]. apply qleb_le in H. assert (0 <= x + - y) by qlra. generalize dependent (x + - y). intros. qnra.
Qed.
Lemma term_down a p q : nleb a p = true -> 0 <= q -> let v := nmul (nsub a p) (Fin q) in v = NaN \/ loss_like v.
Proof.
  intros H Hq. unfold loss_like. destruct a as [x| | |], p as [y| | |]; try discriminate H; cbn; auto; try (unfold ninf_times; destruct (qeqb q 0) eqn:Z; [auto|]; destruct (qlt_spec 0 q) as [L|L]; [auto|]; exfalso; apply qeqb_neq in Z; apply Z, Qcle_antisym; assumption).
  right. right. eexists. split; [reflexivity|]. apply qleb_le in H. assert (x + - y <= 0) by qlra. generalize dependent (x + - y). intros. qnra.
Qed.
Lemma skip_up l : (forall v, In v l -> v = NaN \/ fee_like v) -> fee_like (nsum_skip l).
Proof.
  unfold nsum_skip. assert (Z : fee_like (Fin 0)) by (right; exists 0; split; [reflexivity | apply Qcle_refl]). revert Z. generalize (Fin 0). induction l as [|v l IH]; intros a Ha H; [exact Ha|].
  cbn [filter]. assert (T : forall w, In w l -> w = NaN \/ fee_like w) by (intros w Hw; apply H; right; exact Hw).
  destruct (H v (or_introl eq_refl)) as [->|[->|(q & -> & Hq)]]; cbn [fold_left]; apply IH; auto.
  - left. destruct Ha as [->|(x & -> & _)]; reflexivity.
  - destruct Ha as [->|(x & -> & Hx)]; [left; reflexivity|]. right. exists (x + q). split; [reflexivity | qlra].
Qed.
Lemma skip_down l : (forall v, In v l -> v = NaN \/ loss_like v) -> loss_like (nsum_skip l).
Proof.
  unfold nsum_skip. assert (Z : loss_like (Fin 0)) by (right; exists 0; split; [reflexivity | apply Qcle_refl]). revert Z. generalize (Fin 0). induction l as [|v l IH]; intros a Ha H; [exact Ha|].
  cbn [filter]. assert (T : forall w, In w l -> w = NaN \/ loss_like w) by (intros w Hw; apply H; right; exact Hw).
  destruct (H v (or_introl eq_refl)) as [->|[->|(q & -> & Hq)]]; cbn [fold_left]; apply IH; auto.
  - left. destruct Ha as [->|(x & -> & _)]; reflexivity.
  - destruct Ha as [->|(x & -> & Hx)]; [left; reflexivity|]. right. exists (x + q). split; [reflexivity | qlra].
Qed.
Lemma fee_like_abs v : fee_like v \/ loss_like v -> fee_like (nabs v).
Proof.
  intros [[->|(q & -> & H)]|[->|(q & -> & H)]]; cbn; try (left; reflexivity); right; eexists; (split; [reflexivity|]); unfold qabs; destruct (qle_spec 0 q); qlra.
Qed.
Lemma fee_like_0 : fee_like (Fin 0). Proof. right. exists 0. split; [reflexivity | apply Qcle_refl]. Qed.
Definition one_way (p : num) (l : wdf) : Prop := (forall x, In x l -> nleb p (w_price x) = true) \/ (forall x, In x l -> nleb (w_price x) p = true).
Lemma set_last_in l q ir : In ir (w_set_last l q) -> In ir l \/ exists jr, In jr l /\ ir = (fst jr, w_with_qty (snd jr) q).
Proof.
  unfold w_set_last. destruct (rev l) as [|[j r] t] eqn:R; [intros []|]. assert (L : l = rev t ++ [(j, r)]) by (rewrite <- (rev_involutive l), R; reflexivity).
  intro H. apply in_app_or in H. rewrite L. destruct H as [H|[<-|[]]]; [left; apply in_or_app; auto|]. right. exists (j, r). split; [apply in_or_app; right; left; reflexivity | reflexivity].
Qed.
Lemma w_fee_like (L : list (nat * wrow)) i u q p : 0 < q -> (forall ir, In ir L -> 0 <= w_qty (snd ir)) -> one_way p (map snd L) -> fee_like (w_fee L i u q p).
Proof.
  intros H0 Hq W. unfold w_fee. set (O := filter _ L). destruct O as [|x0 O0] eqn:EO; [exact fee_like_0|]. rewrite <- EO. clear x0 O0 EO. cbv zeta.
  assert (HO : forall ir, In ir O -> In ir L) by (intros ir H; unfold O in H; apply filter_In in H; apply H).
  assert (PL := prefix_le (map (fun ir => w_qty (snd ir)) O) q H0). rewrite map_length in PL.
  match goal with |- context [nth_error O ?j] => set (n := j) in * end. rewrite firstn_map in PL. set (diff := q - _).
  assert (D : 0 <= diff).
  { assert (X : qsum (map (fun ir => w_qty (snd ir)) (firstn n O)) <= q) by (apply PL; intros x Hx; apply in_map_iff in Hx; destruct Hx as (z & <- & Hz); apply Hq, HO, Hz). unfold diff. qlra. }
  set (W' := match nth_error O n with Some (_, r) => if qltb diff (w_qty r) then w_set_last (firstn (Datatypes.S n) O) diff else firstn (Datatypes.S n) O | None => firstn (Datatypes.S n) O end).
  assert (HW : forall ir, In ir W' -> 0 <= w_qty (snd ir) /\ exists jr, In jr L /\ w_price (snd ir) = w_price (snd jr)).
  { assert (F : forall ir, In ir (firstn (Datatypes.S n) O) -> In ir L) by (intros ir H; apply HO; rewrite <- (firstn_skipn (Datatypes.S n) O); apply in_or_app; left; exact H).
    assert (F' : forall ir, In ir (firstn (Datatypes.S n) O) -> 0 <= w_qty (snd ir) /\ exists jr, In jr L /\ w_price (snd ir) = w_price (snd jr)) by (intros ir H; split; [apply Hq, F, H | exists ir; split; [apply F, H | reflexivity]]).
    intros ir H. unfold W' in H. destruct (nth_error O n) as [[j r]|]; [|apply F', H]. destruct (qltb diff (w_qty r)); [|apply F', H].
    apply set_last_in in H. destruct H as [H|(jr & H & ->)]; [apply F', H|]. split; [exact D | exists jr; split; [apply F, H | reflexivity]]. }
  apply fee_like_abs. destruct W as [W|W]; [left; apply skip_up | right; apply skip_down]; intros v Hv; apply in_map_iff in Hv; destruct Hv as (ir & <- & Hi); apply filter_In in Hi; destruct Hi as [Hi _];
    destruct (HW ir Hi) as (Q & jr & Hj & Ep); [apply term_up | apply term_down]; try exact Q; rewrite Ep; apply W, in_map, Hj.
Qed.
Lemma set_nth_in {A} i (v : A) l x : In x (set_nth i v l) -> x = v \/ In x l.
Proof. revert i. induction l as [|a l IH]; intros [|i] H; cbn in *; try tauto; [destruct H; auto|]. destruct H as [H|H]; [auto|]. destruct (IH i H); auto. Qed.
Lemma charge_like l i q p us : 0 < q -> (forall x, In x l -> 0 <= w_qty x) -> one_way p l -> forall f a, w_charge l i q p us f = Ok a -> Forall fee_like f -> Forall fee_like a.
Proof.
  intros H0 Hq W. induction us as [|u us IH]; intros f a E F; cbn [w_charge] in E; [injection E as <-; exact F|].
  assert (K : fee_like (w_fee (combine (seq 0 (length l)) l) i u q p)).
  { apply w_fee_like; [exact H0| |].
    - intros [j r] H. apply in_combine_r in H. apply Hq, H.
    - destruct W as [W|W]; [left|right]; intros x Hx; apply W; apply in_map_iff in Hx; destruct Hx as ([j r] & <- & H); apply in_combine_r in H; exact H. }
  assert (G : forall k, Forall fee_like (set_nth k (w_fee (combine (seq 0 (length l)) l) i u q p) f)).
  { intro k. rewrite Forall_forall in *. intros x Hx. apply set_nth_in in Hx. destruct Hx as [->|Hx]; auto. }
  unfold w_set_fee in E. destruct (_ && _); cbn [bind] in E; [apply (IH _ _ E), G|]. destruct (_ && _); cbn [bind] in E; [apply (IH _ _ E), G | discriminate].
Qed.
Lemma half_fees S d p f ts a : w_qty_nonneg d -> w_half S d p f = Ok (ts, a) -> Forall fee_like f -> Forall fee_like a.
Proof.
  intros Hq E F. rewrite w_half_eq in E. unfold w_body in E.
  set (D := w_desc S _) in E. set (L := w_asc S _) in E.
  assert (HD : forall x, In x D -> 0 <= w_qty x /\ nleb p (w_price x) = true).
  { intros x Hx. unfold D in Hx. apply (Permutation_in _ (w_desc_perm S _)) in Hx. unfold w_buyers in Hx. rewrite !filter_In in Hx. destruct Hx as [[Hx _] H]. auto. }
  assert (HL : forall x, In x L -> 0 <= w_qty x /\ nleb (w_price x) p = true).
  { intros x Hx. unfold L in Hx. apply (Permutation_in _ (w_asc_perm S _)) in Hx. unfold w_sellers in Hx. rewrite !filter_In in Hx. destruct Hx as [[Hx _] H]. auto. }
  cbv zeta in E. set (lg := qltb _ (qsum (map w_qty L))) in E. set (tot := if lg then qsum (map w_qty D) else _) in E. destruct (qlt_spec 0 tot) as [T|T]; [|injection E as <- <-; exact F].
  set (lo := if lg then L else D) in E. assert (HO : (forall x, In x lo -> 0 <= w_qty x) /\ one_way p lo).
  { unfold lo. destruct lg; (split; [intros x Hx; apply HD in Hx || apply HL in Hx; apply Hx|]); [right; intros x Hx; apply HL, Hx | left; intros x Hx; apply HD, Hx]. }
  destruct HO as [HO W].
  destruct (w_trading_bids lo tot) as [[l i]|e] eqn:T1; cbn [bind] in E; [|discriminate]. destruct (w_trading_bids (if lg then D else L) tot) as [[s j]|e]; cbn [bind] in E; [|discriminate].
  destruct (w_charge _ _ _ _ _ _) as [a'|e] eqn:C; cbn [bind] in E; [|discriminate]. injection E as <- <-.
  assert (R := trading_rows lo tot l i T HO T1). refine (charge_like l i tot p _ T _ _ f a' C F); [intros x Hx; apply (R x Hx)|].
  destruct W as [W|W]; [left|right]; intros x Hx; destruct (R x Hx) as (_ & z & Hz & -> & _); apply W, Hz.
Qed.
