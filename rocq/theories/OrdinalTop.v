(** Prices on another scale: the uniform price mechanism, the largest volume and the statistics. *)
From Verif Require Import QcTac Num ModelBase ModelCurves ModelHuang ModelMuda ModelP2P ModelMerge ModelMarket ModelStats ModelUniform ListFacts Spec SpecTrade SpecUnits SpecOrdinal
  Sorter UnitFacts UnitMech UniformFacts OrdinalFacts MudaWitness Conform.

Section Top.
  Variable h : Qc -> Qc.
  Hypothesis Hr : rescaling h.
  Let H0 : h 0 = 0 := proj1 Hr.
  Let Hh : forall x y, x < y -> h x < h y := proj2 Hr.
  Variable S : sorter.
  Hypothesis HS : compares_prices S.

  Lemma h_nonneg x : 0 <= x -> 0 <= h x.
  Proof. intro X. pose proof (h_leb h H0 Hh 0 x) as E. rewrite (proj2 (qleb_le _ _) X) in E. apply (proj1 (qleb_le _ _)) in E. rewrite (proj1 Hr) in E. exact E. Qed.
  Lemma scale_qty d : qty_nonneg d -> qty_nonneg (map (rescale h) d).
  Proof. intros Hq r I. apply in_map_iff in I. destruct I as (x & <- & I). exact (Hq x I). Qed.
  Lemma scale_price d : price_nonneg d -> price_nonneg (map (rescale h) d).
  Proof. intros Hp r I. apply in_map_iff in I. destruct I as (x & <- & I). apply h_nonneg, (Hp x I). Qed.

  (** ** The uniform price mechanism *)
  Lemma short_unpriced l p : map unpriced (uniform_short l p) = map (fun x => (lbl x, qty x, (-1)%Z, false)) l.
  Proof. unfold uniform_short. rewrite map_map. reflexivity. Qed.
  Lemma long_unpriced l t p p' : forall a, map unpriced (uniform_long (map (rescale h) l) t a p') = map unpriced (uniform_long l t a p).
  Proof. induction l as [|x l IH]; intro a; [reflexivity|]. cbn [map uniform_long]. rewrite IH. reflexivity. Qed.
  Theorem uniform_scale d : qty_nonneg d -> price_nonneg d ->
    match uniform_price_mechanism S d with
    | Ok (tm, XUniform q _) => exists tm' p', uniform_price_mechanism S (map (rescale h) d) = Ok (tm', XUniform q p') /\ same_but_price tm tm'
    | Ok _ => False
    | Err e => uniform_price_mechanism S (map (rescale h) d) = Err e
    end.
  Proof.
    intros Hq Hp. pose proof (uniform_cases S d Hq Hp) as U. pose proof (uniform_cases S _ (scale_qty d Hq) (scale_price d Hp)) as U'. revert U U'.
    unfold uniform_price_mechanism. rewrite (r_demand h H0 Hh S HS), (r_supply h H0 Hh S HS). cbn [fst].
    pose proof (cs_intersect h H0 Hh (fst (demand_curve_from_bids S d)) (fst (supply_curve_from_bids S d)) (qf 1 2)) as C.
    destruct (intersect_stepwise (fst (demand_curve_from_bids S d)) _ _) as [[[[x i] j] v]|]; cbn [bind]; [destruct C as (v' & -> & _)|rewrite C; reflexivity]. cbn [bind].
    destruct i as [i|]; [|reflexivity]. destruct j as [j|]; [|reflexivity].
    destruct x as [x|]; [|intro U; inversion U]. destruct v as [p| | |]; try (intro U; inversion U; fail). intros _. destruct v' as [p'| | |]; try (intro U'; inversion U'; fail). intros _.
    rewrite (r_buyers h), (r_sellers h), (r_asc h H0 Hh S HS), (r_desc h H0 Hh S HS), !firstn_map, !(r_qty h).
    set (db := firstn (Datatypes.S i) (s_desc S (buyers d))). set (ds := firstn (Datatypes.S j) (s_asc S (sellers d))).
    assert (G : forall l s, same_but_price (add_all (add_all tm_init (uniform_short s p)) (uniform_long l (qsum (map qty s)) 0 p))
      (add_all (add_all tm_init (uniform_short (map (rescale h) s) p')) (uniform_long (map (rescale h) l) (qsum (map qty (map (rescale h) s))) 0 p'))).
    { intros l s. rewrite (r_qty h). apply sbp_add; [apply sbp_add; [split; reflexivity|] | apply long_unpriced]. rewrite !short_unpriced, map_map. reflexivity. }
    destruct (qltb _ _); eexists _, _; (split; [reflexivity | apply G]).
  Qed.

  (** ** The largest volume is the same problem *)
  Lemma iloc_qty_scale d i : iloc_qty (map (rescale h) d) i = iloc_qty d i.
  Proof. unfold iloc_qty. rewrite nth_error_map. destruct (nth_error d i); reflexivity. Qed.
  Lemma compatible_scale d l : compatible (map (rescale h) d) l = compatible d l.
  Proof.
    induction l as [|v l IH]; [reflexivity|]. cbn [compatible]. unfold iloc_price. rewrite !nth_error_map.
    destruct (nth_error d (fst v)) as [b|]; cbn [option_map bind]; [|reflexivity]. destruct (nth_error d (snd v)) as [s|]; cbn [option_map bind]; [|reflexivity].
    rewrite IH. destruct (compatible d l); cbn [bind]; [|reflexivity]. cbn [rescale price]. rewrite (h_leb h H0 Hh). reflexivity.
  Qed.
  Lemma mapM_ext {A B} (f g : A -> res B) l : (forall x, f x = g x) -> mapM f l = mapM g l.
  Proof. intro E. induction l as [|x l IH]; [reflexivity|]. cbn [mapM]. rewrite E, IH. reflexivity. Qed.
  Lemma buyer_cons_scale d ix : buyer_cons (map (rescale h) d) ix = buyer_cons d ix.
  Proof. unfold buyer_cons. rewrite (r_buyers h), (r_sellers h), !(r_lbl h). apply mapM_ext. intro x. rewrite iloc_qty_scale. reflexivity. Qed.
  Lemma seller_cons_scale d ix : seller_cons (map (rescale h) d) ix = seller_cons d ix.
  Proof. unfold seller_cons. rewrite (r_buyers h), (r_sellers h), !(r_lbl h). apply mapM_ext. intro x. rewrite iloc_qty_scale. reflexivity. Qed.
  Theorem volume_scale sv d : maximum_traded_volume sv (map (rescale h) d) = maximum_traded_volume sv d.
  Proof.
    unfold maximum_traded_volume, volume_lp, pair_index. rewrite (r_buyers h), (r_sellers h), !(r_lbl h), compatible_scale.
    destruct (compatible d _) as [ix|]; cbn [bind]; [|reflexivity]. rewrite buyer_cons_scale, seller_cons_scale. reflexivity.
  Qed.
End Top.

Theorem traded_scale h sv d ts ts' : rescaling h -> map unpriced ts' = map unpriced ts ->
  percentage_traded sv (map (rescale h) d) ts' = percentage_traded sv d ts.
Proof.
  intros Hr E. unfold percentage_traded. rewrite (volume_scale h Hr). replace (map t_qty ts') with (map t_qty ts); [reflexivity|].
  assert (Q : forall l, map t_qty l = map (fun u => snd (fst (fst u))) (map unpriced l)) by (intro l; rewrite map_map; reflexivity).
  rewrite !Q, E. reflexivity.
Qed.
Lemma unpriced_rescale h l : map unpriced (map (rescale_trans h) l) = map unpriced l.
Proof. rewrite map_map. reflexivity. Qed.

(** ** Statements *)
Theorem huang_ordinal h S d : rescaling h -> compares_prices S ->
  match huang_auction S d with
  | Ok (tm, XHuang ps pb q) => huang_auction S (map (rescale h) d) = Ok (mkTM (n_trans tm) (map (rescale_trans h) (tm_trans tm)), XHuang (h ps) (h pb) q)
  | x => huang_auction S (map (rescale h) d) = x
  end.
Proof. intros Hr HS. rewrite (huang_scale h (proj1 Hr) (proj2 Hr) S HS). destruct (huang_auction S d) as [[tm []]|]; reflexivity. Qed.
Theorem p2p_ordinal h d c r : rescaling h ->
  match p2p_random d c r with
  | Ok (tm, ex) => exists tm', p2p_random (map (rescale h) d) c r = Ok (tm', ex) /\ same_but_price tm tm'
  | Err e => p2p_random (map (rescale h) d) c r = Err e
  end.
Proof. intro Hr. apply p2p_scale; apply Hr. Qed.
Theorem p2p_run_ordinal h S d c r : rescaling h ->
  match run_algo S (AP2P c r) d with
  | Ok (tm, ex) => exists tm', run_algo S (AP2P c r) (map (rescale h) d) = Ok (tm', ex) /\ same_but_price tm tm' /\
      forall sv, percentage_traded sv (map (rescale h) d) (tm_trans tm') = percentage_traded sv d (tm_trans tm)
  | Err e => run_algo S (AP2P c r) (map (rescale h) d) = Err e
  end.
Proof.
  intro Hr. cbn [run_algo mechanism]. unfold mech_run0. rewrite (r_buyers h), !map_length. destruct (_ || _).
  - exists tm_init. split; [reflexivity|]. split; [split; reflexivity|]. intro sv. apply traded_scale; [exact Hr | reflexivity].
  - pose proof (p2p_ordinal h d c r Hr) as P. destruct (p2p_random d c r) as [[tm ex]|]; [|exact P]. destruct P as (tm' & E & P).
    exists tm'. split; [exact E|]. split; [exact P|]. intro sv. apply traded_scale; [exact Hr | apply P].
Qed.
Theorem huang_percentage h S d tm ps pb q sv : rescaling h -> compares_prices S -> huang_auction S d = Ok (tm, XHuang ps pb q) ->
  percentage_traded sv (map (rescale h) d) (map (rescale_trans h) (tm_trans tm)) = percentage_traded sv d (tm_trans tm).
Proof. intros Hr HS E. apply traded_scale; [exact Hr | apply unpriced_rescale]. Qed.

(** ** MUDA computes a mean *)
Definition square (x : Qc) : Qc := if qltb x 0 then x else x * x.
Lemma square_rescaling : rescaling square.
Proof.
  split; [reflexivity|]. intros x y L. unfold square. destruct (qlt_spec x 0), (qlt_spec y 0); try qlra; [|qnra].
  assert (0 <= y * y) by qnra. qlra.
Qed.
Definition bent : df := frame [B 1 (qz 9) 0; A 1 (qz 2) 1; B 1 (qz 6) 2; A 1 1 3].
Definition bent_flips : list bool := [false; false; true; true].
Definition volume_of (d : df) (x : res (transmgr * extra)) : option Q := match x with Ok (tm, _) => Some (this (bought d (tm_trans tm))) | Err _ => None end.
Lemma bent_runs : volume_of bent (muda SS bent bent_flips) = Some 2%Q /\
  volume_of (map (rescale square) bent) (muda SS (map (rescale square) bent) bent_flips) = Some 1%Q.
Proof. split; vm_compute; reflexivity. Qed.
Theorem muda_ordinal_refuted : ~ forall h (S : sorter) (d : df) fl tm ex, rescaling h -> compares_prices S -> qty_nonneg d -> price_nonneg d ->
  muda S d fl = Ok (tm, ex) -> exists tm' ex', muda S (map (rescale h) d) fl = Ok (tm', ex') /\ bought (map (rescale h) d) (tm_trans tm') = bought d (tm_trans tm).
Proof.
  intro H. destruct bent_runs as [E1 E2]. unfold volume_of in *. destruct (muda SS bent bent_flips) as [[tm ex]|] eqn:M; [|discriminate E1].
  destruct (H square SS bent bent_flips tm ex square_rescaling stable_compares) as (tm' & ex' & M' & B).
  - each_row; vm_compute; discriminate.
  - each_row; vm_compute; discriminate.
  - exact M.
  - rewrite M' in E2. rewrite B in E2. congruence.
Qed.
