(** The Huang auction with infinite prices is the auction with large prices; what every such auction guarantees. *)
From Verif Require Import QcTac Num NumFacts ListFacts ModelBase ModelCurves ModelHuang ModelAny ModelWild Spec SpecWild CurveFacts IntersectFacts
  StoreFacts UpdateFacts HuangFacts UnitFacts SepFacts WildFacts WildSort WildCap.

Lemma cap_le P a b : ok a -> ok b -> 0 < P -> (forall q, a = Fin q -> - P < q /\ q < P) -> (forall q, b = Fin q -> - P < q /\ q < P) ->
  nleb a b = true -> cap P a <= cap P b.
Proof.
  intros Oa Ob HP Ha Hb H. destruct (qlt_spec (cap P b) (cap P a)) as [C|C]; [|exact C]. exfalso.
  apply qltb_lt in C. rewrite (cap_ltb P b a Ob Oa HP Hb Ha) in C. apply (nlt_irrefl a), (nle_lt_trans _ b); assumption.
Qed.
Lemma cap_emit P l qs p : map (cap_trans P) (w_emit l qs p) = emit (map (cap_row P) l) qs (cap P p).
Proof. unfold w_emit, emit. revert qs. induction l as [|x l IH]; intros [|q qs]; try reflexivity. cbn [combine map fst snd]. f_equal. apply IH. Qed.
Lemma map_sorted {A C} (f : A -> C) (R : A -> A -> Prop) (Q : C -> C -> Prop) l : StronglySorted R l -> (forall a b, In a l -> In b l -> R a b -> Q (f a) (f b)) -> StronglySorted Q (map f l).
Proof.
  induction 1 as [|a l H IH F]; intro K; [constructor|]. cbn [map]. constructor.
  - apply IH. intros x y Hx Hy. apply K; right; assumption.
  - rewrite Forall_forall in *. intros y Hy. apply in_map_iff in Hy. destruct Hy as (z & <- & Hz). apply K; [left; reflexivity | right; exact Hz | apply F, Hz].
Qed.

Theorem large_prices S d P : w_qty_pos d -> no_nan d -> beyond P d -> wanted_at_any_price d <= offered d ->
  exists S', same_run P (w_huang S d) (huang_auction S' (map (cap_row P) d)).
Proof.
  intros Hq Hn [HP Hb] Fl. assert (Hq' : w_qty_nonneg d) by (intros x Hx; apply Qclt_le_weak, Hq, Hx).
  set (B := w_desc S (w_buyers d)). set (L := w_asc S (w_sellers d)).
  assert (OB : forall x, In x B -> ok (w_price x) /\ 0 < w_qty x /\ forall q, w_price x = Fin q -> - P < q /\ q < P).
  { intros x Hx. apply (in_B S d) in Hx. destruct Hx as [Hx _]. split; [apply Hn, Hx|]. split; [apply Hq, Hx|]. intros q E. apply (Hb x q Hx E). }
  assert (OL : forall x, In x L -> ok (w_price x) /\ 0 < w_qty x /\ forall q, w_price x = Fin q -> - P < q /\ q < P).
  { intros x Hx. apply (in_L S d) in Hx. destruct Hx as [Hx _]. split; [apply Hn, Hx|]. split; [apply Hq, Hx|]. intros q E. apply (Hb x q Hx E). }
  assert (EB : buyers (map (cap_row P) d) = map (cap_row P) (w_buyers d)).
  { unfold buyers, w_buyers. clear. induction d as [|x d IH]; [reflexivity|]. cbn [map filter cap_row buying]. destruct (w_buying x); cbn [map]; rewrite IH; reflexivity. }
  assert (EL : sellers (map (cap_row P) d) = map (cap_row P) (w_sellers d)).
  { unfold sellers, w_sellers. clear. induction d as [|x d IH]; [reflexivity|]. cbn [map filter cap_row buying]. destruct (w_buying x); cbn [negb map]; rewrite IH; reflexivity. }
  destruct (sorter_for (buyers (map (cap_row P) d)) (map (cap_row P) B) (sellers (map (cap_row P) d)) (map (cap_row P) L)) as (S' & ES1 & ES2).
  { rewrite EB. apply Permutation_map, w_desc_perm. }
  { apply (map_sorted _ _ _ _ (w_desc_sorted S _)). intros a b Ha Hb' [H|H]; [destruct (OB b Hb') as [K _]; contradiction|].
    destruct (OB a Ha) as (A1 & _ & A2), (OB b Hb') as (B1 & _ & B2). cbn [cap_row price]. apply cap_le; assumption. }
  { rewrite EL. apply Permutation_map, w_asc_perm. }
  { apply (map_sorted _ _ _ _ (w_asc_sorted S _)). intros a b Ha Hb' [H|H]; [destruct (OL b Hb') as [K _]; contradiction|].
    destruct (OL a Ha) as (A1 & _ & A2), (OL b Hb') as (B1 & _ & B2). cbn [cap_row price]. apply cap_le; assumption. }
  exists S'. unfold huang_auction, demand_curve_from_bids, supply_curve_from_bids. rewrite ES1, ES2. cbn [fst].
  fold (capped P B (Fin 0)). fold (capped P L PInf).
  assert (Fl' : qsumf w_qty (filter at_any_price B) <= qsumf w_qty L).
  { unfold B, L. rewrite (qsumf_perm _ _ _ (filter_perm at_any_price _ _ (w_desc_perm S (w_buyers d)))), (qsumf_perm _ _ _ (w_asc_perm S (w_sellers d))).
    unfold w_buyers. rewrite filter_filter. exact Fl. }
  pose proof (same_intersect (w_demand B) (capped P B (Fin 0)) (w_supply L) (capped P L PInf) (capped_fst P B _ _) (capped_fst P L _ _)
    (fun x => proj1 (cap_compare P B L HP (w_desc_sorted S _) OB OL Fl' x)) (fun x => proj2 (cap_compare P B L HP (w_desc_sorted S _) OB OL Fl' x)) (qf 1 2)) as SI.
  unfold w_huang. fold B. fold L. cbn zeta.
  destruct (intersect_pairs (w_demand B) (w_supply L) (w_ends B _ (qB S d Hq')) (w_ends L _ (qL S d Hq')) (w_end_inf B _) (w_end_inf L _) (qf 1 2))
    as [(x & y & b & s & u & w & i' & j' & u' & w' & v & E & _ & Sf & Sg & Lwu & _)|(v & E & _)].
  2:{ rewrite E in *. destruct SI as (v' & ->). cbn. auto. }
  rewrite E in *. destruct SI as (v' & ->). cbn [bind].
  destruct (StepAt_in _ _ _ _ Sf) as (af & _ & _ & Nf). destruct (StepAt_in _ _ _ _ Sg) as (ag & _ & _ & Ng). rewrite Ng, Nf.
  assert (Hs : exists a, nth_error (capped P L PInf) s = Some (a, Fin (cap P w))).
  { destruct (w_nth _ _ _ _ _ Ng) as [(r & H1 & _ & ->)|(_ & _ & ->)]; [apply capped_nth, H1|]. destruct u; discriminate. }
  assert (Hbb : exists a, nth_error (capped P B (Fin 0)) b = Some (a, Fin (cap P u))).
  { destruct (w_nth _ _ _ _ _ Nf) as [(r & H1 & _ & ->)|(-> & _ & ->)]; [apply capped_nth, H1|]. eexists. apply capped_last. }
  destruct Hs as (a1 & ->), Hbb as (a2 & ->). rewrite !firstn_map.
  assert (Q : forall l, map qty (map (cap_row P) l) = map w_qty l) by (intro l; rewrite map_map; reflexivity). rewrite !Q.
  destruct (Nat.ltb 0 b && Nat.ltb 0 s).
  2:{ cbn. auto. }
  destruct (qltb 0 _).
  - destruct (update_quantity _ _) as [qs|e]; cbn [bind same_run]; [|reflexivity]. rewrite !add_all_trans, map_app, !cap_emit. auto.
  - destruct (update_quantity _ _) as [qb|e]; cbn [bind same_run]; [|reflexivity]. rewrite !add_all_trans, map_app, !cap_emit. auto.
Qed.

(** ** Tables with rational prices only *)
Lemma cap_of P d : map (cap_row P) (map wrow_of d) = d.
Proof. rewrite map_map. rewrite <- (map_id d) at 2. apply map_ext. intros []. reflexivity. Qed.
Lemma beyond_exists (d : df) : exists P, beyond P (map wrow_of d).
Proof.
  induction d as [|r d (P & HP & H)]; [exists 1; split; [qlra | intros x q []]|].
  exists (qmax P (qabs (price r) + 1)). assert (A := qmax_l P (qabs (price r) + 1)). assert (C := qmax_r P (qabs (price r) + 1)). split; [qlra|].
  intros x q [<-|Hx] E.
  - cbn in E. injection E as <-. unfold qabs in *. destruct (qle_spec 0 (price r)); split; qlra.
  - destruct (H x q Hx E). split; qlra.
Qed.
Theorem finite_prices S (d : df) : (forall r, In r d -> 0 < qty r) -> exists S' P, same_run P (w_huang S (map wrow_of d)) (huang_auction S' d).
Proof.
  intro Hq. destruct (beyond_exists d) as (P & HP).
  assert (Z : wanted_at_any_price (map wrow_of d) = 0).
  { unfold wanted_at_any_price. rewrite filter_none; [reflexivity|]. intros x Hx. apply in_map_iff in Hx. destruct Hx as (r & <- & _). cbn. apply andb_false_r. }
  destruct (large_prices S (map wrow_of d) P) as (S' & H).
  - intros x Hx. apply in_map_iff in Hx. destruct Hx as (r & <- & Hr). apply Hq, Hr.
  - intros x Hx. apply in_map_iff in Hx. destruct Hx as (r & <- & Hr). discriminate.
  - exact HP.
  - rewrite Z. apply qsumf_nonneg. intros x Hx. apply filter_In in Hx. destruct Hx as [Hx _]. apply in_map_iff in Hx. destruct Hx as (r & <- & Hr). apply Qclt_le_weak, Hq, Hr.
  - rewrite cap_of in H. eauto.
Qed.

(** ** What every auction guarantees *)
Lemma w_emit_in l qs p t : rationed (map w_qty l) qs -> In t (w_emit l qs p) -> (forall x, In x l -> 0 <= w_qty x) ->
  exists x, In x l /\ x_bid t = w_lbl x /\ 0 <= x_qty t /\ x_qty t <= w_qty x /\ x_price t = p.
Proof.
  intros (s & Hs & ->) H Hq. unfold w_emit in H. rewrite map_map in H. apply in_map_iff in H. destruct H as ([x q] & <- & H).
  cbn [fst snd x_bid x_qty x_price].
  assert (C : forall l', In (x, q) (combine l' (map (fun z => qmax 0 (w_qty z - s)) l')) -> In x l' /\ q = qmax 0 (w_qty x - s)).
  { induction l' as [|z l' IH]; cbn [map combine In]; [tauto|]. intros [E|E]; [injection E as -> ->; auto|]. destruct (IH E). auto. }
  apply C in H. destruct H as [Hx ->]. exists x. specialize (Hq x Hx). split; [exact Hx|]. split; [reflexivity|]. split; [apply qmax_l|].
  split; [|reflexivity]. destruct (qmax_case 0 (w_qty x - s)) as [[-> _]|[-> _]]; [exact Hq | qlra].
Qed.
Lemma w_emit_sum l qs p : length qs = length l -> qsumf x_qty (w_emit l qs p) = qsum qs.
Proof.
  revert qs. induction l as [|x l IH]; intros [|q qs] H; try discriminate; [reflexivity|]. cbn in H. injection H as H.
  unfold w_emit. cbn [combine map fst snd]. fold (w_emit l qs p). rewrite qsumf_cons, IH by exact H. reflexivity.
Qed.

Section Auction.
  Variable S : wsorter.
  Variable d : wdf.
  Hypothesis Hq : w_qty_nonneg d.
  Theorem w_no_error : exists ts e, w_huang S d = Ok (ts, e).
  Proof. destruct (w_cases S d Hq) as [->|(B1 & B2 & L1 & rs & L2 & pb & q & ts & _ & _ & _ & _ & -> & _)]; eauto. Qed.

  (** sellers before [rs] ask at most its price; buyers before the next one bid at least its price *)
  Theorem w_fair ts e : w_huang S d = Ok (ts, e) -> (forall x, In x d -> w_buying x = false -> nltb (w_price x) (Fin 0) = false) ->
    exists ss bs, ts = ss ++ bs /\ qsumf x_qty ss = qsumf x_qty bs /\
      (forall t, In t ss -> exists x, In x d /\ w_buying x = false /\ x_bid t = w_lbl x /\ 0 <= x_qty t /\ x_qty t <= w_qty x /\ respects x t) /\
      (forall t, In t bs -> exists x, In x d /\ w_buying x = true /\ x_bid t = w_lbl x /\ 0 <= x_qty t /\ x_qty t <= w_qty x /\ respects x t).
  Proof.
    intros E Hs. destruct (w_cases S d Hq) as [C|(B1 & B2 & L1 & rs & L2 & pb & q & ts' & EB & EL & Nx & Lt & C & D)]; rewrite C in E; clear C.
    - injection E as <- <-. exists [], []. repeat split; intros t [].
    - injection E as <- <-. destruct D as [(_ & -> & _)|(qs & qb & Rs & Rb & S1 & S2 & _ & ->)]; [exists [], []; repeat split; intros t []|].
      assert (QB : forall x, In x B1 -> In x d /\ w_buying x = true) by (intros x Hx; apply (in_B S d); rewrite EB; apply in_or_app; auto).
      assert (QL : forall x, In x (L1 ++ rs :: L2) -> In x d /\ w_buying x = false) by (intros x Hx; apply (in_L S d); rewrite EL; exact Hx).
      exists (w_emit L1 qs (w_price rs)), (w_emit B1 qb pb). split; [reflexivity|].
      split; [rewrite !w_emit_sum by (rewrite (rationed_length _ _ Rs) || rewrite (rationed_length _ _ Rb); apply map_length); congruence|].
      assert (A1 : forall x, In x L1 -> nle (w_price x) (w_price rs)).
      { intros x Hx. pose proof (w_asc_sorted S (w_sellers d)) as So. rewrite EL in So. destruct (proj2 (proj2 (sorted_app2 _ _ _ So)) x rs Hx (or_introl eq_refl)) as [N|N]; [|exact N].
        rewrite N in Lt. destruct pb; discriminate. }
      assert (A2 : forall x, In x B1 -> nle pb (w_price x)).
      { intros x Hx. pose proof (w_desc_sorted S (w_buyers d)) as So. rewrite EB in So. unfold next_price in Nx. destruct B2 as [|rb B2].
        - rewrite Nx in Lt. destruct (QL rs) as [I1 I2]; [apply in_or_app; right; left; reflexivity|]. unfold nlt in Lt. rewrite (Hs rs I1 I2) in Lt. discriminate.
        - destruct (proj2 (proj2 (sorted_app2 _ _ _ So)) x rb Hx (or_introl eq_refl)) as [N|N]; [|rewrite Nx; exact N]. rewrite Nx, N in Lt. destruct (w_price rs); discriminate. }
      split; intros t Ht.
      + destruct (w_emit_in _ _ _ _ Rs Ht) as (x & Hx & I1 & I2 & I3 & I4); [intros x Hx; apply Hq, QL, in_or_app; auto|].
        destruct (QL x) as [J1 J2]; [apply in_or_app; auto|]. exists x. repeat (split; [assumption|]). unfold respects. rewrite J2, I4. apply A1, Hx.
      + destruct (w_emit_in _ _ _ _ Rb Ht) as (x & Hx & I1 & I2 & I3 & I4); [intros x Hx; apply Hq, QB, Hx|].
        destruct (QB x Hx) as [J1 J2]. exists x. repeat (split; [assumption|]). unfold respects. rewrite J2, I4. apply A2, Hx.
  Qed.
End Auction.
