(** Facts about the uniform price mechanism in rounded arithmetic. *)
From Verif Require Import QcTac Num NumFacts ModelBase ModelCurves ModelHuang ModelMuda ModelMarket ModelUniform ModelRound ModelRoundUniform ListFacts Spec SpecTrade SpecRound
  CurveFacts IntersectFacts StoreFacts UpdateFacts TradeFacts Sorter HuangFacts CurveTop HuangTop UniformFacts RoundFacts RoundHuang RoundError.

(** ** No rounding *)
Lemma uniform_long_exact l : forall t a p, uniform_long_r exact l t a p = uniform_long l t a p.
Proof. induction l as [|x l IH]; intros t a p; [reflexivity|]. cbn [uniform_long_r uniform_long]. rewrite IH. reflexivity. Qed.
Lemma uniform_exact (A : adder exact) S d : uniform_price_mechanism_r exact A S d = uniform_price_mechanism S d.
Proof.
  unfold uniform_price_mechanism_r, uniform_price_mechanism. rewrite demand_exact, supply_exact, intersect_exact.
  destruct (intersect_stepwise _ _ _) as [[[[q b] s] v]|]; [|reflexivity]. cbn [bind].
  destruct b, s, q, v; try reflexivity. rewrite !asum_exact. destruct (qltb _ _); rewrite uniform_long_exact, asum_exact; reflexivity.
Qed.
Lemma uniform_run_exact (A : adder exact) S d : uniform_run_r exact A S d = uniform_run S d.
Proof. unfold uniform_run_r, uniform_run, mechanism, mech_run0. destruct (_ || _); [reflexivity | apply uniform_exact]. Qed.

(** ** The crossing *)
Definition ordinate_r (R : rounding) (f g : curve) (x gv fv : num) (k : Qc) : num :=
  if mem_col (Some x) f && mem_col (Some x) g then mix_r R gv fv k else if mem_col (Some x) f then gv else fv.
Lemma intersect_r_spec R f g k : f <> [] -> g <> [] -> ends_sorted f -> ends_sorted g -> decreasing f -> increasing g ->
  (exists x i u j w, intersect_stepwise_r R f g k = Ok (Some x, Some i, Some j, ordinate_r R f g x w u k) /\ Crossing f g x /\ (is_end f x \/ is_end g x) /\ StepAt f x i u /\ StepAt g x j w) \/
  (exists v, intersect_stepwise_r R f g k = Ok (None, None, None, v) /\ forall x, ~ Crossing f g x).
Proof.
  intros Nf Ng Hf Hg Df Ig. pose proof (intersect_r_indices R f g k) as H.
  destruct (intersect_cases f g k Nf Ng Hf Hg Df Ig) as [(x & i & j & u & w & v & E & C & I & Su & Sw)|(v & E & N)]; rewrite E in H;
    (destruct (intersect_stepwise_r R f g k) as [[[[x' i'] j'] v']|e] eqn:Er; [|contradiction]); destruct H as (-> & -> & ->).
  2:{ right. exists v'. auto. }
  left. exists x, i, u, j, w. split; [|auto].
  destruct (StepAt_in _ _ _ _ Su) as (a & _ & _ & Na). destruct (StepAt_in _ _ _ _ Sw) as (b & _ & _ & Nb).
  unfold intersect_stepwise_r in Er. destruct (col_max f); [|discriminate]. cbn [bind] in Er. destruct (col_max g); [|discriminate]. cbn [bind] in Er.
  destruct (scan _ _) as [xa|]; [|discriminate]. cbn [bind] in Er.
  remember (option_map (fun x => argmax_bool (map (fun p => nleb x (fst p)) f)) xa) as fa. remember (option_map (fun x => argmax_bool (map (fun p => nleb x (fst p)) g)) xa) as ga.
  destruct (piece_value ga _ g) as [[gv|]|] eqn:Eg; cbn [bind] in Er; try discriminate; (destruct (piece_value fa _ f) as [[fv|]|] eqn:Ef; cbn [bind] in Er; try discriminate).
  injection Er as Ex Ei Ej Ev. subst xa. rewrite Ei in Ef. rewrite Ej in Eg. cbn [piece_value] in Ef, Eg. rewrite Na in Ef. rewrite Nb in Eg. injection Ef as <-. injection Eg as <-.
  rewrite <- Ev. reflexivity.
Qed.
Lemma half_between R a b : halves R -> machine R a -> machine R b -> a <= b ->
  mix_r R (Fin a) (Fin b) (qf 1 2) = Fin (R (a * qf 1 2 + b * qf 1 2)) /\ a <= R (a * qf 1 2 + b * qf 1 2) /\ R (a * qf 1 2 + b * qf 1 2) <= b.
Proof.
  intros [H1 H2] Ma Mb L. unfold mix_r. cbn [nmul nround nadd]. assert (Eh : R (1 - qf 1 2) = qf 1 2).
  { replace (1 - qf 1 2) with (1 * qf 1 2) by (apply Qc_is_canon; reflexivity). rewrite (H2 1 H1). ring. }
  rewrite Eh. replace (qf 1 2 * b) with (b * qf 1 2) by ring. rewrite (H2 a Ma), (H2 b Mb). split; [reflexivity|].
  assert (T : forall x, x * qf 1 2 + x * qf 1 2 = x) by (intro x; replace x with (x * (qf 1 2 + qf 1 2)) at 3; [ring|]; replace (qf 1 2 + qf 1 2) with 1 by (apply Qc_is_canon; reflexivity); ring).
  assert (M : a * qf 1 2 <= b * qf 1 2) by (apply qmult_le_r; [vm_compute; discriminate | exact L]). pose proof (T a). pose proof (T b).
  split; [apply rnd_ge; [exact Ma | qlra] | apply rnd_le; [exact Mb | qlra]].
Qed.

(** ** Positions in the rows of a curve *)
Notation sq R l := (seq_sum R (map qty l)).
Lemma seq_snoc R l x : seq_sum R (l ++ [x]) = R (seq_sum R l + x).
Proof. unfold seq_sum. rewrite fold_left_app. reflexivity. Qed.
Lemma crows_r_at R l i r : forall a, nth_error l i = Some r -> nth_error (crows_r R a l) i = Some (Fin (fold_left (fun s x => R (s + x)) (map qty (firstn (Datatypes.S i) l)) a), Fin (price r)).
Proof.
  revert i. induction l as [|r0 l IH]; intros [|i] a H; try discriminate; rewrite crows_r_cons.
  - cbn in H. injection H as ->. reflexivity.
  - cbn [nth_error] in *. rewrite (IH i _ H). cbn [firstn map fold_left]. reflexivity.
Qed.
Lemma rows_r_before R l1 r l2 tail c v : StepAt (crows_r R 0 (l1 ++ r :: l2) ++ tail) (Fin c) (length l1) v ->
  (l1 = [] \/ sq R l1 < c) /\ c <= sq R (l1 ++ [r]).
Proof.
  intros ((a & N & L) & Hb). split.
  - destruct (rev l1) as [|y m] eqn:E; apply (f_equal (@rev row)) in E; rewrite rev_involutive in E; cbn [rev] in E; [left; exact E|]. right.
    set (l0 := rev m) in *. subst l1.
    assert (Ny : nth_error (crows_r R 0 ((l0 ++ [y]) ++ r :: l2) ++ tail) (length l0) = Some (Fin (sq R (l0 ++ [y])), Fin (price y))).
    { rewrite nth_error_app1 by (rewrite crows_r_length, !app_length; cbn; lia). rewrite <- app_assoc.
      rewrite (crows_r_at R _ (length l0) y); [|rewrite nth_error_app2, Nat.sub_diag by lia; reflexivity].
      change (l0 ++ [y] ++ r :: l2) with (l0 ++ y :: r :: l2). rewrite firstn_S_app. reflexivity. }
    specialize (Hb (length l0)). rewrite app_length in Hb. cbn [length] in Hb. specialize (Hb _ _ ltac:(lia) Ny).
    destruct (qle_spec c (sq R (l0 ++ [y]))) as [G|G]; [|exact G]. exfalso. apply (proj2 (nle_Fin _ _)) in G. unfold nle in G. congruence.
  - rewrite nth_error_app1 in N by (rewrite crows_r_length, app_length; cbn; lia).
    rewrite (crows_r_at R _ (length l1) r) in N by (rewrite nth_error_app2, Nat.sub_diag by lia; reflexivity). rewrite firstn_S_app in N.
    assert (a = Fin (sq R (l1 ++ [r]))) as -> by (unfold seq_sum; congruence). apply nle_Fin in L. exact L.
Qed.
Lemma rows_r_end R l1 r l2 tv c v w : ends_sorted (crows_r R 0 (l1 ++ r :: l2) ++ [(PInf, tv)]) -> StepAt (crows_r R 0 (l1 ++ r :: l2) ++ [(PInf, tv)]) (Fin c) (length l1) v ->
  In (Fin c, w) (crows_r R 0 (l1 ++ r :: l2) ++ [(PInf, tv)]) -> c = sq R (l1 ++ [r]).
Proof.
  intros [_ Hs] St I. pose proof (rows_r_before _ _ _ _ _ _ _ St) as [_ U]. destruct St as ((a & N & L) & Hb). apply In_nth_error in I. destruct I as (k & Nk).
  assert (Lk : (length l1 <= k)%nat).
  { destruct (Nat.lt_ge_cases k (length l1)) as [G|G]; [|exact G]. specialize (Hb _ _ _ G Nk). rewrite (proj2 (nle_Fin c c)) in Hb; [discriminate | qlra]. }
  assert (Na : a = Fin (sq R (l1 ++ [r]))).
  { rewrite nth_error_app1 in N by (rewrite crows_r_length, app_length; cbn; lia).
    rewrite (crows_r_at R _ (length l1) r) in N by (rewrite nth_error_app2, Nat.sub_diag by lia; reflexivity). rewrite firstn_S_app in N. unfold seq_sum. congruence. }
  subst a. apply Nat.lt_eq_cases in Lk. destruct Lk as [Lk|Lk].
  - pose proof (sorted_nth _ _ _ _ _ _ Hs Lk N Nk) as G. cbn [fst] in G. apply nle_Fin in G. qlra.
  - subst k. assert (X : Fin c = Fin (sq R (l1 ++ [r]))) by congruence. apply Fin_inj, X.
Qed.

(** ** The long side *)
Fixpoint long_qs (R : rounding) (l : df) (t a : Qc) : list Qc :=
  match l with [] => [] | x :: r => (if qleb (R (qty x + a)) t then qty x else R (t - a)) :: long_qs R r t (R (a + qty x)) end.
Lemma long_length R l : forall t a, length (long_qs R l t a) = length l.
Proof. induction l as [|x l IH]; intros t a; [reflexivity|]. cbn [long_qs length]. rewrite IH. reflexivity. Qed.
Lemma long_emit R l : forall t a p, uniform_long_r R l t a p = emit l (long_qs R l t a) p.
Proof.
  induction l as [|x l IH]; intros t a p; [reflexivity|]. cbn [uniform_long_r long_qs]. unfold emit. cbn [combine map fst snd]. f_equal. rewrite IH. reflexivity.
Qed.
Lemma long_upper R l : forall t a, machine R t -> (forall x, In x l -> machine R (qty x)) -> Forall2 (fun x q => q <= qty x) l (long_qs R l t a).
Proof.
  induction l as [|x l IH]; intros t a Mt Hm; [constructor|]. cbn [long_qs]. constructor; [|apply IH; [exact Mt | intros; apply Hm; right; assumption]].
  destruct (qle_spec (R (qty x + a)) t) as [G|G]; [qlra|]. apply rnd_le; [apply Hm; left; reflexivity|].
  destruct (Qclt_le_dec (qty x) (t - a)) as [L|L]; [|exact L]. exfalso. pose proof (rnd_le R (qty x + a) t Mt ltac:(qlra)). qlra.
Qed.
(** [low] bounds from below what is left before each bid *)
Lemma long_lower (R : rounding) l low : forall t a, (forall x, In x l -> 0 <= qty x) -> low <= 0 -> 
  (forall pre y post, l = pre ++ y :: post -> low <= t - fold_left (fun s x => R (s + x)) (map qty pre) a) -> Forall (fun q => R low <= q) (long_qs R l t a).
Proof.
  induction l as [|x l IH]; intros t a Hq Hl H; [constructor|]. cbn [long_qs]. constructor.
  - destruct (qle_spec (R (qty x + a)) t) as [G|G].
    + pose proof (rnd_nonpos R low Hl). pose proof (Hq x (or_introl eq_refl)). qlra.
    + apply rnd_mono. exact (H [] x l eq_refl).
  - apply IH; [intros; apply Hq; right; assumption | exact Hl |]. intros pre y post E. apply (H (x :: pre) y post). rewrite E. reflexivity.
Qed.
Lemma fold_grows (R : rounding) l : forall a, machine R a -> (forall x, In x l -> 0 <= x) -> a <= fold_left (fun s x => R (s + x)) l a.
Proof.
  induction l as [|x l IH]; intros a Ma H; [apply Qcle_refl|]. cbn [fold_left]. assert (L : a <= R (a + x)) by (apply rnd_ge; [exact Ma|]; pose proof (H x (or_introl eq_refl)); qlra).
  pose proof (IH (R (a + x)) (rnd_machine R _) ltac:(intros; apply H; right; assumption)). qlra.
Qed.
Lemma fold_prefix (R : rounding) l1 l2 a : machine R a -> (forall x, In x (l1 ++ l2) -> 0 <= x) -> fold_left (fun s x => R (s + x)) l1 a <= fold_left (fun s x => R (s + x)) (l1 ++ l2) a.
Proof.
  intros Ma H. rewrite fold_left_app. apply fold_grows; [|intros; apply H, in_or_app; right; assumption].
  clear H. revert a Ma. induction l1 as [|x l1 IH]; intros a Ma; [exact Ma|]. cbn [fold_left]. apply IH, rnd_machine.
Qed.

(** ** The mechanism *)
Definition uniform_trans (R : rounding) (A : adder R) (B L : df) (p : Qc) : list trans :=
  if qltb (A (map qty L)) (A (map qty B)) then emit L (map qty L) p ++ emit B (long_qs R B (A (map qty L)) 0) p
  else emit B (map qty B) p ++ emit L (long_qs R L (A (map qty B)) 0) p.
Inductive uniform_r_result (R : rounding) (A : adder R) (S : sorter) (d : df) : res (transmgr * extra) -> Prop :=
| URR_none : (forall x, ~ Crossing (fst (demand_curve_r R S d)) (fst (supply_curve_r R S d)) x) -> uniform_r_result R A S d (Err TypeError)
| URR_some c p B1 rb B2 L1 rs L2 tm :
    s_desc S (buyers d) = B1 ++ rb :: B2 -> s_asc S (sellers d) = L1 ++ rs :: L2 -> price rs < price rb ->
    (halves R -> machine R (price rb) -> machine R (price rs) -> price rs <= p /\ p <= price rb) ->
    Crossing (fst (demand_curve_r R S d)) (fst (supply_curve_r R S d)) (Fin c) -> 0 <= c ->
    find_competitive_price_r R S d = Ok (Fin p) ->
    (B1 = [] \/ sq R B1 < c) -> c <= sq R (B1 ++ [rb]) -> (L1 = [] \/ sq R L1 < c) -> c <= sq R (L1 ++ [rs]) ->
    (c = sq R (B1 ++ [rb]) \/ c = sq R (L1 ++ [rs])) ->
    tm_trans tm = uniform_trans R A (B1 ++ [rb]) (L1 ++ [rs]) p ->
    uniform_r_result R A S d (Ok (tm, XUniform (Fin c) (Fin p))).

Theorem uniform_r_cases R A S d : qty_nonneg d -> price_nonneg d -> uniform_r_result R A S d (uniform_price_mechanism_r R A S d).
Proof.
  intros Hq Hp. unfold uniform_price_mechanism_r. set (f := fst (demand_curve_r R S d)). set (g := fst (supply_curve_r R S d)).
  destruct (intersect_r_spec R f g (qf 1 2) (demand_r_nonempty R S d) (supply_r_nonempty R S d) (demand_r_ends R S d Hq) (supply_r_ends R S d Hq) (demand_r_decreasing R S d Hp) (supply_r_increasing R S d))
    as [(x & b & u & s & w & E & Cr & Ie & Sf & Sg)|(v & E & Nc)].
  2:{ rewrite E. cbn [bind]. apply URR_none. exact Nc. }
  assert (Lwu : nlt w u).
  { destruct Cr as (X0 & _ & _ & C). apply (C x b u s w X0 Sf Sg). destruct Sf as ((a & _ & La) & _). apply nle_ok in La. apply nle_refl; tauto. }
  destruct (StepAt_in _ _ _ _ Sf) as (af & _ & _ & Nf). destruct (StepAt_in _ _ _ _ Sg) as (ag & _ & _ & Ng).
  assert (Hs : exists rs, nth_error (s_asc S (sellers d)) s = Some rs /\ w = Fin (price rs)).
  { destruct (crows_r_app_nth _ _ _ _ _ _ Ng) as [H|[_ H]]; [exact H|]. injection H as -> ->. destruct u; discriminate. }
  destruct Hs as (rs & Ns & ->).
  assert (Irs : In rs d) by (apply nth_error_In in Ns; apply asc_in in Ns; tauto).
  assert (Hb : exists rb, nth_error (s_desc S (buyers d)) b = Some rb /\ u = Fin (price rb)).
  { destruct (crows_r_app_nth _ _ _ _ _ _ Nf) as [H|[_ H]]; [exact H|]. injection H as -> ->. apply nlt_Fin in Lwu. specialize (Hp rs Irs). exfalso; qlra. }
  destruct Hb as (rb & Nb & ->). apply nlt_Fin in Lwu.
  assert (Eo : exists p, ordinate_r R f g x (Fin (price rs)) (Fin (price rb)) (qf 1 2) = Fin p /\ (halves R -> machine R (price rb) -> machine R (price rs) -> price rs <= p /\ p <= price rb)).
  { unfold ordinate_r. destruct (_ && _).
    - eexists. split; [reflexivity|]. intros Hh Mb Ms. destruct (half_between R (price rs) (price rb) Hh Ms Mb ltac:(qlra)) as (Em & M1 & M2).
      unfold mix_r in Em. cbn [nmul nround nadd] in Em. apply Fin_inj in Em. rewrite Em. split; assumption.
    - destruct (mem_col (Some x) f); eexists; (split; [reflexivity|]); intros; split; qlra. }
  destruct Eo as (p & Eo & Pb). rewrite E. cbn [bind]. rewrite Eo.
  assert (Xc : exists c, x = Fin c /\ 0 <= c).
  { destruct Cr as (P & _ & (y & L & _) & _). destruct x as [c| | |]; [|destruct y; discriminate L|discriminate P|discriminate P]. exists c. split; [reflexivity | apply nle_Fin, P]. }
  destruct Xc as (c & -> & C0).
  assert (Pr : find_competitive_price_r R S d = Ok (Fin p)).
  { unfold find_competitive_price_r. fold f g. rewrite E. cbn [bind]. rewrite Eo. reflexivity. }
  pose proof (nth_error_split' _ _ _ Nb) as EB. pose proof (nth_error_split' _ _ _ Ns) as EL.
  assert (LB : length (firstn b (s_desc S (buyers d))) = b) by (apply firstn_length_le, Nat.lt_le_incl, nth_error_Some; congruence).
  assert (LL : length (firstn s (s_asc S (sellers d))) = s) by (apply firstn_length_le, Nat.lt_le_incl, nth_error_Some; congruence).
  set (B1 := firstn b (s_desc S (buyers d))) in *. set (L1 := firstn s (s_asc S (sellers d))) in *. set (B2 := skipn _ _) in EB. set (L2 := skipn _ _) in EL.
  assert (Ef : f = crows_r R 0 (B1 ++ rb :: B2) ++ [(PInf, Fin 0)]) by (unfold f, demand_curve_r; cbn [fst]; rewrite EB; reflexivity).
  assert (Eg : g = crows_r R 0 (L1 ++ rs :: L2) ++ [(PInf, PInf)]) by (unfold g, supply_curve_r; cbn [fst]; rewrite EL; reflexivity).
  pose proof Sf as Sf'. pose proof Sg as Sg'. rewrite <- LB, Ef in Sf'. rewrite <- LL, Eg in Sg'.
  destruct (rows_r_before _ _ _ _ _ _ _ Sf') as [B3 B4]. destruct (rows_r_before _ _ _ _ _ _ _ Sg') as [L3 L4].
  pose proof (demand_r_ends R S d Hq) as De. fold f in De. rewrite Ef in De. pose proof (supply_r_ends R S d Hq) as Dg. fold g in Dg. rewrite Eg in Dg.
  assert (Mn : c = sq R (B1 ++ [rb]) \/ c = sq R (L1 ++ [rs])).
  { destruct Ie as [(v & I)|(v & I)].
    - left. rewrite Ef in I. apply (rows_r_end _ _ _ _ _ _ _ _ De Sf' I).
    - right. rewrite Eg in I. apply (rows_r_end _ _ _ _ _ _ _ _ Dg Sg' I). }
  rewrite EB, EL, <- LB, <- LL, !firstn_S_app.
  destruct (qltb (A (map qty (L1 ++ [rs]))) (A (map qty (B1 ++ [rb])))) eqn:Q;
    eapply URR_some; try eassumption; rewrite !add_all_trans, uniform_short_emit, long_emit; unfold uniform_trans; rewrite Q; reflexivity.
Qed.
