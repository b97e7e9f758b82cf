(** Facts about the Huang auction in rounded arithmetic. *)
From Verif Require Import QcTac Num NumFacts ModelBase ModelCurves ModelHuang ModelRound ListFacts Spec SpecTrade SpecRound
  CurveFacts IntersectFacts StoreFacts UpdateFacts TradeFacts Sorter HuangFacts RoundFacts.

(** ** The curves *)
Definition crows_r (R : rounding) (a : Qc) (l : df) : curve :=
  combine (map Fin (cumsum_from_r R a (map qty l))) (map (fun r => Fin (price r)) l).
Lemma crows_r_cons R a r l : crows_r R a (r :: l) = (Fin (R (a + qty r)), Fin (price r)) :: crows_r R (R (a + qty r)) l.
Proof. reflexivity. Qed.
Lemma crows_r_length R a l : length (crows_r R a l) = length l.
Proof. unfold crows_r. rewrite combine_length, !map_length, cumsum_from_r_length, map_length. apply Nat.min_id. Qed.
Lemma crows_r_in R l p : forall a, In p (crows_r R a l) -> exists r, In r l /\ snd p = Fin (price r).
Proof.
  induction l as [|r l IH]; intros a H; [contradiction|].
  rewrite crows_r_cons in H. destruct H as [<-|H]; [exists r; split; [left|]; reflexivity|].
  destruct (IH _ H) as (r' & H1 & H2). exists r'. split; [right|]; assumption.
Qed.
Lemma crows_r_nth R l i r : forall a, nth_error l i = Some r -> exists x, nth_error (crows_r R a l) i = Some (x, Fin (price r)).
Proof.
  revert i; induction l as [|r0 l IH]; intros [|i] a H; try discriminate; rewrite crows_r_cons; simpl in *.
  - injection H as ->. eauto.
  - apply IH, H.
Qed.
Lemma crows_r_app_nth R l p i a v : nth_error (crows_r R 0 l ++ [p]) i = Some (a, v) ->
  (exists r, nth_error l i = Some r /\ v = Fin (price r)) \/ (i = length l /\ (a, v) = p).
Proof.
  intro H. destruct (Nat.lt_ge_cases i (length l)) as [L|L].
  - left. rewrite nth_error_app1 in H by (rewrite crows_r_length; exact L).
    destruct (nth_error l i) as [r|] eqn:E; [|apply nth_error_None in E; lia].
    destruct (crows_r_nth R l i r 0 E) as (x & E2). rewrite E2 in H. injection H as <- <-. eauto.
  - right. rewrite nth_error_app2 in H by (rewrite crows_r_length; exact L). rewrite crows_r_length in H.
    destruct (i - length l)%nat as [|k] eqn:E; simpl in H; [split; [lia | congruence]|].
    destruct k; discriminate.
Qed.
Lemma crows_r_ends R l v : forall a, (forall r, In r l -> 0 <= qty r) -> 0 <= a -> machine R a -> v <> NaN ->
  (forall p, In p (crows_r R a l ++ [(PInf, v)]) -> nle (Fin a) (fst p)) /\
  StronglySorted (fun p q => nleb (fst p) (fst q) = true) (crows_r R a l ++ [(PInf, v)]).
Proof.
  induction l as [|r l IH]; intros a H Ha Ma Hv.
  - simpl. split; [intros p [<-|[]]; reflexivity|]. constructor; constructor.
  - rewrite crows_r_cons. simpl app.
    assert (Q : 0 <= qty r) by (apply H; left; reflexivity).
    assert (L : a <= R (a + qty r)) by (apply rnd_ge; [exact Ma | qlra]).
    destruct (IH (R (a + qty r))) as [X Y]; [intros; apply H; right; assumption | qlra | apply rnd_machine | exact Hv |].
    split.
    + intros p [<-|Hp']; [simpl; apply nle_Fin; exact L|].
      apply (nle_trans _ (Fin (R (a + qty r)))); [apply nle_Fin; exact L | apply X, Hp'].
    + constructor; [exact Y|]. rewrite Forall_forall. intros p Hp'. apply X, Hp'.
Qed.

Section Curves.
  Variables (R : rounding) (S : sorter) (d : df).
  Hypothesis Hq : qty_nonneg d.
  Hypothesis Hp : price_nonneg d.

  Lemma demand_r_ends : ends_sorted (fst (demand_curve_r R S d)).
  Proof.
    unfold demand_curve_r, ends_sorted. simpl fst. change (curve_rows_r R ?l) with (crows_r R 0 l).
    apply (crows_r_ends R _ _ 0); [|qlra|apply machine_0|congruence].
    intros r Hr. apply Hq. apply desc_in in Hr. tauto.
  Qed.
  Lemma supply_r_ends : ends_sorted (fst (supply_curve_r R S d)).
  Proof.
    unfold supply_curve_r, ends_sorted. simpl fst. change (curve_rows_r R ?l) with (crows_r R 0 l).
    apply (crows_r_ends R _ _ 0); [|qlra|apply machine_0|congruence].
    intros r Hr. apply Hq. apply asc_in in Hr. tauto.
  Qed.
  Lemma demand_r_decreasing : decreasing (fst (demand_curve_r R S d)).
  Proof.
    unfold demand_curve_r. simpl fst. change (curve_rows_r R ?l) with (crows_r R 0 l).
    assert (Hs := s_desc_sorted S (buyers d)).
    assert (Hr : forall r, In r (s_desc S (buyers d)) -> 0 <= price r).
    { intros r Hr. apply Hp. apply desc_in in Hr. tauto. }
    split.
    - intros p Hpp. apply in_app_or in Hpp. destruct Hpp as [Hpp|[<-|[]]]; [|simpl; congruence].
      apply crows_r_in in Hpp. destruct Hpp as (r & _ & ->). congruence.
    - generalize 0 at 1 as a. induction Hs as [|r l Hs IH Hf]; intro a.
      + simpl. constructor; constructor.
      + rewrite crows_r_cons. simpl app. constructor.
        * apply IH. intros; apply Hr; right; assumption.
        * rewrite Forall_forall in *. intros p Hpp. apply in_app_or in Hpp.
          destruct Hpp as [Hpp|[<-|[]]]; simpl.
          -- apply crows_r_in in Hpp. destruct Hpp as (r' & I & ->). apply qleb_le, Hf, I.
          -- apply qleb_le, Hr. left; reflexivity.
  Qed.
  Lemma supply_r_increasing : increasing (fst (supply_curve_r R S d)).
  Proof.
    unfold supply_curve_r. simpl fst. change (curve_rows_r R ?l) with (crows_r R 0 l).
    assert (Hs := s_asc_sorted S (sellers d)).
    split.
    - intros p Hpp. apply in_app_or in Hpp. destruct Hpp as [Hpp|[<-|[]]]; [|simpl; congruence].
      apply crows_r_in in Hpp. destruct Hpp as (r & _ & ->). congruence.
    - generalize 0 at 1 as a. induction Hs as [|r l Hs IH Hf]; intro a.
      + simpl. constructor; constructor.
      + rewrite crows_r_cons. simpl app. constructor.
        * apply IH.
        * rewrite Forall_forall in *. intros p Hpp. apply in_app_or in Hpp.
          destruct Hpp as [Hpp|[<-|[]]]; simpl; [|reflexivity].
          apply crows_r_in in Hpp. destruct Hpp as (r' & I & ->). apply qleb_le, Hf, I.
  Qed.
  Lemma demand_r_nonempty : fst (demand_curve_r R S d) <> [].
  Proof. unfold demand_curve_r. simpl. intro H. apply app_eq_nil in H. destruct H; discriminate. Qed.
  Lemma supply_r_nonempty : fst (supply_curve_r R S d) <> [].
  Proof. unfold supply_curve_r. simpl. intro H. apply app_eq_nil in H. destruct H; discriminate. Qed.
End Curves.

Lemma intersect_r_cases R f g k :
  f <> [] -> g <> [] -> ends_sorted f -> ends_sorted g -> decreasing f -> increasing g ->
  (exists x i j u w v,
     intersect_stepwise_r R f g k = Ok (Some x, Some i, Some j, v) /\
     Crossing f g x /\ StepAt f x i u /\ StepAt g x j w) \/
  (exists v, intersect_stepwise_r R f g k = Ok (None, None, None, v) /\ forall x, ~ Crossing f g x).
Proof.
  intros Nf Ng Hf Hg Df Ig. pose proof (intersect_r_indices R f g k) as H.
  destruct (intersect_cases f g k Nf Ng Hf Hg Df Ig) as [(x & i & j & u & w & v & E & C & _ & Su & Sw)|(v & E & N)]; rewrite E in H;
    (destruct (intersect_stepwise_r R f g k) as [[[[x' i'] j'] v']|e]; [|contradiction]); destruct H as (-> & -> & ->).
  - left. exists x, i, j, u, w, v'. auto.
  - right. exists v'. auto.
Qed.

(** ** Rationing *)
(** the remaining entries are those of [Q], the others are removed *)
Definition sub_of (q : list (option Qc)) (Q : list Qc) : Prop := Forall2 (fun o x => o = Some x \/ o = None) q Q.
Lemma sub_of_set q Q i : sub_of q Q -> sub_of (set_nth i None q) Q.
Proof.
  intro H. revert i. induction H as [|o x q Q Ho H IH]; intros [|i]; simpl; constructor; auto; apply IH.
Qed.
Lemma sub_of_all Q : sub_of (map Some Q) Q.
Proof. induction Q; simpl; constructor; auto. Qed.
Lemma somes_sub q Q x : sub_of q Q -> In x (somes q) -> In x Q.
Proof.
  induction 1 as [|o y q Q Ho H IH]; simpl; [auto|]. destruct Ho as [->| ->]; simpl; [intros [->|I]; auto | auto].
Qed.
Lemma in_somes q x : In (Some x) q <-> In x (somes q).
Proof.
  induction q as [|o q IH]; simpl; [tauto|]. destruct o as [y|]; simpl; rewrite <- IH; split; intuition congruence.
Qed.

Section Update.
  Variable R : rounding.
  Lemma div_le_self g n : 0 <= g -> (0 < n)%nat -> 0 <= g / qnat n /\ g / qnat n <= g.
  Proof.
    intros G N. pose proof (qnat_pos n N) as P. assert (NZ : qnat n <> 0) by (intro Z; rewrite Z in P; qlra).
    assert (E : g / qnat n * qnat n = g) by (field; exact NZ).
    assert (N1 : 1 <= qnat n).
    { destruct n as [|m]; [lia|]. rewrite qnat_S. unfold qnat. destruct m as [|m]; [simpl; qlra|].
      pose proof (qnat_pos (Datatypes.S m) ltac:(lia)) as Q. unfold qnat in Q. qlra. }
    assert (T : 0 <= g / qnat n).
    { destruct (Qclt_le_dec (g / qnat n) 0) as [L|L]; [|exact L]. exfalso.
      assert (0 < (- (g / qnat n)) * qnat n) by (apply qmult_pos; qlra).
      replace (- (g / qnat n) * qnat n) with (- (g / qnat n * qnat n)) in H by ring. rewrite E in H. qlra. }
    split; [exact T|]. pose proof (qmult_le_l _ 1 (qnat n) T N1) as K. rewrite E, Qcmult_1_r in K. exact K.
  Qed.
  Lemma loop_r_spec Q fuel : forall q gap N i v,
    sub_of q Q -> (forall x, In x Q -> 0 <= x /\ machine R x) -> N = length (somes q) -> (N < fuel)%nat ->
    nanargmin q = Some (i, v) -> 0 <= gap ->
    uq_loop_r R fuel q gap N i v = Err ValueError \/
    exists q' gap' N', uq_loop_r R fuel q gap N i v = Ok (q', gap', N') /\
      sub_of q' Q /\ (0 < N')%nat /\ N' = length (somes q') /\ 0 <= gap' /\
      (forall x, In x (somes q') -> R (gap' / qnat N') <= x).
  Proof.
    induction fuel as [|fuel IH]; intros q gap N i v Hs HQ HN Hf Hm Hg; [lia|]. cbn [uq_loop_r].
    destruct (nanargmin_some _ _ _ Hm) as [Hi Hmin]. destruct (somes_remove _ _ _ Hi) as [_ El].
    assert (Iv : In v (somes q)) by (apply in_somes; eapply nth_error_In; eauto).
    destruct (HQ v (somes_sub _ _ _ Hs Iv)) as [V0 Vm].
    destruct (qlt_spec v (R (gap / qnat N))) as [L|L].
    - destruct (nanargmin (set_nth i None q)) as [[i1 v1]|] eqn:E1; [|left; reflexivity].
      apply IH; auto.
      + apply sub_of_set, Hs.
      + lia.
      + lia.
      + apply rnd_nonneg. destruct (Qclt_le_dec gap v) as [G|G]; [|qlra]. exfalso.
        destruct (div_le_self gap N Hg ltac:(lia)) as [D0 D1].
        pose proof (rnd_le R (gap / qnat N) v Vm ltac:(qlra)). qlra.
    - right. exists q, gap, N. split; [reflexivity|]. split; [exact Hs|]. split; [lia|]. split; [exact HN|]. split; [exact Hg|].
      intros x Hx. specialize (Hmin x Hx). qlra.
  Qed.

  (** the quantities after rationing: [max (round (x - t)) 0] for the entries that remain, 0 for the others *)
  Definition cut_r (t : Qc) (o : option Qc) : Qc := match o with Some x => R (x - t) | None => 0 end.
  Theorem update_r_spec Q gap : Q <> [] -> (forall x, In x Q -> 0 <= x /\ machine R x) -> 0 <= gap ->
    update_quantity_r R Q gap = Err ValueError \/
    exists q' gap' N', uq_loop_r R (Datatypes.S (length Q)) (map Some Q) gap (length Q) (fst (match nanargmin (map Some Q) with Some p => p | None => (0%nat, 0) end))
         (snd (match nanargmin (map Some Q) with Some p => p | None => (0%nat, 0) end)) = Ok (q', gap', N') /\
      sub_of q' Q /\ (0 < N')%nat /\ N' = length (somes q') /\ 0 <= gap' /\
      (forall x, In x (somes q') -> R (gap' / qnat N') <= x) /\
      update_quantity_r R Q gap = Ok (map (cut_r (R (gap' / qnat N'))) q').
  Proof.
    intros Hne HQ Hg. unfold update_quantity_r.
    destruct (nanargmin (map Some Q)) as [[i v]|] eqn:E.
    2:{ exfalso. apply nanargmin_none in E. rewrite somes_map_Some in E. congruence. }
    destruct (loop_r_spec Q (Datatypes.S (length Q)) (map Some Q) gap (length Q) i v (sub_of_all Q) HQ) as
      [Er|(q' & gap' & N' & El & A1 & A2 & A3 & A4 & A5)]; auto.
    { rewrite somes_map_Some. reflexivity. }
    { left. rewrite Er. reflexivity. }
    right. exists q', gap', N'. cbn [fst snd]. split; [exact El|]. do 5 (split; [assumption|]).
    rewrite El. cbn [bind]. set (t := R (gap' / qnat N')) in *.
    assert (T0 : 0 <= t) by (apply rnd_nonneg, div_le_self; assumption).
    rewrite map_map. set (y := fun o : option Qc => R (match o with Some x => x | None => 0 end - t)).
    change (fun x : option Qc => R (match x with Some x0 => x0 | None => 0 end - t)) with y.
    assert (Hs : exists x0, In (Some x0) q').
    { destruct (somes q') as [|x0 l] eqn:Es; [simpl in A3; lia|]. exists x0. apply in_somes. rewrite Es. left; reflexivity. }
    destruct Hs as (x0 & Hx0).
    assert (In0 : t <= x0) by (apply A5, in_somes, Hx0).
    destruct q' as [|o q']; [contradiction|]. cbn [map].
    set (mx := list_max (y o) (map y q')).
    assert (Mx : forall o', In o' (o :: q') -> y o' <= mx).
    { intros o' Ho'. unfold mx, list_max. destruct (fold_qmax (map y q') (y o)) as [B1 B2].
      destruct Ho' as [<-|Ho']; [exact B1|]. apply B2, in_map, Ho'. }
    assert (M0 : 0 <= mx).
    { apply Qcle_trans with (y (Some x0)); [apply rnd_nonneg; qlra | apply Mx, Hx0]. }
    assert (Cl : forall o', In o' (o :: q') -> qmin mx (qmax (y o') 0) = cut_r t o').
    { intros o' Ho'. specialize (Mx o' Ho'). destruct o' as [x|]; unfold y, cut_r in *.
      - assert (t <= x) by (apply A5, in_somes, Ho'). assert (P : 0 <= R (x - t)) by (apply rnd_nonneg; qlra).
        destruct (qmax_case (R (x - t)) 0) as [[E1 ?]|[E1 ?]]; rewrite E1;
        match goal with |- qmin ?a ?b = _ => destruct (qmin_case a b) as [[E2 ?]|[E2 ?]] end; rewrite E2; qlra.
      - assert (P : R (0 - t) <= 0) by (apply rnd_nonpos; qlra).
        destruct (qmax_case (R (0 - t)) 0) as [[E1 ?]|[E1 ?]]; rewrite E1;
        match goal with |- qmin ?a ?b = _ => destruct (qmin_case a b) as [[E2 ?]|[E2 ?]] end; rewrite E2; qlra. }
    change (y o :: map y q') with (map y (o :: q')). rewrite map_map. f_equal.
    change (map (fun x : option Qc => qmin mx (qmax (y x) 0)) (o :: q') = map (cut_r t) (o :: q')).
    apply map_ext_in. exact Cl.
  Qed.

  (** reduced quantities: as many, each between 0 and the original *)
  Definition reduced (Q Q' : list Qc) : Prop := Forall2 (fun x y => 0 <= y /\ y <= x) Q Q'.
  Lemma reduced_refl Q : (forall x, In x Q -> 0 <= x) -> reduced Q Q.
  Proof. induction Q as [|x Q IH]; intro H; constructor; [split; [apply H; left; reflexivity | qlra] | apply IH; intros; apply H; right; assumption]. Qed.
  Lemma reduced_length Q Q' : reduced Q Q' -> length Q' = length Q.
  Proof. induction 1; simpl; congruence. Qed.
  Lemma cut_reduced t q Q : sub_of q Q -> 0 <= t -> (forall x, In x (somes q) -> t <= x) -> (forall x, In x Q -> 0 <= x /\ machine R x) ->
    reduced Q (map (cut_r t) q).
  Proof.
    intros H T. induction H as [|o x q Q Ho H IH]; intros A B; [constructor|]. cbn [map]. constructor.
    - destruct (B x (or_introl eq_refl)) as [X0 Xm]. destruct Ho as [->| ->]; unfold cut_r; [|split; [qlra | exact X0]].
      assert (t <= x) by (apply A; left; reflexivity). split; [apply rnd_nonneg; qlra | apply rnd_le; [exact Xm | qlra]].
    - apply IH; [|intros; apply B; right; assumption]. intros y Hy. apply A. simpl. destruct o; [right|]; exact Hy.
  Qed.
  Lemma update_r_reduced Q gap : Q <> [] -> (forall x, In x Q -> 0 <= x /\ machine R x) -> 0 <= gap ->
    update_quantity_r R Q gap = Err ValueError \/ exists Q', update_quantity_r R Q gap = Ok Q' /\ reduced Q Q'.
  Proof.
    intros Hne HQ Hg. destruct (update_r_spec Q gap Hne HQ Hg) as [E|(q' & gap' & N' & _ & A1 & A2 & A3 & A4 & A5 & E)]; [left; exact E|].
    right. eexists. split; [exact E|]. apply cut_reduced; auto. apply rnd_nonneg, div_le_self; assumption.
  Qed.
End Update.

(** ** The auction *)
Section Auction.
  Variables (R : rounding) (A : adder R) (S : sorter) (d : df).
  Hypothesis Hq : qty_nonneg d.
  Hypothesis Hp : price_nonneg d.
  Hypothesis Hm : machine_qty R d.

  Inductive huang_r_result : res (transmgr * extra) -> Prop :=
  | HRr_none : huang_r_result (Ok (tm_init, XEmpty))
  | HRr_some B1 rb B2 L1 rs L2 qs qb tm q :
      s_desc S (buyers d) = B1 ++ rb :: B2 -> s_asc S (sellers d) = L1 ++ rs :: L2 ->
      price rs < price rb ->
      (B1 = [] \/ L1 = []) /\ tm = tm_init \/
      B1 <> [] /\ L1 <> [] /\ reduced (map qty L1) qs /\ reduced (map qty B1) qb /\
        (let g := R (A (map qty L1) - A (map qty B1)) in
         0 < g /\ update_quantity_r R (map qty L1) g = Ok qs /\ qb = map qty B1 \/
         g <= 0 /\ qs = map qty L1 /\ update_quantity_r R (map qty B1) (- g) = Ok qb) /\
        q = A qb /\ tm_trans tm = trades L1 B1 qs qb (price rs) (price rb) ->
      huang_r_result (Ok (tm, XHuang (price rs) (price rb) q))
  | HRr_err : huang_r_result (Err ValueError).

  Theorem huang_r_cases : huang_r_result (huang_auction_r R A S d).
  Proof.
    unfold huang_auction_r.
    set (f := fst (demand_curve_r R S d)). set (g := fst (supply_curve_r R S d)).
    destruct (intersect_r_cases R f g (qf 1 2) (demand_r_nonempty R S d) (supply_r_nonempty R S d)
                (demand_r_ends R S d Hq) (supply_r_ends R S d Hq) (demand_r_decreasing R S d Hp) (supply_r_increasing R S d))
      as [(x & b & s & u & w & v & E & Cr & Sf & Sg)|(v & E & Nc)].
    2:{ rewrite E. cbn [bind]. apply HRr_none. }
    rewrite E. cbn [bind].
    assert (Lwu : nlt w u).
    { destruct Cr as (X0 & _ & _ & C). apply (C x b u s w X0 Sf Sg).
      destruct Sf as ((a & _ & La) & _). apply nle_ok in La. apply nle_refl; tauto. }
    destruct (StepAt_in _ _ _ _ Sf) as (af & _ & _ & Nf). destruct (StepAt_in _ _ _ _ Sg) as (ag & _ & _ & Ng).
    assert (Hs : exists rs, nth_error (s_asc S (sellers d)) s = Some rs /\ w = Fin (price rs)).
    { destruct (crows_r_app_nth R _ _ _ _ _ Ng) as [H|[_ H]]; [exact H|]. injection H as -> ->.
      destruct u; discriminate. }
    destruct Hs as (rs & Ns & ->).
    assert (Irs : In rs d).
    { apply nth_error_In in Ns. apply (Permutation_in _ (s_asc_perm S _)) in Ns. apply filter_In in Ns. tauto. }
    assert (Hb : exists rb, nth_error (s_desc S (buyers d)) b = Some rb /\ u = Fin (price rb)).
    { destruct (crows_r_app_nth R _ _ _ _ _ Nf) as [H|[_ H]]; [exact H|]. injection H as -> ->.
      apply nlt_Fin in Lwu. specialize (Hp rs Irs). exfalso; qlra. }
    destruct Hb as (rb & Nb & ->). apply nlt_Fin in Lwu.
    rewrite Ng, Nf.
    pose proof (nth_error_split' _ _ _ Nb) as EB. pose proof (nth_error_split' _ _ _ Ns) as EL.
    assert (LB : length (firstn b (s_desc S (buyers d))) = b).
    { apply firstn_length_le. apply Nat.lt_le_incl. apply nth_error_Some. congruence. }
    assert (LL : length (firstn s (s_asc S (sellers d))) = s).
    { apply firstn_length_le. apply Nat.lt_le_incl. apply nth_error_Some. congruence. }
    set (B1 := firstn b (s_desc S (buyers d))) in *. set (L1 := firstn s (s_asc S (sellers d))) in *.
    assert (QB : forall z, In z (map qty B1) -> 0 <= z /\ machine R z).
    { intros z Hz. apply in_map_iff in Hz. destruct Hz as (y & <- & Hy). apply In_firstn in Hy.
      apply (Permutation_in _ (s_desc_perm S _)) in Hy. apply filter_In in Hy. split; [apply Hq | apply Hm]; tauto. }
    assert (QL : forall z, In z (map qty L1) -> 0 <= z /\ machine R z).
    { intros z Hz. apply in_map_iff in Hz. destruct Hz as (y & <- & Hy). apply In_firstn in Hy.
      apply (Permutation_in _ (s_asc_perm S _)) in Hy. apply filter_In in Hy. split; [apply Hq | apply Hm]; tauto. }
    destruct (Nat.ltb 0 b && Nat.ltb 0 s) eqn:Pos.
    - apply andb_true_iff in Pos. destruct Pos as [Pb Ps]. apply Nat.ltb_lt in Pb, Ps.
      assert (NB : B1 <> []) by (intro Z; rewrite Z in LB; simpl in LB; lia).
      assert (NL : L1 <> []) by (intro Z; rewrite Z in LL; simpl in LL; lia).
      set (gap := R (A (map qty L1) - A (map qty B1))).
      assert (NmB : map qty B1 <> []) by (destruct B1; [congruence | discriminate]).
      assert (NmL : map qty L1 <> []) by (destruct L1; [congruence | discriminate]).
      destruct (qlt_spec 0 gap) as [G|G].
      + destruct (update_r_reduced R (map qty L1) gap NmL QL ltac:(qlra)) as [Er|(Q' & EU & RU)].
        * rewrite Er. cbn [bind]. apply HRr_err.
        * rewrite EU. cbn [bind]. eapply HRr_some with (B1 := B1) (L1 := L1) (qs := Q') (qb := map qty B1); try eassumption.
          right. split; [exact NB|]. split; [exact NL|]. split; [exact RU|].
          split; [apply reduced_refl; intros z Hz; apply QB, Hz|]. split; [left; auto|].
          split; [reflexivity|]. rewrite !add_all_trans. reflexivity.
      + destruct (update_r_reduced R (map qty B1) (- gap) NmB QB ltac:(qlra)) as [Er|(Q' & EU & RU)].
        * rewrite Er. cbn [bind]. apply HRr_err.
        * rewrite EU. cbn [bind]. eapply HRr_some with (B1 := B1) (L1 := L1) (qs := map qty L1) (qb := Q'); try eassumption.
          right. split; [exact NB|]. split; [exact NL|].
          split; [apply reduced_refl; intros z Hz; apply QL, Hz|]. split; [exact RU|]. split; [right; auto|].
          split; [reflexivity|]. rewrite !add_all_trans. reflexivity.
    - eapply HRr_some with (B1 := B1) (L1 := L1) (qs := []) (qb := []); try eassumption.
      left. split; [|reflexivity].
      apply andb_false_iff in Pos. destruct Pos as [P|P]; apply Nat.ltb_ge in P.
      + left. destruct B1; [reflexivity | simpl in LB; lia].
      + right. destruct L1; [reflexivity | simpl in LL; lia].
  Qed.

  Hypothesis Hu : labels_unique d.
  Lemma reduced_combine (X : df) qs r q : reduced (map qty X) qs -> In (r, q) (combine X qs) -> 0 <= q /\ q <= qty r.
  Proof.
    revert qs; induction X as [|x X IH]; intros qs H; simpl; [contradiction|]. destruct qs as [|y qs]; [contradiction|].
    inversion_clear H as [|? ? ? ? H1 H2]. intros [E|I]; [congruence|]. apply (IH qs); assumption.
  Qed.
  Theorem huang_r_summary tm ex : huang_auction_r R A S d = Ok (tm, ex) ->
    once (tm_trans tm) /\ refer d (tm_trans tm) /\ feasible d (tm_trans tm) /\ rational d (tm_trans tm) /\
    (forall t, In t (tm_trans tm) -> t_source t = (-1)%Z /\ t_active t = false) /\
    (tm_trans tm = [] \/ exists ps pb q, ex = XHuang ps pb q) /\
    (forall ps pb q, ex = XHuang ps pb q -> ps < pb /\
       forall t r, In t (tm_trans tm) -> In r d -> lbl r = t_bid t -> t_price t = if buying r then pb else ps).
  Proof.
    intro E. pose proof huang_r_cases as C. rewrite E in C.
    assert (Em : once [] /\ refer d [] /\ feasible d [] /\ rational d []) by (destruct (empty_ok d Hq) as (? & ? & ? & ? & ?); auto).
    inversion C as [E1|B1 rb B2 L1 rs L2 qs qb tm' q EB EL Lp D E1|].
    - subst tm ex. simpl. destruct Em as (A2 & A3 & A4 & A5).
      split; [exact A2|]. split; [exact A3|]. split; [exact A4|]. split; [exact A5|].
      split; [intros ? []|]. split; [left; reflexivity|]. intros; discriminate.
    - subst tm' ex. destruct D as [(_ & ->)|(NB & NL & Rs & Rb & _ & -> & T)].
      + simpl. destruct Em as (A2 & A3 & A4 & A5).
        split; [exact A2|]. split; [exact A3|]. split; [exact A4|]. split; [exact A5|].
        split; [intros ? []|]. split; [left; reflexivity|]. intros ps pb q' Ex. injection Ex as <- <- <-.
        split; [exact Lp|]. intros ? ? [].
      + assert (Ls : length qs = length L1) by (rewrite (reduced_length _ _ Rs); apply map_length).
        assert (Lb : length qb = length B1) by (rewrite (reduced_length _ _ Rb); apply map_length).
        assert (In1 : forall t r, In t (tm_trans tm) -> In r d -> lbl r = t_bid t ->
          (buying r = true /\ In (r, t_qty t) (combine B1 qb) /\ In r B1 /\ t_price t = price rb /\ t_source t = (-1)%Z /\ t_active t = false) \/
          (buying r = false /\ In (r, t_qty t) (combine L1 qs) /\ In r L1 /\ t_price t = price rs /\ t_source t = (-1)%Z /\ t_active t = false)).
        { intros t r Ht Hr El. rewrite T in Ht. apply in_app_or in Ht. destruct Ht as [Ht|Ht];
          apply emit_in in Ht; destruct Ht as (r' & q & H1 & H2 & ->); simpl in El.
          - destruct (seller_row S d _ _ _ r' EL) as [G1 G2]; [apply in_or_app; left; exact H2|].
            assert (r = r') by (apply (NoDup_map_in lbl d); auto). subst r'. right. simpl. auto 10.
          - destruct (buyer_row S d _ _ _ r' EB) as [G1 G2]; [apply in_or_app; left; exact H2|].
            assert (r = r') by (apply (NoDup_map_in lbl d); auto). subst r'. left. simpl. auto 10. }
        assert (Ref : refer d (tm_trans tm)).
        { intros t Ht. rewrite T in Ht. apply in_app_or in Ht. destruct Ht as [Ht|Ht];
          apply emit_in in Ht; destruct Ht as (r' & q & H1 & H2 & ->); exists r'.
          - destruct (seller_row S d _ _ _ r' EL) as [G1 G2]; [apply in_or_app; left; exact H2|]. auto.
          - destruct (buyer_row S d _ _ _ r' EB) as [G1 G2]; [apply in_or_app; left; exact H2|]. auto. }
        assert (Onc : once (tm_trans tm)).
        { unfold once. rewrite T. unfold trades. rewrite map_app, !emit_bids by assumption.
          apply (trades_once S d Hu _ _ _ _ _ _ EB EL). }
        assert (Bd : forall t r, In t (tm_trans tm) -> In r d -> lbl r = t_bid t -> 0 <= t_qty t /\ t_qty t <= qty r).
        { intros t r Ht Hr El. destruct (In1 t r Ht Hr El) as [(_ & H & _)|(_ & H & _)].
          - apply (reduced_combine B1 qb r _ Rb); exact H.
          - apply (reduced_combine L1 qs r _ Rs); exact H. }
        split; [exact Onc|]. split; [exact Ref|].
        split; [apply feasible_once; assumption|]. split; [|split; [|split]].
        * intros t r Ht Hr El. pose proof (s_desc_sorted S (buyers d)) as Sd. rewrite EB in Sd.
          pose proof (s_asc_sorted S (sellers d)) as Sa. rewrite EL in Sa.
          destruct (In1 t r Ht Hr El) as [(-> & _ & H & -> & _)|(-> & _ & H & -> & _)].
          -- exact (proj1 (sorted_app _ _ _ _ Sd) r H).
          -- exact (proj1 (sorted_app _ _ _ _ Sa) r H).
        * intros t Ht. destruct (Ref t Ht) as (r & Hr & El).
          destruct (In1 t r Ht Hr El) as [(_ & _ & _ & _ & ?)|(_ & _ & _ & _ & ?)]; assumption.
        * right. eauto.
        * intros ps pb q' Ex. injection Ex as <- <- <-. split; [exact Lp|].
          intros t r Ht Hr El. destruct (In1 t r Ht Hr El) as [(-> & _ & _ & -> & _)|(-> & _ & _ & -> & _)]; reflexivity.
  Qed.
  Theorem huang_r_total : huang_auction_r R A S d = Err ValueError \/ exists tm ex, huang_auction_r R A S d = Ok (tm, ex).
  Proof. pose proof huang_r_cases as C. inversion C; eauto. Qed.
End Auction.
