(** Profits after the uniform price mechanism, with infinite and NaN prices. *)
From Verif Require Import QcTac Num NumFacts ListFacts ModelBase ModelCurves ModelHuang ModelMuda ModelStats ModelAny ModelWild ModelWildMuda ModelWildStats ModelWildUniform
  Spec SpecWild SpecWildMuda SpecWildStats SpecWildUniform CurveFacts HuangFacts UnitFacts SepFacts WildFacts WildSort WildCap WildStats WildStatsMaker WildUniform WildUniformTop.

Section Profits.
  Variable S : wsorter.
  Variable d : wdf.
  Hypothesis Hq : w_qty_nonneg d.
  Hypothesis Hs : asks_not_negative d.
  Hypothesis N : NoDup (map w_lbl d).
  Variables (ts : list (atrans Qc num)) (q p : num).
  Hypothesis E : w_uniform_run S d = Ok (ts, Some (q, p)).

  Theorem uniform_players : Forall (at_least 0) (w_players d ts w_price).
  Proof.
    apply zero_floor. apply players_floor; [qlra|]. intros tr Htr. destruct (join_in _ _ _ Htr) as (I1 & I2 & I3).
    destruct (run_fair S d ts q p Hq Hs E) as (_ & c & ss & bs & _ & _ & PP & _ & _ & Fs & Fb & _).
    assert (K : forall b, fair_trans d b p (fst tr) -> 0 <= x_qty (fst tr) /\ tolerant 0 (w_rent w_price tr)).
    { intros b (x & Hx & Bx & Lx & Q0 & _ & _ & _ & _ & R). split; [exact Q0|]. assert (Ex : x = snd tr) by (apply (unique_row d); auto; congruence). subst x.
      rewrite rent_gap. apply gap_le. unfold respects in R. exact R. }
    apply (Permutation_in _ PP) in I1. apply in_app_or in I1. destruct I1 as [I1|I1]; [apply (K false), Fs, I1 | apply (K true), Fb, I1].
  Qed.

  Lemma moved_fair b l : (forall t, In t l -> fair_trans d b p t) -> w_moved b d l = qsumf x_qty l /\ w_moved (negb b) d l = 0.
  Proof.
    intro H. unfold w_moved.
    assert (K : forall c t, In t l -> existsb (fun x => Nat.eqb (w_lbl x) (x_bid t) && Bool.eqb (w_buying x) c) d = Bool.eqb b c).
    { intros c t Ht. destruct (H t Ht) as (x & Hx & Bx & Lx & _). rewrite Lx, (side_of d d x c N (fun y Hy => Hy) Hx), Bx. reflexivity. }
    split; [rewrite filter_all; [reflexivity|]; intros t Ht; rewrite (K b t Ht); apply Bool.eqb_reflx|].
    rewrite filter_none; [reflexivity|]. intros t Ht. rewrite (K (negb b) t Ht). destruct b; reflexivity.
  Qed.
  Lemma moved_app b l1 l2 : w_moved b d (l1 ++ l2) = w_moved b d l1 + w_moved b d l2.
  Proof. unfold w_moved. rewrite filter_app, qsumf_app. reflexivity. Qed.
  Lemma moved_perm b l1 l2 : Permutation l1 l2 -> w_moved b d l1 = w_moved b d l2.
  Proof. intro P. unfold w_moved. apply qsumf_perm, filter_perm, P. Qed.

  (** at a finite price the market maker keeps the fees only *)
  Theorem uniform_maker r fees : p = Fin r -> w_market d ts fees = nadd (Fin 0) (nsum fees).
  Proof.
    intro Ep. destruct (run_fair S d ts q p Hq Hs E) as (_ & c & ss & bs & _ & _ & PP & Ss & Sb & Fs & Fb & _).
    assert (T : forall t, In t ts -> x_price t = Fin r /\ exists x, In x d /\ w_lbl x = x_bid t).
    { intros t Ht. apply (Permutation_in _ PP) in Ht. apply in_app_or in Ht.
      destruct Ht as [Ht|Ht]; [destruct (Fs t Ht) as (x & H)|destruct (Fb t Ht) as (x & H)]; (split; [rewrite <- Ep; apply H | exists x; split; [apply H | symmetry; apply H]]). }
    rewrite <- (app_nil_r ts). rewrite (two_prices d d d r r ts [] fees N (fun y H => H) (fun y H => H) T) by (intros t []).
    assert (Mt : w_moved true d ts = w_moved false d ts).
    { rewrite !(moved_perm _ _ _ PP), !moved_app. destruct (moved_fair _ _ Fs) as [A1 A2], (moved_fair _ _ Fb) as [B1 B2]. cbn [negb] in *. rewrite A1, A2, B1, B2. rewrite Ss, Sb. ring. }
    rewrite Mt. do 2 f_equal. unfold w_moved. cbn [filter]. rewrite !qsumf_nil. ring.
  Qed.

  (** at an infinite price its profit is NaN *)
  Lemma turnover_infinite b : (forall t, In t ts -> x_price t = PInf) -> (exists t x, In t ts /\ In x d /\ x_bid t = w_lbl x /\ w_buying x = b) ->
    w_turnover b d ts = NaN \/ w_turnover b d ts = PInf.
  Proof.
    intros H (t & x & Ht & Hx & Lx & Bx). unfold w_turnover. cbn zeta. destruct (existsb _ _); [auto|]. right.
    rewrite (proj2 (existsb_exists _ _)); [reflexivity|]. exists (t, x). split.
    - apply filter_In. split; [|cbn; rewrite Bx; apply Bool.eqb_reflx]. unfold w_join. apply in_flat_map. exists t. split; [exact Ht|]. apply in_map_iff. exists x. split; [reflexivity|].
      apply filter_In. split; [exact Hx|]. rewrite Lx. apply Nat.eqb_refl.
    - cbn [fst]. rewrite (H t Ht). reflexivity.
  Qed.
  Theorem uniform_maker_infinite fees : p = PInf -> w_market d ts fees = NaN.
  Proof.
    intro Ep. destruct (run_fair S d ts q p Hq Hs E) as (_ & c & ss & bs & _ & _ & PP & _ & _ & Fs & Fb & _).
    assert (T : forall t, In t ts -> x_price t = PInf /\ 0 <= x_qty t).
    { intros t Ht. apply (Permutation_in _ PP) in Ht. apply in_app_or in Ht.
      destruct Ht as [Ht|Ht]; [destruct (Fs t Ht) as (x & H)|destruct (Fb t Ht) as (x & H)]; (split; [rewrite <- Ep; apply H | apply H]). }
    rewrite market_exact.
    2:{ intros tr Htr. destruct (join_in _ _ _ Htr) as (I1 & _). destruct (T _ I1) as [-> ?]. split; [assumption|]. split; discriminate. }
    assert (K : forall b, exists t x, In t ts /\ In x d /\ x_bid t = w_lbl x /\ w_buying x = b).
    { intro b. unfold w_uniform_run in E. destruct (_ || _) in E; [discriminate|].
      destruct (uniform_cases S d Hq Hs) as [[C _]|(ts' & q' & p' & C & Cl & _)]; rewrite C in E; [discriminate|]. injection E as E1 E2 E3. subst ts'. clear C.
      destruct Cl as (B1 & rb & B2 & L1 & rs & L2 & EB & EL & _ & H). cbn zeta in H.
      assert (Ib : In rb d /\ w_buying rb = true) by (apply (in_B S d); rewrite EB; apply in_or_app; right; left; reflexivity).
      assert (Is : In rs d /\ w_buying rs = false) by (apply (in_L S d); rewrite EL; apply in_or_app; right; left; reflexivity).
      assert (In (w_lbl rb) (map x_bid ts) /\ In (w_lbl rs) (map x_bid ts)) as [Jb Js].
      { destruct H as (_ & _ & _ & [(_ & _ & ->)|[(_ & _ & ->)|(_ & _ & ->)]]); rewrite map_app, in_full_bids, last_part_bids, !map_app, !in_app_iff; cbn [map In]; tauto. }
      destruct b; [apply in_map_iff in Jb; destruct Jb as (t & L & It); exists t, rb | apply in_map_iff in Js; destruct Js as (t & L & It); exists t, rs]; tauto. }
    destruct (turnover_infinite true (fun t Ht => proj1 (T t Ht)) (K true)) as [->| ->], (turnover_infinite false (fun t Ht => proj1 (T t Ht)) (K false)) as [->| ->]; cbn; destruct (nsum fees); reflexivity.
  Qed.
End Profits.
