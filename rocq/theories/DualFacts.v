(** Curves and prices of the mirror image of a market. *)
From Verif Require Import QcTac Num NumFacts ModelBase ModelCurves ModelHuang ModelMuda ListFacts Spec SpecTrade SpecMuda SpecDual
  Sorter CurveFacts IntersectFacts CurveTop UpdateFacts MudaPrice HuangFacts.

(** ** Rows *)
Lemma flip_flip M r : flip M (flip M r) = r.
Proof. destruct r. unfold flip. cbn [ModelBase.lbl ModelBase.qty ModelBase.price ModelBase.user ModelBase.buying ModelBase.time ModelBase.divisible]. rewrite negb_involutive. f_equal. ring. Qed.
Lemma flip_all M l : map (flip M) (map (flip M) l) = l.
Proof. rewrite map_map. rewrite <- (map_id l) at 2. apply map_ext. apply flip_flip. Qed.
Lemma flip_buyers M d : buyers (map (flip M) d) = map (flip M) (sellers d).
Proof. unfold buyers, sellers. rewrite filter_map. reflexivity. Qed.
Lemma flip_sellers M d : sellers (map (flip M) d) = map (flip M) (buyers d).
Proof. unfold buyers, sellers. rewrite filter_map. f_equal. apply filter_ext. intro r. cbn [flip buying]. apply negb_involutive. Qed.
Lemma flip_qty M l : map qty (map (flip M) l) = map qty l.
Proof. rewrite map_map. reflexivity. Qed.
Lemma flip_lbl M l : map lbl (map (flip M) l) = map lbl l.
Proof. rewrite map_map. reflexivity. Qed.
Lemma flip_nonneg M d : qty_nonneg d -> qty_nonneg (map (flip M) d).
Proof. intros H r Hr. apply in_map_iff in Hr. destruct Hr as (x & <- & Hx). exact (H x Hx). Qed.
Lemma flip_inside M d : inside M d -> inside M (map (flip M) d).
Proof. intros H r Hr. apply in_map_iff in Hr. destruct Hr as (x & <- & Hx). destruct (H x Hx). cbn [flip price]. split; qlra. Qed.
Lemma inside_nonneg M d : inside M d -> price_nonneg d.
Proof. intros H r Hr. destruct (H r Hr). qlra. Qed.
Lemma mirrored_sym M S S' : mirrored M S S' -> mirrored M S' S.
Proof.
  intros H l. destruct (H (map (flip M) l)) as [H1 H2]. rewrite flip_all in H1, H2. rewrite H1, H2, !flip_all. split; reflexivity.
Qed.

(** ** Values *)
Inductive opp (M : Qc) : num -> num -> Prop :=
| opp_in p : 0 < p -> p < M -> opp M (Fin p) (Fin (M - p))
| opp_low : opp M (Fin 0) PInf
| opp_high : opp M PInf (Fin 0).
Lemma opp_sym M a b : opp M a b -> opp M b a.
Proof. intro H. destruct H; try constructor. replace (Fin p) with (Fin (M - (M - p))) by (f_equal; ring). constructor; qlra. Qed.
Lemma opp_ltb M a a' b b' : opp M a a' -> opp M b b' -> nltb a b = nltb b' a'.
Proof.
  intros H H'. destruct H as [p P1 P2| |], H' as [q Q1 Q2| |]; cbn [nltb]; try reflexivity.
  - destruct (qlt_spec p q), (qlt_spec (M - q) (M - p)); try reflexivity; exfalso; qlra.
  - destruct (qlt_spec p 0); [exfalso; qlra | reflexivity].
  - destruct (qlt_spec 0 (M - p)); [reflexivity | exfalso; qlra].
  - destruct (qlt_spec 0 q); [reflexivity | exfalso; qlra].
  - destruct (qlt_spec (M - q) 0); [exfalso; qlra | reflexivity].
Qed.
Definition crel (M : Qc) (f g : steps) : Prop := Forall2 (fun p p' => fst p' = fst p /\ opp M (snd p) (snd p')) f g.
Lemma crel_sym M f g : crel M f g -> crel M g f.
Proof. intro H. induction H as [|p p' f g [E O] H IH]; constructor; [split; [congruence | apply opp_sym, O] | exact IH]. Qed.
Lemma Forall2_nth_some {X Y} (P : X -> Y -> Prop) l l' : Forall2 P l l' -> forall i a, nth_error l i = Some a -> exists b, nth_error l' i = Some b /\ P a b.
Proof. intro H. induction H as [|x y l l' Hxy H IH]; intros [|i] a E; try discriminate E; cbn [nth_error] in *; [injection E as <-; eauto | eauto]. Qed.
Lemma crel_step M f g x i u : crel M f g -> StepAt f x i u -> exists u', StepAt g x i u' /\ opp M u u'.
Proof.
  intros H ((a & E & L) & Before). destruct (Forall2_nth_some _ _ _ H _ _ E) as ([a' u'] & E' & X & O). cbn [fst snd] in *. subst a'.
  exists u'. split; [|exact O]. split; [exists a; auto|]. intros j b w Lj Ej. apply crel_sym in H.
  destruct (Forall2_nth_some _ _ _ H _ _ Ej) as ([b' w'] & Eb & X & _). cbn [fst snd] in X. subst b'. exact (Before j b w' Lj Eb).
Qed.
Lemma crel_both M f g f' g' x : crel M f g' -> crel M g f' -> both_defined f g x -> both_defined f' g' x.
Proof.
  intros H H' [(i & u & F) (j & w & G)]. destruct (crel_step _ _ _ _ _ _ H F) as (u' & F' & _). destruct (crel_step _ _ _ _ _ _ H' G) as (w' & G' & _).
  split; eauto.
Qed.
Lemma crel_end M f g x : crel M f g -> (is_end f x <-> is_end g x).
Proof.
  assert (K : forall f g, crel M f g -> is_end f x -> is_end g x).
  { intros f0 g0 H (v & I). apply In_nth_error in I. destruct I as (i & E). destruct (Forall2_nth_some _ _ _ H _ _ E) as ([a w] & E' & X & _).
    cbn [fst] in X. subst a. exists w. eapply nth_error_In, E'. }
  intro H. split; apply K; [exact H | apply crel_sym, H].
Qed.
Lemma crel_crossing M f g f' g' x : crel M f g' -> crel M g f' -> Crossing f g x -> Crossing f' g' x.
Proof.
  intros H H' (P & B & (y & Ly & By) & C). split; [exact P|]. split; [exact (crel_both _ _ _ _ _ _ H H' B)|].
  split; [exists y; split; [exact Ly | exact (crel_both _ _ _ _ _ _ H H' By)]|].
  intros z i u' j w' Z F G. apply crel_sym in H, H'. destruct (crel_step _ _ _ _ _ _ H' F) as (w & F' & O1). destruct (crel_step _ _ _ _ _ _ H G) as (u & G' & O2).
  destruct (C z j u i w Z G' F') as [C1 C2]. rewrite (opp_ltb M w' u u' w O2 O1), (opp_ltb M u' w w' u O1 O2). split; assumption.
Qed.

(** ** Curves *)
Section Dual.
  Variables (M : Qc) (S S' : sorter) (d : df).
  Hypothesis Hq : qty_nonneg d.
  Hypothesis Hin : inside M d.
  Hypothesis Hm : mirrored M S S'.
  Notation d' := (map (flip M) d).
  Notation f := (fst (demand_curve_from_bids S d)).
  Notation g := (fst (supply_curve_from_bids S d)).
  Notation f' := (fst (demand_curve_from_bids S' d')).
  Notation g' := (fst (supply_curve_from_bids S' d')).

  Lemma desc_flip : s_desc S' (buyers d') = map (flip M) (s_asc S (sellers d)).
  Proof. rewrite flip_buyers. apply Hm. Qed.
  Lemma asc_flip : s_asc S' (sellers d') = map (flip M) (s_desc S (buyers d)).
  Proof. rewrite flip_sellers. apply Hm. Qed.
  Lemma rows_crel l : (forall r, In r l -> 0 < price r /\ price r < M) -> forall a t t', crel M t t' -> crel M (crows a l ++ t) (crows a (map (flip M) l) ++ t').
  Proof.
    induction l as [|r l IH]; intros H a t t' T; [exact T|]. cbn [map]. rewrite !crows_cons. constructor.
    - cbn [fst snd flip price qty]. split; [reflexivity|]. destruct (H r (or_introl eq_refl)). constructor; assumption.
    - apply IH; [intros; apply H; right; assumption | exact T].
  Qed.
  Lemma demand_crel : crel M g f'.
  Proof.
    unfold demand_curve_from_bids, supply_curve_from_bids. rewrite desc_flip. cbn [fst]. rewrite !curve_rows_crows. apply rows_crel.
    - intros r Hr. apply Hin. apply (Permutation_in _ (s_asc_perm S _)) in Hr. apply filter_In in Hr. tauto.
    - constructor; [split; [reflexivity | constructor] | constructor].
  Qed.
  Lemma supply_crel : crel M f g'.
  Proof.
    unfold demand_curve_from_bids, supply_curve_from_bids. rewrite asc_flip. cbn [fst]. rewrite !curve_rows_crows. apply rows_crel.
    - intros r Hr. apply Hin. apply (Permutation_in _ (s_desc_perm S _)) in Hr. apply filter_In in Hr. tauto.
    - constructor; [split; [reflexivity | constructor] | constructor].
  Qed.
  Lemma crossing_flip x : Crossing f g x <-> Crossing f' g' x.
  Proof.
    split; apply (crel_crossing M); try exact demand_crel; try exact supply_crel; apply crel_sym; [exact demand_crel | exact supply_crel].
  Qed.
  Let Hp : price_nonneg d := inside_nonneg M d Hin.
  Let Hq' : qty_nonneg d' := flip_nonneg M d Hq.
  Let Hp' : price_nonneg d' := inside_nonneg M d' (flip_inside M d Hin).

  Lemma half_flip a b : (M - a) * qf 1 2 + (1 - qf 1 2) * (M - b) = M - (b * qf 1 2 + (1 - qf 1 2) * a).
  Proof. replace (1 - qf 1 2) with (qf 1 2) by (apply Qc_is_canon; reflexivity). assert (H : qf 1 2 + qf 1 2 = 1) by (apply Qc_is_canon; reflexivity).
    replace (M - (b * qf 1 2 + qf 1 2 * a)) with ((qf 1 2 + qf 1 2) * M - (b * qf 1 2 + qf 1 2 * a)) by (rewrite H; ring). ring. Qed.

  (** the crossing of the mirror image *)
  Theorem intersect_flip :
    (exists c i j u w v, intersect_stepwise f g (qf 1 2) = Ok (Some (Fin c), Some i, Some j, Fin v) /\
       intersect_stepwise f' g' (qf 1 2) = Ok (Some (Fin c), Some j, Some i, Fin (M - v)) /\
       StepAt f (Fin c) i (Fin u) /\ StepAt g (Fin c) j (Fin w) /\ w < u) \/
    (intersect_stepwise f g (qf 1 2) = Ok (None, None, None, PInf) /\ intersect_stepwise f' g' (qf 1 2) = Ok (None, None, None, PInf)).
  Proof.
    pose proof (demand_nonempty S d) as Nf. pose proof (supply_nonempty S d) as Ng. pose proof (demand_ends S d Hq) as Ef. pose proof (supply_ends S d Hq) as Eg.
    pose proof (demand_decreasing S d Hp) as Df. pose proof (supply_increasing S d) as Ig.
    pose proof (demand_nonempty S' d') as Nf'. pose proof (supply_nonempty S' d') as Ng'. pose proof (demand_ends S' d' Hq') as Ef'. pose proof (supply_ends S' d' Hq') as Eg'.
    pose proof (demand_decreasing S' d' Hp') as Df'. pose proof (supply_increasing S' d') as Ig'.
    destruct (intersect_spec f g Ef Eg Df Ig Nf Ng (qf 1 2)) as [(x & i & u & j & w & E & C & B & Su & Sw)|(xm & i & u & j & w & E & N & _ & Hd & H0 & Su & Sw)].
    - left. pose proof (proj1 (crossing_flip x) C) as C'.
      destruct (intersect_cases f' g' (qf 1 2) Nf' Ng' Ef' Eg' Df' Ig') as [(x' & i' & j' & u' & w' & v' & E' & C'' & _ & Su' & Sw')|(v' & _ & Nc)]; [|destruct (Nc x C')].
      rewrite (crossing_unique _ _ _ _ C'' C') in *. clear C'' x'.
      assert (L : nlt w u) by (destruct C as (P & _ & _ & H); apply (H x i u j w P Su Sw); apply nle_refl; apply nle_ok in P; tauto).
      destruct (crel_step _ _ _ _ _ _ supply_crel Su) as (ru & T1 & O1). destruct (crel_step _ _ _ _ _ _ demand_crel Sw) as (rw & T2 & O2).
      destruct (StepAt_fun _ _ _ _ _ _ T1 Sw') as [<- <-]. destruct (StepAt_fun _ _ _ _ _ _ T2 Su') as [<- <-].
      assert (F : exists a b, u = Fin a /\ w = Fin b /\ ru = Fin (M - a) /\ rw = Fin (M - b) /\ b < a).
      { destruct O1 as [a A1 A2| |].
        - destruct O2 as [b B1 B2| |].
          + exists a, b. apply nlt_Fin in L. auto.
          + exfalso. destruct (g_vals S d _ _ _ Sw) as [X|(r & R & _ & X)]; [discriminate X|]. injection X as X. destruct (Hin r R) as [R1 _]. rewrite <- X in R1. qlra.
          + discriminate L.
        - exfalso. destruct O2 as [b B1 B2| |]; [apply nlt_Fin in L; qlra | apply nlt_Fin in L; qlra | discriminate L].
        - exfalso. destruct (f_vals S d _ _ _ Su) as [X|(r & _ & _ & X)]; discriminate X. }
      destruct F as (a & b & -> & -> & -> & -> & Lba).
      assert (Fx : exists c, x = Fin c).
      { pose proof C as (P & _ & (y & Ly & _) & _). destruct x as [c| | |]; [eauto | destruct y; discriminate | discriminate | discriminate]. }
      destruct Fx as (c & ->).
      pose proof (ordinate_exact f g (qf 1 2) (Fin c) i j a b _ Nf Ng Ef Eg Df Ig E Su Sw) as (V1 & V2 & V3).
      pose proof (ordinate_exact f' g' (qf 1 2) (Fin c) j i (M - b) (M - a) _ Nf' Ng' Ef' Eg' Df' Ig' E' Su' Sw') as (W1 & W2 & W3).
      pose proof (crel_end M f g' (Fin c) supply_crel) as EB. pose proof (crel_end M g f' (Fin c) demand_crel) as EA.
      pose proof (mem_col_iff f (Fin c) Ef) as Mf. pose proof (mem_col_iff g (Fin c) Eg) as Mg.
      set (v := ordinate f g (Some (Fin c)) (Fin b) (Fin a) (qf 1 2)) in *.
      destruct (mem_col (Some (Fin c)) f), (mem_col (Some (Fin c)) g).
      + assert (If : is_end f (Fin c)) by (apply Mf; reflexivity). assert (Ig0 : is_end g (Fin c)) by (apply Mg; reflexivity).
        rewrite (V1 (conj If Ig0)) in E. rewrite (W1 (conj (proj1 EA Ig0) (proj1 EB If))) in E'. rewrite half_flip in E'.
        exists c, i, j, a, b, (b * qf 1 2 + (1 - qf 1 2) * a). auto.
      + assert (If : is_end f (Fin c)) by (apply Mf; reflexivity). assert (Ig0 : ~ is_end g (Fin c)) by (intro X; apply Mg in X; discriminate X).
        rewrite (V2 (conj If Ig0)) in E. rewrite (W3 (conj (fun X => Ig0 (proj2 EA X)) (proj1 EB If))) in E'. exists c, i, j, a, b, b. auto.
      + assert (If : ~ is_end f (Fin c)) by (intro X; apply Mf in X; discriminate X). assert (Ig0 : is_end g (Fin c)) by (apply Mg; reflexivity).
        rewrite (V3 (conj If Ig0)) in E. rewrite (W2 (conj (proj1 EA Ig0) (fun X => If (proj2 EB X)))) in E'. exists c, i, j, a, b, a. auto.
      + exfalso. destruct B as [B|B]; [apply Mf in B | apply Mg in B]; discriminate B.
    - right.
      assert (K : forall T e v, qty_nonneg e -> price_nonneg e -> intersect_stepwise (fst (demand_curve_from_bids T e)) (fst (supply_curve_from_bids T e)) (qf 1 2) = Ok (None, None, None, v) -> v = PInf).
      { intros T e v Qe Pe Ee. destruct (price_cases T e Qe Pe) as [[X _]|(p & c & i0 & u0 & j0 & w0 & _ & C & _)].
        - unfold find_competitive_price in X. rewrite Ee in X. cbn [bind] in X. injection X as ->. reflexivity.
        - exfalso. destruct (intersect_cases _ _ (qf 1 2) (demand_nonempty T e) (supply_nonempty T e) (demand_ends T e Qe) (supply_ends T e Qe) (demand_decreasing T e Pe) (supply_increasing T e))
            as [(x1 & i1 & j1 & u1 & w1 & v1 & E1 & _)|(v1 & _ & Nc)]; [rewrite Ee in E1; discriminate E1 | exact (Nc _ C)]. }
      destruct (intersect_cases f' g' (qf 1 2) Nf' Ng' Ef' Eg' Df' Ig') as [(x' & i' & j' & u' & w' & v' & E' & C'' & _)|(v' & E' & _)]; [destruct (N x' (proj2 (crossing_flip x') C''))|].
      rewrite (K S d _ Hq Hp E) in E. rewrite (K S' d' _ Hq' Hp' E') in E'. auto.
  Qed.
  Theorem price_flip : exists v, find_competitive_price S d = Ok v /\ find_competitive_price S' d' = Ok (flip_num M v) /\ (v = PInf \/ exists p, v = Fin p).
  Proof.
    unfold find_competitive_price. destruct intersect_flip as [(c & i & j & u & w & v & -> & -> & _)|[-> ->]]; cbn [bind]; [exists (Fin v) | exists PInf]; eauto.
  Qed.
End Dual.
