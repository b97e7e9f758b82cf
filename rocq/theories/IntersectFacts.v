(** Facts about [intersect_stepwise]. *)
From Verif Require Import QcTac Num ModelBase ModelCurves NumFacts ListFacts Spec CurveFacts.

(** ** The list of common abscissae *)
Lemma nmem_In x l : (forall y, In y l -> ok y) -> (nmem x l = true <-> In x l).
Proof.
  intro Ho. unfold nmem. rewrite existsb_exists. split.
  - intros (y & H & E). apply neqb_eq in E. congruence.
  - intro H. exists x. split; [exact H | apply neqb_refl, Ho, H].
Qed.
Lemma ndedup_In x l : (forall y, In y l -> ok y) -> (In x (ndedup l) <-> In x l).
Proof.
  intro Ho. induction l as [|a l IH]; simpl; [tauto|].
  assert (Ho' : forall y, In y l -> ok y) by (intros; apply Ho; right; assumption).
  destruct (nmem a l) eqn:E.
  - apply nmem_In in E; [|assumption]. rewrite IH by assumption. split; [tauto|]. intros [<-|]; assumption.
  - simpl. rewrite IH by assumption. tauto.
Qed.
Lemma ndedup_NoDup l : (forall y, In y l -> ok y) -> NoDup (ndedup l).
Proof.
  intro Ho. induction l as [|a l IH]; simpl; [constructor|].
  assert (Ho' : forall y, In y l -> ok y) by (intros; apply Ho; right; assumption).
  destruct (nmem a l) eqn:E; [auto|]. constructor; [|auto].
  rewrite ndedup_In by assumption. intro H. apply nmem_In in H; [congruence | assumption].
Qed.
Lemma ninsert_In x y l : In y (ninsert x l) <-> y = x \/ In y l.
Proof.
  induction l as [|a l IH]; simpl; [intuition|].
  destruct (nleb x a); simpl; [intuition|]. rewrite IH. intuition.
Qed.
Lemma nsort_In x l : In x (nsort l) <-> In x l.
Proof.
  induction l as [|a l IH]; simpl; [tauto|]. rewrite ninsert_In, IH. intuition.
Qed.
Lemma ninsert_sorted x l : ok x -> (forall y, In y l -> ok y) -> ~ In x l ->
  StronglySorted nlt l -> StronglySorted nlt (ninsert x l).
Proof.
  intros Hx Ho Hn H. induction H as [|a l H IH Ha]; simpl.
  - constructor; constructor.
  - destruct (nleb x a) eqn:E.
    + assert (L : nlt x a).
      { destruct (nle_lt_eq _ _ E) as [L|E']; [exact L|]. exfalso. apply Hn. left. auto. }
      constructor; [constructor; assumption|]. constructor; [exact L|].
      rewrite Forall_forall in *. intros y Hy. apply (nlt_trans _ a); auto.
    + constructor.
      * apply IH; intros; [apply Ho; right; assumption|]. intro H'. apply Hn. right. exact H'.
      * rewrite Forall_forall in *. intros y Hy. apply ninsert_In in Hy. destruct Hy as [->|Hy]; [|auto].
        apply nleb_false in E; [exact E | exact Hx | apply Ho; left; reflexivity].
Qed.
Lemma nsort_sorted l : (forall y, In y l -> ok y) -> NoDup l -> StronglySorted nlt (nsort l).
Proof.
  intros Ho H. induction H as [|a l Hn H IH]; simpl; [constructor|].
  apply ninsert_sorted.
  - apply Ho; left; reflexivity.
  - intros y Hy. rewrite nsort_In in Hy. apply Ho; right; exact Hy.
  - rewrite nsort_In. exact Hn.
  - apply IH. intros; apply Ho; right; assumption.
Qed.

Lemma fold_nmax l a : ok a -> (forall y, In y l -> ok y) ->
  let m := fold_left nmax l a in (m = a \/ In m l) /\ nle a m /\ forall y, In y l -> nle y m.
Proof.
  revert a; induction l as [|b l IH]; intros a Ha Ho; simpl.
  - repeat split; auto; [apply nle_refl, Ha | contradiction].
  - assert (Hb : ok b) by (apply Ho; left; reflexivity).
    assert (Ho' : forall y, In y l -> ok y) by (intros; apply Ho; right; assumption).
    destruct (nmax_cases a b Ha Hb) as [[E L]|[E L]]; rewrite E.
    + destruct (IH a Ha Ho') as (H1 & H2 & H3). repeat split; auto.
      * destruct H1; auto.
      * intros y [<-|Hy]; [|auto]. apply (nle_trans _ a); assumption.
    + destruct (IH b Hb Ho') as (H1 & H2 & H3). repeat split.
      * destruct H1; auto.
      * apply (nle_trans _ b); assumption.
      * intros y [<-|Hy]; auto.
Qed.

Lemma ends_ok f p : ends_sorted f -> In p f -> ok (fst p).
Proof. intros [H _] Hp. apply H in Hp. apply nle_ok in Hp. tauto. Qed.

Lemma col_max_spec f : f <> [] -> ends_sorted f ->
  exists m, col_max f = Ok m /\ is_end f m /\ (forall x, is_end f x -> nle x m) /\ nle (Fin 0) m.
Proof.
  intros Hne Hs. unfold col_max. destruct f as [|[a v] f]; [congruence|]. simpl.
  assert (Ha : ok a) by (apply (ends_ok _ (a, v) Hs); left; reflexivity).
  assert (Ho : forall y, In y (map fst f) -> ok y).
  { intros y Hy. apply in_map_iff in Hy. destruct Hy as (p & <- & Hp). apply (ends_ok _ p Hs). right; exact Hp. }
  destruct (fold_nmax (map fst f) a Ha Ho) as (H1 & H2 & H3).
  exists (fold_left nmax (map fst f) a). split; [reflexivity|]. repeat split.
  - destruct H1 as [->|H1]; [exists v; left; reflexivity|].
    apply in_map_iff in H1. destruct H1 as ([b w] & E & Hp). simpl in E. rewrite <- E. exists w. right; exact Hp.
  - intros x (w & [E|Hp]); [injection E as <- <-; exact H2|].
    apply H3. apply in_map_iff. exists (x, w). split; [reflexivity | exact Hp].
  - destruct Hs as [Hs _]. apply (nle_trans _ a); [|exact H2]. apply (Hs (a, v)). left; reflexivity.
Qed.

Lemma is_end_fst f x : is_end f x <-> In x (map fst f).
Proof.
  unfold is_end. rewrite in_map_iff. split.
  - intros (v & H). exists (x, v). auto.
  - intros ([a v] & E & H). simpl in E. subst. eauto.
Qed.

Section Common.
  Variables f g : steps.
  Hypothesis Hf : ends_sorted f.
  Hypothesis Hg : ends_sorted g.
  Variable xm : num.

  Lemma common_ok y : In y (map fst g ++ map fst f) -> ok y.
  Proof.
    intro H. apply in_app_or in H. destruct H as [H|H]; apply in_map_iff in H; destruct H as (p & <- & Hp).
    - exact (ends_ok g p Hg Hp).
    - exact (ends_ok f p Hf Hp).
  Qed.
  Lemma common_In x : In x (common_xs f g xm) <-> (is_end f x \/ is_end g x) /\ nle x xm.
  Proof.
    unfold common_xs. rewrite nsort_In, filter_In, ndedup_In by apply common_ok.
    rewrite in_app_iff, !is_end_fst. unfold nle. tauto.
  Qed.
  Lemma common_sorted : StronglySorted nlt (common_xs f g xm).
  Proof.
    unfold common_xs. apply nsort_sorted.
    - intros y Hy. apply filter_In in Hy. destruct Hy as [Hy _]. rewrite ndedup_In in Hy by apply common_ok.
      apply common_ok, Hy.
    - apply NoDup_filter, ndedup_NoDup, common_ok.
  Qed.
End Common.

(** ** The scan *)
Lemma scan_spec (F G : num -> num) xs acc :
  exists r, scan (map (fun x => (x, Some (F x), Some (G x))) xs) acc = Ok r /\
  ((exists l1 x y l2, xs = l1 ++ x :: y :: l2 /\ nlt (G x) (F x) /\ nlt (F y) (G y) /\ r = Some x) \/
   (r = acc /\ forall l1 x y l2, xs = l1 ++ x :: y :: l2 -> ~ (nlt (G x) (F x) /\ nlt (F y) (G y)))).
Proof.
  revert acc; induction xs as [|x xs IH]; intro acc.
  - exists acc. split; [reflexivity|]. right. split; [reflexivity|].
    intros [|? ?] ? ? ? E; discriminate.
  - destruct xs as [|y xs].
    + exists acc. split; [reflexivity|]. right. split; [reflexivity|].
      intros [|? [|? ?]] ? ? ? E; simpl in E; congruence.
    + set (rest := y :: xs) in *.
      assert (St : scan (map (fun x => (x, Some (F x), Some (G x))) (x :: rest)) acc =
        scan (map (fun x => (x, Some (F x), Some (G x))) rest)
          (if nltb (G x) (F x) && nltb (F y) (G y) then Some x else acc)).
      { unfold rest. cbn [map scan opt_gt opt_lt bind].
        destruct (nltb (G x) (F x)); [|reflexivity]. cbn [bind andb].
        destruct (nltb (F y) (G y)); reflexivity. }
      rewrite St.
      destruct (nltb (G x) (F x) && nltb (F y) (G y)) eqn:C.
      * destruct (IH (Some x)) as (r & E & H). exists r. split; [exact E|]. left.
        apply andb_prop in C. destruct C as [C1 C2].
        destruct H as [(l1 & a & b & l2 & E1 & H1 & H2 & H3)|[H1 _]].
        -- exists (x :: l1), a, b, l2. rewrite E1. auto.
        -- exists [], x, y, xs. auto.
      * destruct (IH acc) as (r & E & H). exists r. split; [exact E|].
        destruct H as [(l1 & a & b & l2 & E1 & H1 & H2 & H3)|[H1 H2]].
        -- left. exists (x :: l1), a, b, l2. rewrite E1. auto.
        -- right. split; [exact H1|]. intros [|c l1] a b l2 E1 [N1 N2].
           ++ simpl in E1. unfold rest in E1. injection E1 as <- <- <-.
              unfold nlt in *. rewrite N1, N2 in C. discriminate.
           ++ simpl in E1. injection E1 as <- E1. apply (H2 l1 a b l2 E1). auto.
Qed.

Lemma argmax_StepAt f x i v : StepAt f x i v -> argmax_bool (map (fun p => nleb x (fst p)) f) = i.
Proof.
  intros ((a & H1 & H2) & H3). unfold argmax_bool.
  assert (E : first_true (map (fun p : num * num => nleb x (fst p)) f) = Some i).
  { revert i H1 H3. induction f as [|[b w] f IH]; intros [|i] H1 H3; simpl in *; try discriminate.
    - injection H1 as -> ->. rewrite H2. reflexivity.
    - rewrite (H3 0%nat b w) by (reflexivity || lia). rewrite (IH i); [reflexivity | exact H1|].
      intros j c u L Hj. apply (H3 (S j) c u); [lia | exact Hj]. }
  rewrite E. reflexivity.
Qed.

Lemma sorted_nlt_between l1 x y l2 z : StronglySorted nlt (l1 ++ x :: y :: l2) ->
  In z (l1 ++ x :: y :: l2) -> nle z x \/ nle y z.
Proof.
  intros H Hz. pose proof (sorted_app _ _ _ _ H) as (A1 & A2 & _ & A4 & _).
  apply in_app_or in Hz. destruct Hz as [Hz|[<-|Hz]].
  - left. apply nlt_le, A1, Hz.
  - left. specialize (A2 y (or_introl eq_refl)). apply nlt_ok in A2. apply nle_refl; tauto.
  - right. destruct Hz as [<-|Hz].
    + specialize (A2 y (or_introl eq_refl)). apply nlt_ok in A2. apply nle_refl; tauto.
    + inversion_clear A4 as [|? ? _ H2]. rewrite Forall_forall in H2. apply nlt_le, H2, Hz.
Qed.

Definition fval (f : steps) (x : num) : num := match get_value_stepwise x f with Some v => v | None => NaN end.

(** ** The main statement *)
Section Main.
  Variables f g : steps.
  Hypothesis Hf : ends_sorted f.
  Hypothesis Hg : ends_sorted g.
  Hypothesis Df : decreasing f.
  Hypothesis Ig : increasing g.
  Hypothesis Nf : f <> [].
  Hypothesis Ng : g <> [].

  Lemma fval_StepAt h x i v : nle (Fin 0) x -> StepAt h x i v -> fval h x = v /\ get_value_stepwise x h = Some v.
  Proof.
    intros H0 H. assert (E : get_value_stepwise x h = Some v) by (apply get_value_iff; [exact H0 | eauto]).
    unfold fval. rewrite E. auto.
  Qed.

  (** the end of the common domain *)
  Lemma x_max_spec : exists fm gm, col_max f = Ok fm /\ col_max g = Ok gm /\
    let xm := nmin fm gm in nle (Fin 0) xm /\ In xm (common_xs f g xm) /\
    (forall x, nle (Fin 0) x -> (nle x xm <-> both_defined f g x)).
  Proof.
    destruct (col_max_spec f Nf Hf) as (fm & Ef & If & Mf & Pf).
    destruct (col_max_spec g Ng Hg) as (gm & Eg & Ig' & Mg & Pg).
    exists fm, gm. repeat split; auto; simpl.
    - pose proof (nle_ok _ _ Pf). pose proof (nle_ok _ _ Pg).
      destruct (nmin_cases fm gm) as [[-> _]|[-> _]]; tauto.
    - apply common_In; auto. pose proof (nle_ok _ _ Pf). pose proof (nle_ok _ _ Pg).
      destruct (nmin_cases fm gm) as [[-> _]|[-> _]]; try tauto; (split; [tauto|]); apply nle_refl; tauto.
    - destruct If as (v & If). destruct Ig' as (w & Ig').
      pose proof (nle_ok _ _ Pf). pose proof (nle_ok _ _ Pg).
      apply (StepAt_exists f x (fm, v)); [assumption|]. simpl.
      destruct (nmin_cases fm gm) as [[E _]|[E L]]; try tauto; rewrite E in *; [assumption|].
      apply (nle_trans _ gm); assumption.
    - destruct If as (v & If). destruct Ig' as (w & Ig').
      pose proof (nle_ok _ _ Pf). pose proof (nle_ok _ _ Pg).
      apply (StepAt_exists g x (gm, w)); [assumption|]. simpl.
      destruct (nmin_cases fm gm) as [[E L]|[E L]]; try tauto; rewrite E in *; [|assumption].
      apply (nle_trans _ fm); assumption.
    - intros ((i & u & Hu) & (j & w & Hw)).
      apply StepAt_in in Hu. destruct Hu as (a & Ha & La & _).
      apply StepAt_in in Hw. destruct Hw as (b & Hb & Lb & _).
      pose proof (nle_ok _ _ Pf). pose proof (nle_ok _ _ Pg).
      destruct (nmin_cases fm gm) as [[-> L]|[-> L]]; try tauto.
      + apply (nle_trans _ a); [exact La|]. apply Mf. exists u; exact Ha.
      + apply (nle_trans _ b); [exact Lb|]. apply Mg. exists w; exact Hb.
  Qed.

  (** moving right from the last common abscissa before *)
  Lemma after_first xm l1 x y l2 z :
    common_xs f g xm = l1 ++ x :: y :: l2 -> nlt x z -> nle z y ->
    (forall i u, StepAt f y i u -> StepAt f z i u) /\ (forall j w, StepAt g y j w -> StepAt g z j w).
  Proof.
    intros E Lz Zy. pose proof (common_sorted f g Hf Hg xm) as So. rewrite E in So.
    assert (Yx : nle y xm).
    { assert (In y (common_xs f g xm)) by (rewrite E; apply in_or_app; right; right; left; reflexivity).
      apply common_In in H; tauto. }
    assert (K : forall p, In p f \/ In p g -> nle z (fst p) -> nle y (fst p)).
    { intros p Hp Lp. destruct (nle_total y (fst p)) as [C|C]; auto.
      - apply nle_ok in Zy; tauto.
      - apply nle_ok in Lp; tauto.
      - exfalso. assert (I : In (fst p) (common_xs f g xm)).
        { apply common_In; auto. split.
          - destruct Hp as [Hp|Hp]; [left|right]; exists (snd p); destruct p; exact Hp.
          - apply (nle_trans _ y); [apply nlt_le, C | exact Yx]. }
        rewrite E in I. destruct (sorted_nlt_between _ _ _ _ _ So I) as [C'|C'].
        + apply (nlt_not_le x (fst p)); [apply (nlt_le_trans _ z); assumption | exact C'].
        + apply (nlt_not_le (fst p) y); assumption. }
    split; intros i u H; (eapply StepAt_left; [exact Zy| |exact H]); intros p Hp Lp; apply K; auto.
  Qed.

  (** a change of sign at neighbouring abscissae is a crossing *)
  Lemma crossing_of_pair xm l1 x y l2 :
    (forall x, nle (Fin 0) x -> (nle x xm <-> both_defined f g x)) ->
    common_xs f g xm = l1 ++ x :: y :: l2 ->
    nlt (fval g x) (fval f x) -> nlt (fval f y) (fval g y) -> Crossing f g x.
  Proof.
    intros Hd E C1 C2.
    assert (Ix : In x (common_xs f g xm)) by (rewrite E; apply in_or_app; right; left; reflexivity).
    assert (Iy : In y (common_xs f g xm)) by (rewrite E; apply in_or_app; right; right; left; reflexivity).
    assert (P : forall z, In z (common_xs f g xm) -> nle (Fin 0) z).
    { intros z Hz. apply common_In in Hz; auto. destruct Hz as [[(v & H)|(v & H)] _].
      - destruct Hf as [Hp _]. apply (Hp _ H).
      - destruct Hg as [Hp _]. apply (Hp _ H). }
    assert (Dx : both_defined f g x) by (apply Hd; [auto | apply common_In in Ix; tauto]).
    assert (Dy : both_defined f g y) by (apply Hd; [auto | apply common_In in Iy; tauto]).
    pose proof (common_sorted f g Hf Hg xm) as So. rewrite E in So.
    pose proof (sorted_app _ _ _ _ So) as (_ & A2 & _).
    assert (Lxy : nlt x y) by (apply A2; left; reflexivity).
    split; [apply P, Ix|]. split; [exact Dx|]. split; [exists y; split; assumption|].
    destruct Dx as ((ix & ux & Hux) & (jx & wx & Hwx)).
    destruct Dy as ((iy & uy & Huy) & (jy & wy & Hwy)).
    destruct (fval_StepAt f x _ _ (P x Ix) Hux) as [E1 _]. destruct (fval_StepAt g x _ _ (P x Ix) Hwx) as [E2 _].
    destruct (fval_StepAt f y _ _ (P y Iy) Huy) as [E3 _]. destruct (fval_StepAt g y _ _ (P y Iy) Hwy) as [E4 _].
    rewrite E1, E2 in C1. rewrite E3, E4 in C2.
    intros z i u j w Hz Hu Hw. split; intro L.
    - (* before *)
      apply (nle_lt_trans _ wx); [exact (StepAt_inc _ _ _ _ _ _ _ Ig L Hw Hwx)|].
      apply (nlt_le_trans _ ux); [exact C1|]. exact (StepAt_dec _ _ _ _ _ _ _ Df L Hu Hux).
    - (* after *)
      destruct (nle_total y z) as [C|C].
      + apply nlt_ok in Lxy; tauto.
      + apply nlt_ok in L; tauto.
      + apply (nle_lt_trans _ uy); [exact (StepAt_dec _ _ _ _ _ _ _ Df C Huy Hu)|].
        apply (nlt_le_trans _ wy); [exact C2|]. exact (StepAt_inc _ _ _ _ _ _ _ Ig C Hwy Hw).
      + destruct (after_first xm l1 x y l2 z E L (nlt_le _ _ C)) as [K1 K2].
        destruct (StepAt_fun _ _ _ _ _ _ (K1 _ _ Huy) Hu) as [_ <-].
        destruct (StepAt_fun _ _ _ _ _ _ (K2 _ _ Hwy) Hw) as [_ <-]. exact C2.
  Qed.

  (** every crossing shows up as a change of sign at neighbouring abscissae *)
  Lemma pair_of_crossing xm c :
    (forall x, nle (Fin 0) x -> (nle x xm <-> both_defined f g x)) ->
    In xm (common_xs f g xm) -> Crossing f g c ->
    exists l1 x y l2, common_xs f g xm = l1 ++ x :: y :: l2 /\
      nlt (fval g x) (fval f x) /\ nlt (fval f y) (fval g y) /\ x = c.
  Proof.
    intros Hd Im (P0 & Dc & (y0 & Ly0 & Dy0) & Hc).
    set (xs := common_xs f g xm) in *.
    pose proof (common_sorted f g Hf Hg xm) as So. fold xs in So.
    assert (P : forall z, In z xs -> nle (Fin 0) z).
    { intros z Hz. apply common_In in Hz; auto. destruct Hz as [[(v & H)|(v & H)] _].
      - destruct Hf as [Hp _]. apply (Hp _ H).
      - destruct Hg as [Hp _]. apply (Hp _ H). }
    assert (Lm : nlt c xm).
    { apply (nlt_le_trans _ y0); [exact Ly0|]. apply Hd; [|exact Dy0].
      apply (nle_trans _ c); [exact P0 | apply nlt_le, Ly0]. }
    (* the first element of xs after c *)
    assert (Sp : exists l1 y l2, xs = l1 ++ y :: l2 /\ nlt c y /\ forall z, In z l1 -> nle z c).
    { clear Hc. revert Im So P. generalize xs as l. induction l as [|a l IH]; [contradiction|]. intros Im So P.
      inversion_clear So as [|? ? So' Fa].
      assert (Oa : ok a) by (specialize (P a (or_introl eq_refl)); apply nle_ok in P; tauto).
      assert (Oc : ok c) by (apply nlt_ok in Lm; tauto).
      destruct (nle_total a c Oa Oc) as [C|C].
      - destruct Im as [->|Im]; [exfalso; exact (nlt_not_le _ _ Lm C)|].
        destruct (IH Im So') as (l1 & y & l2 & E & H1 & H2).
        + intros z Hz; apply P; right; exact Hz.
        + exists (a :: l1), y, l2. rewrite E. repeat split; auto. intros z [<-|Hz]; auto.
      - exists [], a, l. repeat split; auto. intros z []. }
    destruct Sp as (l1 & y & l2 & E & Ly & Hl1).
    assert (Iy : In y xs) by (rewrite E; apply in_or_app; right; left; reflexivity).
    assert (Dy : both_defined f g y) by (apply Hd; [auto | apply common_In in Iy; tauto]).
    destruct Dy as ((iy & uy & Huy) & (jy & wy & Hwy)).
    destruct Dc as ((ic & uc & Huc) & (jc & wc & Hwc)).
    (* c is an abscissa: otherwise the values at c and y agree *)
    assert (Mem : In c xs).
    { assert (Oc : ok c) by (apply nlt_ok in Lm; tauto).
      assert (NoEnd : (forall z, In z xs -> nle c z -> nle y z) -> False).
      { intros N.
        assert (K : forall p, In p f \/ In p g -> nle c (fst p) -> nle y (fst p)).
        { intros p Hp Lp. destruct (nle_total y (fst p)) as [C|C]; auto.
          - apply nlt_ok in Ly; tauto.
          - apply nle_ok in Lp; tauto.
          - apply N; [|exact Lp]. apply common_In; auto. split.
            + destruct Hp as [Hp|Hp]; [left|right]; exists (snd p); destruct p; exact Hp.
            + apply (nle_trans _ y); [apply nlt_le, C|]. apply common_In in Iy; tauto. }
        assert (F1 : StepAt f c iy uy).
        { eapply StepAt_left; [apply nlt_le, Ly| |exact Huy]. intros p Hp; apply K; auto. }
        assert (G1 : StepAt g c jy wy).
        { eapply StepAt_left; [apply nlt_le, Ly| |exact Hwy]. intros p Hp; apply K; auto. }
        destruct (Hc c _ _ _ _ P0 F1 G1) as [A1 _]. specialize (A1 (nle_refl _ Oc)).
        destruct (Hc y _ _ _ _ (P y Iy) Huy Hwy) as [_ A2]. specialize (A2 Ly).
        apply (nlt_not_le _ _ A1). apply nlt_le, A2. }
      destruct (nmem c xs) eqn:M.
      - apply nmem_In in M; [exact M|]. intros z Hz. apply P in Hz. apply nle_ok in Hz; tauto.
      - exfalso. apply NoEnd. intros z Hz Lz. pose proof So as So2. rewrite E in So2.
        pose proof (sorted_app _ _ _ _ So2) as (_ & A2 & _).
        pose proof Hz as Hz2. rewrite E in Hz2. apply in_app_or in Hz2. destruct Hz2 as [Hz2|[<-|Hz2]].
        + assert (z = c) by (apply nle_antisym; auto). subst z. exfalso.
          apply nmem_In in Hz; [congruence|]. intros z' Hz'. apply P in Hz'. apply nle_ok in Hz'; tauto.
        + apply nlt_ok in Ly. apply nle_refl; tauto.
        + apply nlt_le, A2, Hz2. }
    assert (I1 : In c l1).
    { rewrite E in Mem. apply in_app_or in Mem. destruct Mem as [M|[M|M]]; [exact M| |]; exfalso.
      - subst y. exact (nlt_irrefl _ Ly).
      - pose proof So as So2. rewrite E in So2. pose proof (sorted_app _ _ _ _ So2) as (_ & A2 & _).
        apply (nlt_irrefl c). apply (nlt_trans _ y); [exact Ly | apply A2, M]. }
    apply in_split in I1. destruct I1 as (k1 & k2 & ->).
    assert (k2 = []).
    { destruct k2 as [|b k2]; [reflexivity|]. exfalso. rewrite E, <- app_assoc in So. simpl in So.
      pose proof (sorted_app _ _ _ _ So) as (_ & A2 & _).
      specialize (A2 b (or_introl eq_refl)). apply (nlt_not_le _ _ A2). apply Hl1.
      apply in_or_app. right; right; left; reflexivity. }
    subst k2. exists k1, c, y, l2.
    split; [rewrite E, <- app_assoc; reflexivity|].
    destruct (fval_StepAt f c _ _ P0 Huc) as [E1 _]. destruct (fval_StepAt g c _ _ P0 Hwc) as [E2 _].
    destruct (fval_StepAt f y _ _ (P y Iy) Huy) as [E3 _]. destruct (fval_StepAt g y _ _ (P y Iy) Hwy) as [E4 _].
    rewrite E1, E2, E3, E4. repeat split.
    - apply (Hc c _ _ _ _ P0 Huc Hwc). apply nlt_ok in Lm. apply nle_refl; tauto.
    - apply (Hc y _ _ _ _ (P y Iy) Huy Hwy). exact Ly.
  Qed.

  (** the ordinate returned *)
  Definition ordinate (x : option num) (gv fv : num) (k : Qc) : num :=
    match x with
    | Some _ => if mem_col x f && mem_col x g then nadd (nmul gv (Fin k)) (nmul (Fin (1 - k)) fv)
                else if mem_col x f then gv else fv
    | None => nadd (nmul gv (Fin k)) (nmul (Fin (1 - k)) fv)
    end.

  Lemma intersect_spec k : 
    (exists x i u j w, intersect_stepwise f g k = Ok (Some x, Some i, Some j, ordinate (Some x) w u k) /\
       Crossing f g x /\ (is_end f x \/ is_end g x) /\ StepAt f x i u /\ StepAt g x j w) \/
    (exists xm i u j w, intersect_stepwise f g k = Ok (None, None, None, ordinate None w u k) /\
       (forall x, ~ Crossing f g x) /\ (is_end f xm \/ is_end g xm) /\
       (forall x, nle (Fin 0) x -> (nle x xm <-> both_defined f g x)) /\ nle (Fin 0) xm /\
       StepAt f xm i u /\ StepAt g xm j w).
  Proof.
    destruct x_max_spec as (fm & gm & Ef & Eg & Pm & Im & Hd). simpl in *.
    set (xm := nmin fm gm) in *. set (xs := common_xs f g xm) in *.
    assert (P : forall z, In z xs -> nle (Fin 0) z).
    { intros z Hz. apply common_In in Hz; auto. destruct Hz as [[(v & H)|(v & H)] _].
      - destruct Hf as [Hp _]. apply (Hp _ H).
      - destruct Hg as [Hp _]. apply (Hp _ H). }
    assert (Dz : forall z, In z xs -> both_defined f g z).
    { intros z Hz. apply Hd; [auto|]. apply common_In in Hz; tauto. }
    assert (Ep : map (fun x => (x, get_value_stepwise x f, get_value_stepwise x g)) xs =
                 map (fun x => (x, Some (fval f x), Some (fval g x))) xs).
    { apply map_ext_in. intros z Hz. destruct (Dz z Hz) as ((i & u & Hu) & (j & w & Hw)).
      destruct (fval_StepAt f z _ _ (P z Hz) Hu) as [E1 ->]. destruct (fval_StepAt g z _ _ (P z Hz) Hw) as [E2 ->].
      rewrite E1, E2. reflexivity. }
    destruct (scan_spec (fval f) (fval g) xs None) as (r & Es & Hr). rewrite <- Ep in Es.
    unfold intersect_stepwise. rewrite Ef, Eg. simpl bind. fold xm. fold xs. rewrite Es. simpl bind.
    destruct Hr as [(l1 & x & y & l2 & E & C1 & C2 & ->)|[-> Hno]].
    - left. assert (Ix : In x xs) by (rewrite E; apply in_or_app; right; left; reflexivity).
      destruct (Dz x Ix) as ((i & u & Hu) & (j & w & Hw)).
      exists x, i, u, j, w. simpl option_map. rewrite (argmax_StepAt _ _ _ _ Hu), (argmax_StepAt _ _ _ _ Hw).
      destruct (StepAt_in _ _ _ _ Hu) as (a & _ & _ & Na). destruct (StepAt_in _ _ _ _ Hw) as (b & _ & _ & Nb).
      unfold piece_value. rewrite Na, Nb. simpl bind. split; [reflexivity|].
      split; [exact (crossing_of_pair xm l1 x y l2 Hd E C1 C2)|].
      split; [apply common_In in Ix; tauto|]. auto.
    - right. destruct (Dz xm Im) as ((i & u & Hu) & (j & w & Hw)).
      exists xm, i, u, j, w.
      destruct (fval_StepAt f xm _ _ (P xm Im) Hu) as [_ E1]. destruct (fval_StepAt g xm _ _ (P xm Im) Hw) as [_ E2].
      assert (Hlast : exists t, rev xs = xm :: t).
      { pose proof (common_sorted f g Hf Hg xm) as So. fold xs in So.
        destruct (exists_last (l := xs)) as (l' & z & El); [intro N; rewrite N in Im; contradiction|].
        rewrite El, rev_app_distr. simpl. exists (rev l'). f_equal.
        assert (Iz : In z xs) by (rewrite El; apply in_or_app; right; left; reflexivity).
        apply common_In in Iz; auto. rewrite El in Im, So. apply in_app_or in Im.
        destruct Im as [Im|[Im|[]]]; [|exact Im].
        destruct (sorted_app _ _ _ _ So) as (A1 & _). specialize (A1 _ Im).
        exfalso. apply (nlt_not_le _ _ A1). tauto. }
      destruct Hlast as (t & Hlast). simpl option_map. unfold piece_value, value_at_last. rewrite Hlast.
      rewrite E1, E2. simpl bind. split; [reflexivity|].
      split.
      + intros c Hc. destruct (pair_of_crossing xm c Hd Im Hc) as (l1 & x & y & l2 & E & C1 & C2 & _).
        exact (Hno l1 x y l2 E (conj C1 C2)).
      + apply common_In in Im; auto. tauto.
  Qed.

  Lemma crossing_unique x y : Crossing f g x -> Crossing f g y -> x = y.
  Proof.
    intros (P1 & D1 & _ & H1) (P2 & D2 & _ & H2).
    assert (O1 : ok x) by (apply nle_ok in P1; tauto). assert (O2 : ok y) by (apply nle_ok in P2; tauto).
    destruct D1 as ((i & u & Hu) & (j & w & Hw)). destruct D2 as ((i' & u' & Hu') & (j' & w' & Hw')).
    destruct (nle_total x y O1 O2) as [L|L].
    - destruct (nle_lt_eq _ _ L) as [L'|E]; [|exact E]. exfalso.
      destruct (H2 y _ _ _ _ P2 Hu' Hw') as [A _]. specialize (A (nle_refl _ O2)).
      destruct (H1 y _ _ _ _ P2 Hu' Hw') as [_ B]. specialize (B L').
      apply (nlt_not_le _ _ A), nlt_le, B.
    - exfalso.
      destruct (H1 x _ _ _ _ P1 Hu Hw) as [A _]. specialize (A (nle_refl _ O1)).
      destruct (H2 x _ _ _ _ P1 Hu Hw) as [_ B]. specialize (B L).
      apply (nlt_not_le _ _ A), nlt_le, B.
  Qed.
End Main.

(** ** The ordinate at a crossing *)
Lemma mem_col_iff f x : ends_sorted f -> (mem_col (Some x) f = true <-> is_end f x).
Proof.
  intro Hf. unfold mem_col. rewrite nmem_In, is_end_fst; [tauto|].
  intros y Hy. apply in_map_iff in Hy. destruct Hy as (p & <- & Hp). exact (ends_ok f p Hf Hp).
Qed.

Lemma convex_between k u w : 0 <= k -> k <= 1 -> w <= u ->
  w <= w * k + (1 - k) * u /\ w * k + (1 - k) * u <= u.
Proof. intros. split; qnra. Qed.

Section Ordinate.
  Variables f g : steps.
  Hypothesis Hf : ends_sorted f.
  Hypothesis Hg : ends_sorted g.
  Hypothesis Df : decreasing f.
  Hypothesis Ig : increasing g.
  Variables (x : num) (i j : nat) (u w k : Qc).
  Hypothesis C : Crossing f g x.
  Hypothesis Hu : StepAt f x i (Fin u).
  Hypothesis Hw : StepAt g x j (Fin w).
  Hypothesis Hk0 : 0 <= k.
  Hypothesis Hk1 : k <= 1.

  Lemma crossing_at : w < u.
  Proof.
    destruct C as (P & _ & _ & H). apply nlt_Fin. apply (H x i (Fin u) j (Fin w) P Hu Hw).
    apply nle_refl. apply nle_ok in P; tauto.
  Qed.

  Lemma ordinate_between : exists v, ordinate f g (Some x) (Fin w) (Fin u) k = Fin v /\ w <= v /\ v <= u.
  Proof.
    pose proof crossing_at as L. unfold ordinate.
    destruct (mem_col (Some x) f) eqn:E1; destruct (mem_col (Some x) g) eqn:E2; simpl.
    - exists (w * k + (1 - k) * u). split; [reflexivity|]. apply convex_between; auto. qlra.
    - exists w. repeat split; qlra.
    - exists u. repeat split; qlra.
    - exists u. repeat split; qlra.
  Qed.

  (** a point after x, at most y, not after b *)
  Lemma between_point y b : nlt x y -> nlt x b -> exists z, nlt x z /\ nle z y /\ nle z b.
  Proof.
    intros L1 L2. destruct (nle_total y b) as [H|H].
    - apply nlt_ok in L1; tauto.
    - apply nlt_ok in L2; tauto.
    - exists y. repeat split; auto. apply nlt_ok in L1. apply nle_refl; tauto.
    - exists b. repeat split; auto; [apply nlt_le, H|]. apply nlt_ok in L2. apply nle_refl; tauto.
  Qed.

  Lemma StepAt_right h z n v b w' : nth_error h n = Some (b, v) -> StepAt h x n w' ->
    nle x z -> nle z b -> StepAt h z n v.
  Proof.
    intros Hn (_ & H3) L1 L2. split; [exists b; auto|].
    intros m a w0 Lt Hm. specialize (H3 m a w0 Lt Hm).
    destruct (nleb z a) eqn:E; [|reflexivity].
    assert (X : nle x a) by (apply (nle_trans _ z); assumption). unfold nle in X. congruence.
  Qed.

  Lemma ordinate_clears : ~ (is_end f x /\ is_end g x) ->
    exists v, ordinate f g (Some x) (Fin w) (Fin u) k = Fin v /\
      forall y m a n b, nlt x y -> StepAt f y m a -> StepAt g y n b -> nle a (Fin v) /\ nle (Fin v) b.
  Proof.
    intro N. pose proof C as (P & _ & _ & H).
    assert (Ox : ok x) by (apply nle_ok in P; tauto).
    unfold ordinate.
    destruct (mem_col (Some x) f) eqn:E1; destruct (mem_col (Some x) g) eqn:E2; simpl.
    - exfalso. apply N. split; apply mem_col_iff; assumption.
    - (* only an end of f: v = w *)
      exists w. split; [reflexivity|]. intros y m a n b L Ha Hb.
      pose proof (StepAt_inc _ _ _ _ _ _ _ Ig (nlt_le _ _ L) Hw Hb) as W. split; [|exact W].
      destruct (StepAt_in _ _ _ _ Hw) as (e & Ie & Le & Ne).
      assert (Lx : nlt x e).
      { destruct (nle_lt_eq _ _ Le) as [Q|Q]; [exact Q|]. subst e. exfalso.
        assert (X : is_end g x) by (exists (Fin w); exact Ie). apply (mem_col_iff g x Hg) in X. congruence. }
      destruct (between_point y e L Lx) as (z & Z1 & Z2 & Z3).
      pose proof (StepAt_right g z j (Fin w) e (Fin w) Ne Hw (nlt_le _ _ Z1) Z3) as Gz.
      destruct (StepAt_exists f z (nth m f (NaN, NaN))) as (m' & a' & Fz).
      { destruct (StepAt_in _ _ _ _ Ha) as (c & Ic & Lc & Nc).
        apply nth_error_nth with (d := (NaN, NaN)) in Nc. rewrite Nc. exact Ic. }
      { destruct (StepAt_in _ _ _ _ Ha) as (c & Ic & Lc & Nc).
        apply nth_error_nth with (d := (NaN, NaN)) in Nc. rewrite Nc. simpl. apply (nle_trans _ y); assumption. }
      assert (Pz : nle (Fin 0) z) by (apply (nle_trans _ x); [exact P | apply nlt_le, Z1]).
      apply (nle_trans _ a'); [exact (StepAt_dec _ _ _ _ _ _ _ Df Z2 Fz Ha)|].
      apply nlt_le. exact (proj2 (H z _ _ _ _ Pz Fz Gz) Z1).
    - (* only an end of g: v = u *)
      exists u. split; [reflexivity|]. intros y m a n b L Ha Hb.
      pose proof (StepAt_dec _ _ _ _ _ _ _ Df (nlt_le _ _ L) Hu Ha) as W. split; [exact W|].
      destruct (StepAt_in _ _ _ _ Hu) as (e & Ie & Le & Ne).
      assert (Lx : nlt x e).
      { destruct (nle_lt_eq _ _ Le) as [Q|Q]; [exact Q|]. subst e. exfalso.
        assert (X : is_end f x) by (exists (Fin u); exact Ie). apply (mem_col_iff f x Hf) in X. congruence. }
      destruct (between_point y e L Lx) as (z & Z1 & Z2 & Z3).
      pose proof (StepAt_right f z i (Fin u) e (Fin u) Ne Hu (nlt_le _ _ Z1) Z3) as Fz.
      destruct (StepAt_exists g z (nth n g (NaN, NaN))) as (m' & a' & Gz).
      { destruct (StepAt_in _ _ _ _ Hb) as (c & Ic & Lc & Nc).
        apply nth_error_nth with (d := (NaN, NaN)) in Nc. rewrite Nc. exact Ic. }
      { destruct (StepAt_in _ _ _ _ Hb) as (c & Ic & Lc & Nc).
        apply nth_error_nth with (d := (NaN, NaN)) in Nc. rewrite Nc. simpl. apply (nle_trans _ y); assumption. }
      assert (Pz : nle (Fin 0) z) by (apply (nle_trans _ x); [exact P | apply nlt_le, Z1]).
      apply (nle_trans _ a'); [|exact (StepAt_inc _ _ _ _ _ _ _ Ig Z2 Gz Hb)].
      apply nlt_le. exact (proj2 (H z _ _ _ _ Pz Fz Gz) Z1).
    - (* neither: cannot change sign *)
      exists u. split; [reflexivity|]. intros y m a n b L Ha Hb.
      pose proof (StepAt_dec _ _ _ _ _ _ _ Df (nlt_le _ _ L) Hu Ha) as W. split; [exact W|].
      destruct (StepAt_in _ _ _ _ Hu) as (e & Ie & Le & Ne).
      assert (Lx : nlt x e).
      { destruct (nle_lt_eq _ _ Le) as [Q|Q]; [exact Q|]. subst e. exfalso.
        assert (X : is_end f x) by (exists (Fin u); exact Ie). apply (mem_col_iff f x Hf) in X. congruence. }
      destruct (between_point y e L Lx) as (z & Z1 & Z2 & Z3).
      pose proof (StepAt_right f z i (Fin u) e (Fin u) Ne Hu (nlt_le _ _ Z1) Z3) as Fz.
      destruct (StepAt_exists g z (nth n g (NaN, NaN))) as (m' & a' & Gz).
      { destruct (StepAt_in _ _ _ _ Hb) as (c & Ic & Lc & Nc).
        apply nth_error_nth with (d := (NaN, NaN)) in Nc. rewrite Nc. exact Ic. }
      { destruct (StepAt_in _ _ _ _ Hb) as (c & Ic & Lc & Nc).
        apply nth_error_nth with (d := (NaN, NaN)) in Nc. rewrite Nc. simpl. apply (nle_trans _ y); assumption. }
      assert (Pz : nle (Fin 0) z) by (apply (nle_trans _ x); [exact P | apply nlt_le, Z1]).
      apply (nle_trans _ a'); [|exact (StepAt_inc _ _ _ _ _ _ _ Ig Z2 Gz Hb)].
      apply nlt_le. exact (proj2 (H z _ _ _ _ Pz Fz Gz) Z1).
  Qed.
End Ordinate.

(** ** Demand and supply curves are well formed step functions *)
Section BidCurves.
  Variable S : sorter.
  Variable d : df.
  Hypothesis Hq : qty_nonneg d.
  Hypothesis Hp : price_nonneg d.

  Lemma crows_in a l p : In p (crows a l) -> exists r, In r l /\ snd p = Fin (price r).
  Proof.
    revert a; induction l as [|r l IH]; intros a H; [contradiction|].
    rewrite crows_cons in H. destruct H as [<-|H]; [exists r; split; [left|]; reflexivity|].
    destruct (IH _ H) as (r' & H1 & H2). exists r'. split; [right|]; assumption.
  Qed.
  Lemma crows_ends a l v : (forall r, In r l -> 0 <= qty r) -> 0 <= a -> v <> NaN ->
    (forall p, In p (crows a l ++ [(PInf, v)]) -> nle (Fin a) (fst p)) /\
    StronglySorted (fun p q => nleb (fst p) (fst q) = true) (crows a l ++ [(PInf, v)]).
  Proof.
    revert a; induction l as [|r l IH]; intros a H Ha Hv.
    - simpl. split; [intros p [<-|[]]; reflexivity|]. constructor; constructor.
    - rewrite crows_cons. simpl app.
      assert (Q : 0 <= qty r) by (apply H; left; reflexivity).
      destruct (IH (a + qty r)) as [A B]; [intros; apply H; right; assumption | qlra | exact Hv |].
      split.
      + intros p [<-|Hp']; [simpl; apply nle_Fin; qlra|].
        apply (nle_trans _ (Fin (a + qty r))); [apply nle_Fin; qlra | apply A, Hp'].
      + constructor; [exact B|]. rewrite Forall_forall. intros p Hp'. apply A, Hp'.
  Qed.
  Lemma demand_ends : ends_sorted (fst (demand_curve_from_bids S d)).
  Proof.
    unfold demand_curve_from_bids, ends_sorted. simpl fst. rewrite curve_rows_crows.
    apply (crows_ends 0); [|qlra|congruence].
    intros r Hr. apply Hq. apply desc_in in Hr. tauto.
  Qed.
  Lemma supply_ends : ends_sorted (fst (supply_curve_from_bids S d)).
  Proof.
    unfold supply_curve_from_bids, ends_sorted. simpl fst. rewrite curve_rows_crows.
    apply (crows_ends 0); [|qlra|congruence].
    intros r Hr. apply Hq. apply asc_in in Hr. tauto.
  Qed.
  Lemma demand_decreasing : decreasing (fst (demand_curve_from_bids S d)).
  Proof.
    unfold demand_curve_from_bids. simpl fst. rewrite curve_rows_crows.
    assert (Hs := s_desc_sorted S (buyers d)).
    assert (Hr : forall r, In r (s_desc S (buyers d)) -> 0 <= price r).
    { intros r Hr. apply Hp. apply desc_in in Hr. tauto. }
    split.
    - intros p Hpp. apply in_app_or in Hpp. destruct Hpp as [Hpp|[<-|[]]]; [|simpl; congruence].
      apply crows_in in Hpp. destruct Hpp as (r & _ & ->). congruence.
    - generalize 0 at 1 as a. induction Hs as [|r l Hs IH Hf]; intro a.
      + simpl. constructor; constructor.
      + rewrite crows_cons. simpl app. constructor.
        * apply IH. intros; apply Hr; right; assumption.
        * rewrite Forall_forall in *. intros p Hpp. apply in_app_or in Hpp.
          destruct Hpp as [Hpp|[<-|[]]]; simpl.
          -- apply crows_in in Hpp. destruct Hpp as (r' & I & ->). apply qleb_le, Hf, I.
          -- apply qleb_le, Hr. left; reflexivity.
  Qed.
  Lemma supply_increasing : increasing (fst (supply_curve_from_bids S d)).
  Proof.
    unfold supply_curve_from_bids. simpl fst. rewrite curve_rows_crows.
    assert (Hs := s_asc_sorted S (sellers d)).
    split.
    - intros p Hpp. apply in_app_or in Hpp. destruct Hpp as [Hpp|[<-|[]]]; [|simpl; congruence].
      apply crows_in in Hpp. destruct Hpp as (r & _ & ->). congruence.
    - generalize 0 at 1 as a. induction Hs as [|r l Hs IH Hf]; intro a.
      + simpl. constructor; constructor.
      + rewrite crows_cons. simpl app. constructor.
        * apply IH.
        * rewrite Forall_forall in *. intros p Hpp. apply in_app_or in Hpp.
          destruct Hpp as [Hpp|[<-|[]]]; simpl; [|reflexivity].
          apply crows_in in Hpp. destruct Hpp as (r' & I & ->). apply qleb_le, Hf, I.
  Qed.
  Lemma demand_nonempty : fst (demand_curve_from_bids S d) <> [].
  Proof. unfold demand_curve_from_bids. simpl. intro H. apply app_eq_nil in H. destruct H; discriminate. Qed.
  Lemma supply_nonempty : fst (supply_curve_from_bids S d) <> [].
  Proof. unfold supply_curve_from_bids. simpl. intro H. apply app_eq_nil in H. destruct H; discriminate. Qed.
End BidCurves.

(** ** Tie-breaking does not matter *)
Lemma step_search_NaN f : step_search NaN f = None.
Proof. induction f as [|[a v] f IH]; simpl; [reflexivity | exact IH]. Qed.
Lemma step_search_PInf a l v : step_search PInf (crows a l ++ [(PInf, v)]) = Some v.
Proof. revert a; induction l as [|r l IH]; intro a; [reflexivity|]. rewrite crows_cons. simpl. apply IH. Qed.
Lemma step_search_zero l v : (forall r, In r l -> 0 <= qty r) ->
  step_search (Fin 0) (crows 0 l ++ [(PInf, v)]) = Some (match l with [] => v | r :: _ => Fin (price r) end).
Proof.
  intro H. destruct l as [|r l]; [reflexivity|]. rewrite crows_cons. cbn [app step_search nleb].
  destruct (qle_spec 0 (0 + qty r)) as [|L]; [reflexivity|].
  specialize (H r (or_introl eq_refl)). exfalso; qlra.
Qed.

Lemma buyers_perm_stats d d' : Permutation (buyers d) (buyers d') ->
  total_demand d = total_demand d' /\ (forall p, demand_at d p = demand_at d' p) /\
  (forall p, demand_above d p = demand_above d' p).
Proof.
  intro P. split; [apply qsumf_perm, P|]. split; intro p; unfold demand_at, demand_above;
  rewrite <- !(filter_filter _ buying); apply qsumf_perm, filter_perm, P.
Qed.
Lemma sellers_perm_stats d d' : Permutation (sellers d) (sellers d') ->
  total_supply d = total_supply d' /\ (forall p, supply_at d p = supply_at d' p) /\
  (forall p, supply_below d p = supply_below d' p).
Proof.
  intro P. split; [apply qsumf_perm, P|]. split; intro p; unfold supply_at, supply_below;
  rewrite <- !(filter_filter _ (fun r => negb (buying r))); apply qsumf_perm, filter_perm, P.
Qed.

Lemma head_desc S1 S2 d d' : Permutation (buyers d) (buyers d') ->
  match s_desc S1 (buyers d) with [] => None | r :: _ => Some (price r) end =
  match s_desc S2 (buyers d') with [] => None | r :: _ => Some (price r) end.
Proof.
  intro P.
  assert (Q : Permutation (s_desc S1 (buyers d)) (s_desc S2 (buyers d'))).
  { rewrite s_desc_perm. rewrite P. symmetry. apply s_desc_perm. }
  pose proof (s_desc_sorted S1 (buyers d)) as H1. pose proof (s_desc_sorted S2 (buyers d')) as H2.
  destruct (s_desc S1 (buyers d)) as [|a l]; destruct (s_desc S2 (buyers d')) as [|b l'].
  - reflexivity.
  - apply Permutation_nil in Q. discriminate.
  - symmetry in Q. apply Permutation_nil in Q. discriminate.
  - f_equal. inversion_clear H1 as [|? ? _ F1]. inversion_clear H2 as [|? ? _ F2]. rewrite Forall_forall in *.
    assert (Ia : In a (b :: l')) by (apply (Permutation_in _ Q); left; reflexivity).
    assert (Ib : In b (a :: l)) by (apply (Permutation_in _ (Permutation_sym Q)); left; reflexivity).
    destruct Ia as [->|Ia]; [reflexivity|]. destruct Ib as [->|Ib]; [reflexivity|].
    specialize (F1 _ Ib). specialize (F2 _ Ia). qlra.
Qed.
Lemma head_asc S1 S2 d d' : Permutation (sellers d) (sellers d') ->
  match s_asc S1 (sellers d) with [] => None | r :: _ => Some (price r) end =
  match s_asc S2 (sellers d') with [] => None | r :: _ => Some (price r) end.
Proof.
  intro P.
  assert (Q : Permutation (s_asc S1 (sellers d)) (s_asc S2 (sellers d'))).
  { rewrite s_asc_perm. rewrite P. symmetry. apply s_asc_perm. }
  pose proof (s_asc_sorted S1 (sellers d)) as H1. pose proof (s_asc_sorted S2 (sellers d')) as H2.
  destruct (s_asc S1 (sellers d)) as [|a l]; destruct (s_asc S2 (sellers d')) as [|b l'].
  - reflexivity.
  - apply Permutation_nil in Q. discriminate.
  - symmetry in Q. apply Permutation_nil in Q. discriminate.
  - f_equal. inversion_clear H1 as [|? ? _ F1]. inversion_clear H2 as [|? ? _ F2]. rewrite Forall_forall in *.
    assert (Ia : In a (b :: l')) by (apply (Permutation_in _ Q); left; reflexivity).
    assert (Ib : In b (a :: l)) by (apply (Permutation_in _ (Permutation_sym Q)); left; reflexivity).
    destruct Ia as [->|Ia]; [reflexivity|]. destruct Ib as [->|Ib]; [reflexivity|].
    specialize (F1 _ Ib). specialize (F2 _ Ia). qlra.
Qed.

Lemma demand_value_indep S1 S2 d d' x : qty_nonneg d -> qty_nonneg d' -> Permutation (buyers d) (buyers d') ->
  get_value_stepwise x (fst (demand_curve_from_bids S1 d)) = get_value_stepwise x (fst (demand_curve_from_bids S2 d')).
Proof.
  intros Hq Hq' P. destruct (buyers_perm_stats d d' P) as (T & At & Ab).
  destruct x as [x| | |].
  - destruct (Qclt_le_dec x 0) as [L|L].
    + unfold get_value_stepwise, nltb. destruct (qlt_spec x 0); [reflexivity | exfalso; qlra].
    + destruct (Qclt_le_dec 0 x) as [L0|L0].
      * destruct (Qclt_le_dec (total_demand d) x) as [Lt|Lt].
        -- rewrite (demand_beyond S1 d Hq x L Lt). rewrite T in Lt. rewrite (demand_beyond S2 d' Hq' x L Lt). reflexivity.
        -- destruct (demand_inverse S1 d Hq x L0 Lt) as (p & -> & A1 & A2 & _).
           rewrite T in Lt. destruct (demand_inverse S2 d' Hq' x L0 Lt) as (p' & -> & B1 & B2 & _).
           do 2 f_equal. rewrite At in A1. rewrite Ab in A2. eapply demand_price_unique; eauto.
      * assert (x = 0) by qlra. subst x. rewrite !get_value_pos by qlra.
        unfold demand_curve_from_bids. simpl fst. rewrite !curve_rows_crows, !step_search_zero.
        -- pose proof (head_desc S1 S2 d d' P) as E.
           destruct (s_desc S1 (buyers d)), (s_desc S2 (buyers d')); congruence.
        -- intros r Hr. apply Hq'. apply desc_in in Hr; tauto.
        -- intros r Hr. apply Hq. apply desc_in in Hr; tauto.
  - exact (eq_trans (step_search_PInf 0 _ _) (eq_sym (step_search_PInf 0 _ _))).
  - reflexivity.
  - unfold get_value_stepwise. simpl. rewrite !step_search_NaN. reflexivity.
Qed.
Lemma supply_value_indep S1 S2 d d' x : qty_nonneg d -> qty_nonneg d' -> Permutation (sellers d) (sellers d') ->
  get_value_stepwise x (fst (supply_curve_from_bids S1 d)) = get_value_stepwise x (fst (supply_curve_from_bids S2 d')).
Proof.
  intros Hq Hq' P. destruct (sellers_perm_stats d d' P) as (T & At & Ab).
  destruct x as [x| | |].
  - destruct (Qclt_le_dec x 0) as [L|L].
    + unfold get_value_stepwise, nltb. destruct (qlt_spec x 0); [reflexivity | exfalso; qlra].
    + destruct (Qclt_le_dec 0 x) as [L0|L0].
      * destruct (Qclt_le_dec (total_supply d) x) as [Lt|Lt].
        -- rewrite (supply_beyond S1 d Hq x L Lt). rewrite T in Lt. rewrite (supply_beyond S2 d' Hq' x L Lt). reflexivity.
        -- destruct (supply_inverse S1 d Hq x L0 Lt) as (p & -> & A1 & A2 & _).
           rewrite T in Lt. destruct (supply_inverse S2 d' Hq' x L0 Lt) as (p' & -> & B1 & B2 & _).
           do 2 f_equal. rewrite At in A1. rewrite Ab in A2. eapply supply_price_unique; eauto.
      * assert (x = 0) by qlra. subst x. rewrite !get_value_pos by qlra.
        unfold supply_curve_from_bids. simpl fst. rewrite !curve_rows_crows, !step_search_zero.
        -- pose proof (head_asc S1 S2 d d' P) as E.
           destruct (s_asc S1 (sellers d)), (s_asc S2 (sellers d')); congruence.
        -- intros r Hr. apply Hq'. apply asc_in in Hr; tauto.
        -- intros r Hr. apply Hq. apply asc_in in Hr; tauto.
  - exact (eq_trans (step_search_PInf 0 _ _) (eq_sym (step_search_PInf 0 _ _))).
  - reflexivity.
  - unfold get_value_stepwise. simpl. rewrite !step_search_NaN. reflexivity.
Qed.

Lemma ordinate_spec f g k x i j u w v :
  f <> [] -> g <> [] -> ends_sorted f -> ends_sorted g -> decreasing f -> increasing g ->
  0 <= k -> k <= 1 ->
  intersect_stepwise f g k = Ok (Some x, Some i, Some j, v) ->
  StepAt f x i (Fin u) -> StepAt g x j (Fin w) ->
  exists q, v = Fin q /\ w <= q /\ q <= u /\
    (~ (is_end f x /\ is_end g x) ->
     forall y m a n b, nltb x y = true -> StepAt f y m a -> StepAt g y n b ->
       nleb a (Fin q) = true /\ nleb (Fin q) b = true).
Proof.
  intros Nf Ng Hf Hg Df Ig K0 K1 E Hu Hw.
  destruct (intersect_spec f g Hf Hg Df Ig Nf Ng k) as
    [(x' & i' & u' & j' & w' & E' & C & _ & Su & Sw)|(xm & i' & u' & j' & w' & E' & _)].
  - rewrite E in E'. injection E' as <- <- <- ->.
    destruct (StepAt_fun _ _ _ _ _ _ Hu Su) as [_ <-]. destruct (StepAt_fun _ _ _ _ _ _ Hw Sw) as [_ <-].
    destruct (ordinate_between f g x i j u w k C Hu Hw K0 K1) as (q & Eq & B1 & B2).
    exists q. split; [exact Eq|]. split; [exact B1|]. split; [exact B2|].
    intro N. destruct (ordinate_clears f g Hf Hg Df Ig x i j u w k C Hu Hw N) as (q' & Eq' & Hcl).
    rewrite Eq in Eq'. injection Eq' as <-. exact Hcl.
  - rewrite E in E'. discriminate.
Qed.

Lemma common_end_witness :
  exists (f g : steps) (x : num) (i j : nat) (q : Qc),
    f <> [] /\ g <> [] /\ ends_sorted f /\ ends_sorted g /\ decreasing f /\ increasing g /\
    intersect_stepwise f g (qf 1 2) = Ok (Some x, Some i, Some j, Fin q) /\
    exists y m a n b, nltb x y = true /\ StepAt f y m a /\ StepAt g y n b /\ nleb a (Fin q) = false.
Proof.
  exists [(Fin (qz 1), Fin (qz 10)); (Fin (qz 2), Fin (qz 9))],
         [(Fin (qz 1), Fin (qz 1)); (Fin (qz 2), Fin (qf 19 2))],
         (Fin (qz 1)), 0%nat, 0%nat, (qz 1 * qf 1 2 + (1 - qf 1 2) * qz 10).
  split; [discriminate|]. split; [discriminate|].
  split; [split; [intros p [<-|[<-|[]]]; reflexivity | repeat constructor]|].
  split; [split; [intros p [<-|[<-|[]]]; reflexivity | repeat constructor]|].
  split; [split; [intros p [<-|[<-|[]]]; discriminate | repeat constructor]|].
  split; [split; [intros p [<-|[<-|[]]]; discriminate | repeat constructor]|].
  split; [reflexivity|].
  exists (Fin (qz 2)), 1%nat, (Fin (qz 9)), 1%nat, (Fin (qf 19 2)).
  split; [reflexivity|].
  split; [|split]; [| |reflexivity].
  - split; [eexists; split; reflexivity|]. intros [|j] a w L H; [|lia]. simpl in H. injection H as <- <-. reflexivity.
  - split; [eexists; split; reflexivity|]. intros [|j] a w L H; [|lia]. simpl in H. injection H as <- <-. reflexivity.
Qed.

Lemma intersect_cases f g k :
  f <> [] -> g <> [] -> ends_sorted f -> ends_sorted g -> decreasing f -> increasing g ->
  (exists x i j u w v,
     intersect_stepwise f g k = Ok (Some x, Some i, Some j, v) /\
     Crossing f g x /\ (is_end f x \/ is_end g x) /\ StepAt f x i u /\ StepAt g x j w) \/
  (exists v, intersect_stepwise f g k = Ok (None, None, None, v) /\ forall x, ~ Crossing f g x).
Proof.
  intros Nf Ng Hf Hg Df Ig.
  destruct (intersect_spec f g Hf Hg Df Ig Nf Ng k) as
    [(x & i & u & j & w & E & C & B & Su & Sw)|(xm & i & u & j & w & E & N & _)].
  - left. exists x, i, j, u, w, (ordinate f g (Some x) w u k). auto.
  - right. exists (ordinate f g None w u k). auto.
Qed.
