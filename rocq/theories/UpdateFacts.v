(** Facts about [update_quantity]: equal reduction (water-filling). *)
From Verif Require Import QcTac Num ModelBase ModelCurves ModelHuang ListFacts.

Definition somes (q : list (option Qc)) : list Qc :=
  flat_map (fun o => match o with Some v => [v] | None => [] end) q.

Lemma qnat_pos n : (0 < n)%nat -> 0 < qnat n.
Proof.
  intro H. unfold qnat. destruct n as [|n]; [lia|]. 
  unfold Qclt. rewrite this_qz. change (this 0) with 0%Q. unfold Qlt, inject_Z. simpl. lia.
Qed.
Lemma qnat_S n : qnat (S n) = qnat n + 1.
Proof.
  unfold qnat. apply Qc_is_canon. rewrite this_plus, !this_qz. change (this 1) with 1%Q.
  rewrite Nat2Z.inj_succ. unfold Z.succ. rewrite inject_Z_plus. reflexivity.
Qed.
Lemma qnat_0 : qnat 0 = 0.
Proof. reflexivity. Qed.

Lemma nanargmin_from_spec l i best :
  match nanargmin_from i l best with
  | None => best = None /\ somes l = []
  | Some (j, v) =>
      ((best = Some (j, v)) \/ (exists k, j = (i + k)%nat /\ nth_error l k = Some (Some v))) /\
      (forall x, In x (somes l) -> v <= x) /\
      (forall b w, best = Some (b, w) -> v <= w)
  end.
Proof.
  revert i best; induction l as [|o l IH]; intros i best; simpl.
  - destruct best as [[j v]|]; [|auto]. split; [left; reflexivity|]. split; [contradiction|].
    intros b w E. injection E as <- <-. qlra.
  - destruct o as [v|]; simpl.
    + specialize (IH (S i) (match best with
                            | None => Some (i, v)
                            | Some (_, w) => if qltb v w then Some (i, v) else best end)).
      destruct (nanargmin_from (S i) l _) as [[j u]|].
      * destruct IH as (H1 & H2 & H3). split; [|split].
        -- destruct H1 as [H1|(k & -> & Hk)]; [|right; exists (S k); split; [lia | exact Hk]].
           destruct best as [[b w]|].
           ++ destruct (qltb v w); [|left; exact H1]. injection H1 as <- <-. right. exists 0%nat. split; [lia | reflexivity].
           ++ injection H1 as <- <-. right. exists 0%nat. split; [lia | reflexivity].
        -- intros x [<-|Hx]; [|apply H2, Hx]. destruct best as [[b w]|].
           ++ destruct (qlt_spec v w) as [L|L]; [apply (H3 i v eq_refl)|]. specialize (H3 b w eq_refl). qlra.
           ++ apply (H3 i v eq_refl).
        -- intros b w ->. destruct (qlt_spec v w) as [L|L]; [specialize (H3 i v eq_refl); qlra | apply (H3 b w eq_refl)].
      * destruct IH as [H1 _]. destruct best as [[b w]|]; [destruct (qltb v w)|]; discriminate.
    + specialize (IH (S i) best). destruct (nanargmin_from (S i) l best) as [[j u]|].
      * destruct IH as (H1 & H2 & H3). split; [|split; auto].
        destruct H1 as [H1|(k & -> & Hk)]; [left; exact H1 | right; exists (S k); split; [lia | exact Hk]].
      * exact IH.
Qed.
Lemma nanargmin_some l j v : nanargmin l = Some (j, v) ->
  nth_error l j = Some (Some v) /\ forall x, In x (somes l) -> v <= x.
Proof.
  intro E. pose proof (nanargmin_from_spec l 0 None) as H. unfold nanargmin in E. rewrite E in H.
  destruct H as (H1 & H2 & _). split; [|exact H2].
  destruct H1 as [H1|(k & -> & Hk)]; [discriminate | exact Hk].
Qed.
Lemma nanargmin_none l : nanargmin l = None -> somes l = [].
Proof.
  intro E. pose proof (nanargmin_from_spec l 0 None) as H. unfold nanargmin in E. rewrite E in H. tauto.
Qed.

Lemma somes_remove l i v : nth_error l i = Some (Some v) ->
  qsum (somes (set_nth i None l)) = qsum (somes l) - v /\
  length (somes l) = S (length (somes (set_nth i None l))).
Proof.
  revert i; induction l as [|o l IH]; intros [|i] H; simpl in *; try discriminate.
  - injection H as ->. simpl. split; [ring | reflexivity].
  - destruct (IH i H) as [A B]. destruct o as [x|]; simpl; [|auto]. rewrite A, B. split; [ring | reflexivity].
Qed.

(** [q] is [Q] with some entries, all at most [t], removed *)
Definition removed_below (t : Qc) (q : list (option Qc)) (Q : list Qc) : Prop :=
  Forall2 (fun o x => o = Some x \/ (o = None /\ x <= t)) q Q.

Lemma removed_mono t t' q Q : t <= t' -> removed_below t q Q -> removed_below t' q Q.
Proof.
  intros L H. unfold removed_below in *. induction H; constructor; auto.
  destruct H as [|[? ?]]; [left; assumption | right; split; [assumption | qlra]].
Qed.
Lemma removed_set t q Q i v : removed_below t q Q -> nth_error q i = Some (Some v) -> v <= t ->
  removed_below t (set_nth i None q) Q.
Proof.
  intros H. revert i. induction H as [|o x q Q Ho H IH]; intros [|i] E L; simpl in *; try discriminate.
  - injection E as ->. constructor; [|exact H]. right. split; [reflexivity|].
    destruct Ho as [Ho|[Ho _]]; congruence.
  - constructor; [exact Ho|]. apply IH; auto.
Qed.

Lemma uq_loop_spec Q fuel q gap N i v :
  removed_below (gap / qnat N) q Q -> N = length (somes q) -> (N < fuel)%nat -> 
  nanargmin q = Some (i, v) -> 0 <= gap -> gap <= qsum (somes q) ->
  exists q' gap' N', uq_loop fuel q gap N i v = Ok (q', gap', N') /\
    (0 < N')%nat /\ N' = length (somes q') /\ removed_below (gap' / qnat N') q' Q /\ 0 <= gap' /\
    (forall x, In x (somes q') -> gap' / qnat N' <= x) /\
    gap' - qsum (somes q') = gap - qsum (somes q).
Proof.
  revert q gap N i v; induction fuel as [|fuel IH]; intros q gap N i v Hr HN Hf Hm Hg0 Hg; [lia|].
  simpl. destruct (nanargmin_some _ _ _ Hm) as [Hi Hmin].
  destruct (somes_remove _ _ _ Hi) as [Es El].
  assert (PN : 0 < qnat N) by (apply qnat_pos; lia).
  assert (NZ : qnat N <> 0) by (intro Z; rewrite Z in PN; qlra).
  assert (Eg : gap / qnat N * qnat N = gap) by (field; exact NZ).
  destruct (qlt_spec v (gap / qnat N)) as [L|L].
  - set (q1 := set_nth i None q) in *.
    assert (N1 : (N - 1)%nat = length (somes q1)) by lia.
    destruct (nanargmin q1) as [[i1 v1]|] eqn:E1.
    + assert (P1 : (0 < N - 1)%nat).
      { destruct (nanargmin_some _ _ _ E1) as [_ _]. rewrite N1.
        destruct (somes q1) eqn:Es1; [|simpl; lia].
        exfalso. apply nanargmin_some in E1. destruct E1 as [E1 _].
        clear - E1 Es1. revert i1 E1 Es1. generalize q1. induction q0 as [|o q0 IHq]; intros [|i1] E Es; simpl in *; try discriminate.
        - injection E as ->. discriminate.
        - destruct o; [discriminate|]. eapply IHq; eauto. }
      assert (PN1 : 0 < qnat (N - 1)) by (apply qnat_pos; exact P1).
      assert (NZ1 : qnat (N - 1) <> 0) by (intro Z; rewrite Z in PN1; qlra).
      assert (EN : qnat N = qnat (N - 1) + 1).
      { replace N with (S (N - 1)) at 1 by lia. apply qnat_S. }
      assert (Eg1 : (gap - v) / qnat (N - 1) * qnat (N - 1) = gap - v) by (field; exact NZ1).
      assert (Tle : gap / qnat N <= (gap - v) / qnat (N - 1)).
      { set (t := gap / qnat N) in *. set (t1 := (gap - v) / qnat (N - 1)) in *.
        set (n := qnat (N - 1)) in *. rewrite EN in Eg. clear - Eg Eg1 L PN1. qnra. }
      assert (Hg0' : 0 <= gap - v).
      { set (t := gap / qnat N) in *. rewrite EN in Eg. set (n := qnat (N - 1)) in *.
        assert (0 <= t) by (clear - Eg Hg0 PN1; qnra). clear - Eg Hg0 L PN1 H. qnra. }
      destruct (IH q1 (gap - v) (N - 1)%nat i1 v1) as (q' & gap' & N' & E & A1 & A2 & A3 & A4 & A5 & A6); auto.
      * apply (removed_mono _ _ _ _ Tle). apply removed_set with (v := v); auto. qlra.
      * lia.
      * qlra.
      * exists q', gap', N'. split; [exact E|]. repeat split; auto. qlra.
    + exfalso. apply nanargmin_none in E1. rewrite E1 in Es, El. simpl in Es, El.
      assert (N1' : qnat N = 1) by (rewrite HN, El; unfold qnat; apply Qc_is_canon; reflexivity).
      rewrite N1' in L. replace (gap / 1) with gap in L by (field; discriminate). qlra.
  - exists q, gap, N. split; [reflexivity|]. repeat split; auto; [lia|].
    intros x Hx. specialize (Hmin x Hx). qlra.
Qed.

Lemma fold_qmax l a : a <= fold_left qmax l a /\ forall x, In x l -> x <= fold_left qmax l a.
Proof.
  revert a; induction l as [|b l IH]; intro a; simpl.
  - split; [qlra | contradiction].
  - destruct (IH (qmax a b)) as [A B]. pose proof (qmax_l a b). pose proof (qmax_r a b).
    split; [qlra|]. intros x [<-|Hx]; [qlra | auto].
Qed.

Lemma somes_map_Some l : somes (map Some l) = l.
Proof. induction l; simpl; congruence. Qed.

Lemma removed_values t q Q : removed_below t q Q -> 0 <= t -> (forall x, In x (somes q) -> t <= x) ->
  map (fun x => qmax 0 (x - t)) Q =
    map (fun o => match o with Some x => x - t | None => 0 end) q /\
  qsum (map (fun x => qmax 0 (x - t)) Q) = qsum (somes q) - qnat (length (somes q)) * t.
Proof.
  intros H T. induction H as [|o x q Q Ho H IH]; intro A.
  - split; [reflexivity|]. simpl. rewrite qnat_0. ring.
  - destruct Ho as [->|[-> L]]; simpl in *.
    + destruct IH as [I1 I2]; [intros; apply A; right; assumption|].
      assert (Q0 : t <= x) by (apply A; left; reflexivity).
      assert (E : qmax 0 (x - t) = x - t) by (unfold qmax; qcase; qlra).
      rewrite E, I1. split; [reflexivity|]. rewrite <- I1, I2.
      change (S (length (somes q))) with (S (length (somes q))). rewrite qnat_S. ring.
    + destruct IH as [I1 I2]; [exact A|].
      assert (E : qmax 0 (x - t) = 0) by (unfold qmax; qcase; qlra).
      rewrite E, I1. split; [reflexivity|]. rewrite <- I1, I2. ring.
Qed.

Theorem update_quantity_spec Q gap : Q <> [] -> 0 <= gap -> gap <= qsum Q ->
  exists t, 0 <= t /\ update_quantity Q gap = Ok (map (fun x => qmax 0 (x - t)) Q) /\
    qsum (map (fun x => qmax 0 (x - t)) Q) = qsum Q - gap.
Proof.
  intros Hne H0 H1. unfold update_quantity.
  destruct (nanargmin (map Some Q)) as [[i v]|] eqn:E.
  - assert (Hr : removed_below (gap / qnat (length Q)) (map Some Q) Q).
    { unfold removed_below. generalize (gap / qnat (length Q)). intro t0. clear. induction Q; simpl; constructor; auto. }
    destruct (uq_loop_spec Q (S (length Q)) (map Some Q) gap (length Q) i v Hr) as
      (q' & gap' & N' & El & A1 & A2 & A3 & A4 & A5 & A6); auto.
    + rewrite somes_map_Some. reflexivity.
    + rewrite somes_map_Some. exact H1.
    + rewrite El. cbn [bind]. set (t := gap' / qnat N') in *.
      assert (PN : 0 < qnat N') by (apply qnat_pos; exact A1).
      assert (NZ : qnat N' <> 0) by (intro Z; rewrite Z in PN; qlra).
      assert (Et : t * qnat N' = gap') by (unfold t; field; exact NZ).
      assert (T0 : 0 <= t) by (clear - Et A4 PN; qnra).
      destruct (removed_values t q' Q A3 T0 A5) as [V1 V2].
      exists t. split; [exact T0|]. split.
      * rewrite V1, map_map.
        set (y := fun o : option Qc => (match o with Some x => x | None => 0 end) - t).
        change (fun x : option Qc => match x with Some x0 => x0 | None => 0 end - t) with y.
        (* some entry is present *)
        assert (Hs : exists x0, In (Some x0) q').
        { rewrite A2 in A1. clear - A1. induction q' as [|o q IH]; simpl in A1; [lia|].
          destruct o as [x|]; [exists x; left; reflexivity|].
          destruct IH as (x & Hx); [exact A1|]. exists x; right; exact Hx. }
        destruct Hs as (x0 & Hx0).
        assert (In0 : t <= x0).
        { apply A5. clear - Hx0. induction q' as [|o q IH]; [contradiction|]. destruct Hx0 as [->|Hx0]; simpl; [left; reflexivity|].
          apply in_or_app. right. apply IH, Hx0. }
        destruct q' as [|o q']; [contradiction|]. cbn [map].
        set (mx := list_max (y o) (map y q')).
        assert (Mx : forall o', In o' (o :: q') -> y o' <= mx).
        { intros o' Ho'. unfold mx, list_max. destruct (fold_qmax (map y q') (y o)) as [B1 B2].
          destruct Ho' as [<-|Ho']; [exact B1|]. apply B2, in_map, Ho'. }
        assert (M0 : 0 <= mx) by (specialize (Mx _ Hx0); unfold y in Mx; qlra).
        assert (Cl : forall o', In o' (o :: q') -> qmin mx (qmax (y o') 0) =
                       match o' with Some x => x - t | None => 0 end).
        { intros o' Ho'. specialize (Mx o' Ho'). destruct o' as [x|]; unfold y in *.
          - assert (t <= x).
            { apply A5. clear - Ho'. revert Ho'. generalize (o :: q'). induction l as [|c l IH]; [contradiction|].
              intros [->|H]; simpl; [left; reflexivity|]. apply in_or_app. right. apply IH, H. }
            destruct (qmax_case (x - t) 0) as [[E1 ?]|[E1 ?]]; rewrite E1;
            match goal with |- qmin ?a ?b = _ => destruct (qmin_case a b) as [[E2 ?]|[E2 ?]] end; rewrite E2; qlra.
          - destruct (qmax_case (0 - t) 0) as [[E1 ?]|[E1 ?]]; rewrite E1;
            match goal with |- qmin ?a ?b = _ => destruct (qmin_case a b) as [[E2 ?]|[E2 ?]] end; rewrite E2; qlra. }
        change (y o :: map y q') with (map y (o :: q')). rewrite map_map. f_equal.
        change (map (fun x : option Qc => qmin mx (qmax (y x) 0)) (o :: q') =
                map (fun o0 => match o0 with Some x => x - t | None => 0 end) (o :: q')).
        apply map_ext_in. exact Cl.
      * rewrite V2, <- A2. rewrite somes_map_Some in A6. qnra.
  - exfalso. apply nanargmin_none in E. rewrite somes_map_Some in E. congruence.
Qed.
