(** The mechanisms on tables whose quantities can have any sign. *)
From Verif Require Import QcTac Num NumFacts ModelBase ModelCurves ModelHuang ModelMuda ModelUniform ListFacts Spec SpecMuda SpecErrors SpecTables
  CurveFacts IntersectFacts HuangFacts MudaFacts MudaErrors ErrorFacts.

(** ** Two curves that go on for ever, with ends in any order *)
Section Free.
  Variables (f g : curve) (k : Qc).
  Hypothesis If : In PInf (map fst f).
  Hypothesis Ig : In PInf (map fst g).
  Hypothesis Hpos : forall x, In x (abscissae f g) -> nle (Fin 0) x.
  Lemma free_max (h : curve) : In PInf (map fst h) -> (forall x, In x (map fst h) -> ok x) -> col_max h = Ok PInf.
  Proof.
    intros Hi Ho. destruct (col_max_full h Ho) as (m & E & Im & Hm); [intros ->; contradiction|]. rewrite E. f_equal.
    apply nle_antisym; [apply nle_PInf, Ho, Im | apply Hm, Hi].
  Qed.
  Lemma free_step (h : curve) x : In PInf (map fst h) -> nle (Fin 0) x -> exists i v, get_value_stepwise x h = Some v /\ StepAt h x i v.
  Proof.
    intros Hi Hx. apply in_map_iff in Hi. destruct Hi as (p & E & Hp).
    destruct (StepAt_exists h x p Hp) as (i & v & Sv); [rewrite E; apply nle_PInf, (nle_ok _ _ Hx)|]. exists i, v. split; [|exact Sv].
    unfold get_value_stepwise. destruct (nltb x (Fin 0)) eqn:N; [exfalso; exact (nlt_not_le _ _ N Hx)|]. apply step_search_iff. eauto.
  Qed.
  Lemma intersect_free :
    (exists x i j u w, intersect_stepwise f g k = Ok (Some x, Some i, Some j, ordinate f g (Some x) w u k) /\
       StepAt f x i u /\ StepAt g x j w /\ nlt w u) \/
    (exists i j u w, intersect_stepwise f g k = Ok (None, None, None, ordinate f g None w u k) /\ StepAt f PInf i u /\ StepAt g PInf j w).
  Proof.
    assert (Ho : forall y, In y (map fst g ++ map fst f) -> ok y).
    { intros y Hy. apply (nle_ok (Fin 0)), Hpos. unfold abscissae. apply in_app_or in Hy. apply in_or_app. tauto. }
    unfold intersect_stepwise. rewrite (free_max f If), (free_max g Ig) by (intros y Hy; apply Ho, in_or_app; auto). cbn [bind].
    change (nmin PInf PInf) with PInf. set (xs := common_xs f g PInf).
    assert (C : forall x, In x xs <-> In x (abscissae f g)).
    { intro x. unfold xs, common_xs. rewrite nsort_In, filter_In, ndedup_In by exact Ho. unfold abscissae. rewrite !in_app_iff.
      split; [tauto|]. intro H. split; [tauto|]. apply nle_PInf, Ho, in_or_app. tauto. }
    assert (St : StronglySorted nlt xs).
    { unfold xs, common_xs. apply nsort_sorted.
      - intros y Hy. apply filter_In in Hy. destruct Hy as [Hy _]. apply Ho, (ndedup_In y _ Ho), Hy.
      - apply NoDup_filter, ndedup_NoDup, Ho. }
    set (V := fun (h : curve) x => match get_value_stepwise x h with Some v => v | None => NaN end).
    assert (P : forall x, In x xs -> nle (Fin 0) x) by (intros x Hx; apply Hpos, C, Hx).
    rewrite (map_ext_in _ (fun x => (x, Some (V f x), Some (V g x)))).
    2:{ intros x Hx. unfold V. destruct (free_step f x If (P x Hx)) as (i & v & -> & _), (free_step g x Ig (P x Hx)) as (j & w & -> & _). reflexivity. }
    destruct (scan_spec (V f) (V g) xs None) as (r & -> & Hr). cbn [bind].
    destruct Hr as [(l1 & x & y & l2 & E & C1 & _ & ->)|[-> _]].
    - left. assert (Ix : In x xs) by (rewrite E; apply in_or_app; right; left; reflexivity).
      unfold V in C1.
      destruct (free_step f x If (P x Ix)) as (i & u & Eu & Su), (free_step g x Ig (P x Ix)) as (j & w & Ew & Sw). rewrite Eu, Ew in C1.
      exists x, i, j, u, w. cbn [option_map]. rewrite (argmax_StepAt _ _ _ _ Su), (argmax_StepAt _ _ _ _ Sw).
      destruct (StepAt_in _ _ _ _ Su) as (a & _ & _ & Na). destruct (StepAt_in _ _ _ _ Sw) as (b & _ & _ & Nb).
      unfold piece_value. rewrite Na, Nb. cbn [bind]. split; [reflexivity|]. auto.
    - right. assert (Im : In PInf xs) by (apply C, in_or_app; left; exact If).
      assert (Hlast : exists t, rev xs = PInf :: t).
      { destruct (exists_last (l := xs)) as (l' & z & El); [intro N; rewrite N in Im; contradiction|].
        rewrite El, rev_app_distr. simpl. exists (rev l'). f_equal.
        assert (Iz : In z xs) by (rewrite El; apply in_or_app; right; left; reflexivity). rewrite El in Im, St.
        apply in_app_or in Im. destruct Im as [Im|[Im|[]]]; [|exact Im]. exfalso.
        apply sorted_app in St. destruct St as (A & _). specialize (A _ Im).
        pose proof (nlt_not_le _ _ A) as K. apply K, nle_PInf, (nle_ok (Fin 0)), P, Iz. }
      destruct Hlast as (t & Et).
      assert (P0 : nle (Fin 0) PInf) by reflexivity.
      destruct (free_step f PInf If P0) as (i & u & Eu & Su), (free_step g PInf Ig P0) as (j & w & Ew & Sw).
      exists i, j, u, w. cbn [option_map piece_value]. unfold value_at_last. rewrite Et. cbn [bind]. rewrite Eu, Ew. cbn [bind].
      split; [reflexivity|]. auto.
  Qed.
End Free.

(** ** The curves of a table *)
Lemma cumsum_from_In a l x : In x (cumsum_from a l) <-> exists l1 l2, l = l1 ++ l2 /\ l1 <> [] /\ x = a + qsum l1.
Proof.
  revert a. induction l as [|y l IH]; intro a; cbn [cumsum_from In].
  - split; [contradiction|]. intros ([|? ?] & l2 & E & N & _); [congruence | discriminate].
  - rewrite IH. split.
    + intros [<-|(l1 & l2 & -> & N & ->)].
      * exists [y], l. split; [reflexivity|]. split; [discriminate|]. cbn [qsum]. ring.
      * exists (y :: l1), l2. split; [reflexivity|]. split; [discriminate|]. cbn [qsum]. ring.
    + intros ([|z l1] & l2 & E & N & ->); [congruence|]. injection E as <- ->. cbn [qsum]. destruct l1 as [|z l1].
      * left. cbn [qsum]. ring.
      * right. exists (z :: l1), l2. split; [reflexivity|]. split; [discriminate|]. ring.
Qed.
Lemma qsum_map_qty l : qsum (map qty l) = qsumf qty l.
Proof. reflexivity. Qed.
Lemma map_split {A B} (h : A -> B) l b1 b2 : map h l = b1 ++ b2 -> exists a1 a2, l = a1 ++ a2 /\ b1 = map h a1 /\ b2 = map h a2.
Proof.
  revert l. induction b1 as [|b b1 IH]; intros l E; [exists [], l; auto|].
  destruct l as [|a l]; [discriminate|]. injection E as <- E. destruct (IH l E) as (a1 & a2 & -> & -> & ->). exists (a :: a1), a2. auto.
Qed.
Lemma curve_ends l p x : In x (map fst (curve_rows l ++ [(PInf, p)])) <-> x = PInf \/ exists l1 l2, l = l1 ++ l2 /\ l1 <> [] /\ x = Fin (qsumf qty l1).
Proof.
  unfold curve_rows. rewrite map_app, in_app_iff.
  assert (L : forall A B (a : list A) (b : list B), length a = length b -> map fst (combine a b) = a).
  { induction a as [|y a IH]; intros [|z b] E; try discriminate; [reflexivity|]. cbn [combine map fst]. f_equal. apply IH. injection E as E. exact E. }
  rewrite L.
  2:{ rewrite !map_length. unfold cumsum. generalize 0 as a. induction l as [|r l IH]; intro a; cbn [map cumsum_from length]; [reflexivity | f_equal; apply IH]. }
  split.
  - intros [H|[<-|[]]]; [|left; reflexivity]. right. apply in_map_iff in H. destruct H as (y & <- & H). apply cumsum_from_In in H.
    destruct H as (b1 & b2 & E & N & ->). apply map_split in E. destruct E as (l1 & l2 & -> & -> & ->). exists l1, l2. split; [reflexivity|].
    split; [intros ->; apply N; reflexivity|]. f_equal. rewrite qsum_map_qty. ring.
  - intros [->|(l1 & l2 & -> & N & ->)]; [right; left; reflexivity|]. left. apply in_map_iff. exists (qsumf qty l1). split; [reflexivity|].
    apply cumsum_from_In. exists (map qty l1), (map qty l2). split; [apply map_app|]. split; [intro E; apply N; destruct l1; [reflexivity | discriminate]|].
    rewrite qsum_map_qty. ring.
Qed.
Lemma curve_sign l p : (forall x, In x (map fst (curve_rows l ++ [(PInf, p)])) -> nle (Fin 0) x) <-> ~ overdrawn_list l.
Proof.
  split.
  - intros H (l1 & l2 & -> & L). destruct l1 as [|r l1]; [cbn in L; qlra|].
    assert (X : nle (Fin 0) (Fin (qsumf qty (r :: l1)))) by (apply H, curve_ends; right; exists (r :: l1), l2; split; [reflexivity|]; split; [discriminate | reflexivity]).
    apply nle_Fin in X. qlra.
  - intros H x Hx. apply curve_ends in Hx. destruct Hx as [->|(l1 & l2 & -> & N & ->)]; [reflexivity|]. apply nle_Fin.
    destruct (qlt_spec (qsumf qty l1) 0) as [L|L]; [|exact L]. exfalso. apply H. exists l1, l2. auto.
Qed.
Lemma overdrawn_list_dec l : overdrawn_list l \/ ~ overdrawn_list l.
Proof.
  assert (K : forall l a, (exists l1 l2, l = l1 ++ l2 /\ a + qsumf qty l1 < 0) \/ ~ (exists l1 l2, l = l1 ++ l2 /\ a + qsumf qty l1 < 0)).
  { clear. induction l as [|r l IH]; intro a.
    - destruct (qlt_spec a 0) as [L|L]; [left; exists [], []; split; [reflexivity|]; cbn; qlra|]. right. intros ([|? ?] & l2 & E & H); [cbn in H; qlra | discriminate].
    - destruct (qlt_spec a 0) as [L|L]; [left; exists [], (r :: l); split; [reflexivity|]; cbn; qlra|].
      destruct (IH (a + qty r)) as [(l1 & l2 & -> & H)|H].
      + left. exists (r :: l1), l2. split; [reflexivity|]. rewrite qsumf_cons. qlra.
      + right. intros ([|z l1] & l2 & E & H'); [cbn in H'; qlra|]. injection E as <- ->. apply H. exists l1, l2. split; [reflexivity|]. rewrite qsumf_cons in H'. qlra. }
  destruct (K l 0) as [(l1 & l2 & E & H)|H]; [left; exists l1, l2; split; [exact E | qlra]|]. right. intros (l1 & l2 & E & L). apply H. exists l1, l2. split; [exact E | qlra].
Qed.

Section Table.
  Variables (S : sorter) (d : df).
  Notation f := (fst (demand_curve_from_bids S d)).
  Notation g := (fst (supply_curve_from_bids S d)).
  Lemma table_PInf : In PInf (map fst f) /\ In PInf (map fst g).
  Proof. split; (apply curve_ends; left; reflexivity). Qed.
  Lemma overdrawn_dec : overdrawn S d \/ ~ overdrawn S d.
  Proof. unfold overdrawn. destruct (overdrawn_list_dec (s_desc S (filter buying d))), (overdrawn_list_dec (s_asc S (filter (fun r => negb (buying r)) d))); tauto. Qed.
  Lemma table_sign : (forall x, In x (abscissae f g) -> nle (Fin 0) x) <-> ~ overdrawn S d.
  Proof.
    unfold overdrawn. split.
    - intros H [O|O]; revert O; [apply (curve_sign _ (Fin 0)) | apply (curve_sign _ PInf)]; intros x Hx; apply H, in_or_app; [left | right]; exact Hx.
    - intros H x Hx. apply in_app_or in Hx. destruct Hx as [Hx|Hx]; revert x Hx; [apply (curve_sign _ (Fin 0)) | apply (curve_sign _ PInf)]; intro O; apply H; [left | right]; exact O.
  Qed.
  Lemma table_ok x : In x (abscissae f g) -> ok x.
  Proof. intro Hx. apply in_app_or in Hx. destruct Hx as [Hx|Hx]; apply curve_ends in Hx; destruct Hx as [->|(? & ? & _ & _ & ->)]; [apply ok_PInf | apply ok_Fin | apply ok_PInf | apply ok_Fin]. Qed.
  Lemma table_ne : f <> [] /\ g <> [].
  Proof. destruct table_PInf as [A B]. split; intro E; [rewrite E in A | rewrite E in B]; contradiction. Qed.
  Lemma table_overdrawn k : overdrawn S d -> intersect_stepwise f g k = Err TypeError.
  Proof.
    intro O. destruct (intersect_full f g k table_ok) as (_ & H & _). destruct table_ne as [A B]. apply H; [exact A | exact B|].
    assert (K : forall l p, overdrawn_list l -> exists x, In x (map fst (curve_rows l ++ [(PInf, p)])) /\ nlt x (Fin 0)).
    { intros l p (l1 & l2 & -> & L). destruct l1 as [|r l1]; [cbn in L; qlra|]. exists (Fin (qsumf qty (r :: l1))). split; [|apply nlt_Fin, L].
      apply curve_ends. right. exists (r :: l1), l2. split; [reflexivity|]. split; [discriminate | reflexivity]. }
    destruct O as [O|O]; [destruct (K _ (Fin 0) O) as (x & Hx & L) | destruct (K _ PInf O) as (x & Hx & L)]; exists x; (split; [apply in_or_app; auto | exact L]).
  Qed.
  Lemma f_value x i u : StepAt f x i u -> exists pb, u = Fin pb /\ (i <= length (s_desc S (buyers d)))%nat.
  Proof.
    intro H. destruct (StepAt_in _ _ _ _ H) as (a & _ & _ & N). destruct (crows_app_nth _ _ _ _ _ N) as [(r & E & ->)|[-> E]].
    - exists (price r). split; [reflexivity|]. apply Nat.lt_le_incl, nth_error_Some. congruence.
    - injection E as -> ->. exists 0. auto.
  Qed.
  Lemma g_value x i w : StepAt g x i w -> (exists ps, w = Fin ps /\ (i < length (s_asc S (sellers d)))%nat) \/ w = PInf.
  Proof.
    intro H. destruct (StepAt_in _ _ _ _ H) as (a & _ & _ & N). destruct (crows_app_nth _ _ _ _ _ N) as [(r & E & ->)|[-> E]].
    - left. exists (price r). split; [reflexivity|]. apply nth_error_Some. congruence.
    - injection E as -> ->. right. reflexivity.
  Qed.
  Lemma g_infinite i w : StepAt g PInf i w -> w = PInf.
  Proof.
    intro H. destruct (StepAt_in _ _ _ _ H) as (a & Ia & La & N). destruct (crows_app_nth _ _ _ _ _ N) as [(r & E & ->)|[-> E]].
    - exfalso. assert (L : (i < length (curve_rows (s_asc S (sellers d))))%nat).
      { change (curve_rows (s_asc S (sellers d))) with (crows 0 (s_asc S (sellers d))). rewrite crows_length. apply nth_error_Some. congruence. }
      unfold supply_curve_from_bids in N. cbn [fst] in N. rewrite nth_error_app1 in N by exact L.
      apply nth_error_In in N. unfold curve_rows in N. apply in_combine_l in N. apply in_map_iff in N. destruct N as (y & <- & _). discriminate.
    - injection E as -> ->. reflexivity.
  Qed.
  Lemma prefix_nonneg l n : ~ overdrawn_list l -> 0 <= qsum (map qty (firstn n l)).
  Proof.
    intro H. rewrite qsum_map_qty. destruct (qlt_spec (qsumf qty (firstn n l)) 0) as [L|L]; [|exact L]. exfalso. apply H.
    exists (firstn n l), (skipn n l). split; [symmetry; apply firstn_skipn | exact L].
  Qed.

  Theorem huang_table :
    (overdrawn S d -> huang_auction S d = Err TypeError) /\ (~ overdrawn S d -> exists tm ex, huang_auction S d = Ok (tm, ex)).
  Proof.
    split; intro O; unfold huang_auction; [rewrite table_overdrawn by exact O; reflexivity|].
    destruct table_PInf as [P1 P2].
    destruct (intersect_free f g (qf 1 2) P1 P2 (proj2 table_sign O)) as [(x & b & s & u & w & E & Sf & Sg & Lwu)|(i & j & u & w & E & _)].
    2:{ rewrite E. cbn [bind]. eauto. }
    rewrite E. cbn [bind].
    destruct (StepAt_in _ _ _ _ Sf) as (af & _ & _ & Nf). destruct (StepAt_in _ _ _ _ Sg) as (ag & _ & _ & Ng).
    destruct (f_value _ _ _ Sf) as (pb & -> & Lb). destruct (g_value _ _ _ Sg) as [(ps & -> & Ls)| ->]; [|discriminate].
    rewrite Ng, Nf. destruct (Nat.ltb 0 b && Nat.ltb 0 s) eqn:C; [|eauto].
    apply andb_prop in C. destruct C as [C1 C2]. apply Nat.ltb_lt in C1. apply Nat.ltb_lt in C2.
    assert (O1 : 0 <= qsum (map qty (firstn b (s_desc S (buyers d))))) by (apply prefix_nonneg; intro X; apply O; left; exact X).
    assert (O2 : 0 <= qsum (map qty (firstn s (s_asc S (sellers d))))) by (apply prefix_nonneg; intro X; apply O; right; exact X).
    assert (N1 : map qty (firstn b (s_desc S (buyers d))) <> []).
    { intro Z. apply (f_equal (@length _)) in Z. rewrite map_length, firstn_length in Z. cbn [length] in Z. lia. }
    assert (N2 : map qty (firstn s (s_asc S (sellers d))) <> []).
    { intro Z. apply (f_equal (@length _)) in Z. rewrite map_length, firstn_length in Z. cbn [length] in Z. lia. }
    cbv zeta. set (sb := qsum (map qty (firstn b (s_desc S (buyers d))))) in *. set (ss := qsum (map qty (firstn s (s_asc S (sellers d))))) in *.
    destruct (qlt_spec 0 (ss - sb)) as [L|L].
    - destruct (proj1 (update_quantity_full (map qty (firstn s (s_asc S (sellers d)))) (ss - sb))) as (Q' & -> & _); [split; [exact N2 | fold ss; qlra]|].
      cbn [bind]. eauto.
    - destruct (proj1 (update_quantity_full (map qty (firstn b (s_desc S (buyers d)))) (- (ss - sb)))) as (Q' & -> & _); [split; [exact N1 | fold sb; qlra]|].
      cbn [bind]. eauto.
  Qed.
  Lemma price_table :
    (overdrawn S d -> find_competitive_price S d = Err TypeError) /\
    (~ overdrawn S d -> find_competitive_price S d = Ok PInf \/ exists p, find_competitive_price S d = Ok (Fin p)).
  Proof.
    split; intro O; unfold find_competitive_price; [rewrite table_overdrawn by exact O; reflexivity|].
    destruct table_PInf as [P1 P2].
    destruct (intersect_free f g (qf 1 2) P1 P2 (proj2 table_sign O)) as [(x & b & s & u & w & E & Sf & Sg & Lwu)|(i & j & u & w & E & Sf & Sg)].
    - right. rewrite E. cbn [bind]. destruct (f_value _ _ _ Sf) as (pb & -> & _). destruct (g_value _ _ _ Sg) as [(ps & -> & _)| ->]; [|discriminate].
      unfold ordinate. destruct (mem_col (Some x) f && mem_col (Some x) g); [eexists; reflexivity|]. destruct (mem_col (Some x) f); eauto.
    - left. rewrite E. cbn [bind]. destruct (f_value _ _ _ Sf) as (pb & -> & _). rewrite (g_infinite _ _ Sg). reflexivity.
  Qed.
  Theorem uniform_table :
    (overdrawn S d -> uniform_price_mechanism S d = Err TypeError) /\
    (~ overdrawn S d -> uniform_price_mechanism S d = Err TypeError \/ exists tm ex, uniform_price_mechanism S d = Ok (tm, ex)).
  Proof.
    split; intro O; unfold uniform_price_mechanism; [rewrite table_overdrawn by exact O; reflexivity|].
    destruct table_PInf as [P1 P2].
    destruct (intersect_free f g (qf 1 2) P1 P2 (proj2 table_sign O)) as [(x & b & s & u & w & E & Sf & Sg & Lwu)|(i & j & u & w & E & Sf & Sg)].
    2:{ left. rewrite E. reflexivity. }
    right. rewrite E. cbn [bind]. destruct (f_value _ _ _ Sf) as (pb & -> & _). destruct (g_value _ _ _ Sg) as [(ps & -> & _)| ->]; [|discriminate].
    assert (V : exists p, ordinate f g (Some x) (Fin ps) (Fin pb) (qf 1 2) = Fin p).
    { unfold ordinate. destruct (mem_col (Some x) f && mem_col (Some x) g); [eexists; reflexivity|]. destruct (mem_col (Some x) f); eauto. }
    destruct V as (p & ->). cbv zeta. destruct (qltb _ _); eauto.
  Qed.
End Table.
