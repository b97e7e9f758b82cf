(** The intersection of two curves with any values, and the curves of tables with infinite and NaN prices. *)
From Verif Require Import QcTac Num NumFacts ListFacts ModelBase ModelCurves ModelHuang ModelAny ModelWild Spec SpecWild CurveFacts IntersectFacts UnitFacts.

(** ** Neighbouring abscissae *)
Definition end_of (f g : steps) (x : num) : Prop := is_end f x \/ is_end g x.
Definition next_end (f g : steps) (x y : num) : Prop :=
  end_of f g x /\ end_of f g y /\ nlt x y /\ forall z, end_of f g z -> nle z x \/ nle y z.

Lemma sorted_next (l : list num) x y : StronglySorted nlt l -> In x l -> In y l -> nlt x y ->
  (forall z, In z l -> nle z x \/ nle y z) -> exists l1 l2, l = l1 ++ x :: y :: l2.
Proof.
  intros So Ix Iy L H. apply in_split in Ix. destruct Ix as (l1 & l2 & ->). exists l1.
  destruct (sorted_app _ _ _ _ So) as (A1 & A2 & _ & A4 & _).
  apply in_app_or in Iy. destruct Iy as [Iy|[->|Iy]].
  - exfalso. apply (nlt_irrefl x), (nlt_trans _ y); [exact L | apply A1, Iy].
  - exfalso. exact (nlt_irrefl _ L).
  - destruct l2 as [|z l2]; [destruct Iy|]. exists l2. do 2 f_equal.
    destruct Iy as [->|Iy]; [reflexivity|]. exfalso.
    assert (Lz : nlt x z) by (apply A2; left; reflexivity).
    inversion_clear A4 as [|? ? _ F]. rewrite Forall_forall in F. specialize (F y Iy).
    destruct (H z) as [C|C]; [apply in_or_app; right; right; left; reflexivity | exact (nlt_not_le _ _ Lz C) | exact (nlt_not_le _ _ F C)].
Qed.

Section Pairs.
  Variables f g : steps.
  Hypothesis Hf : ends_sorted f.
  Hypothesis Hg : ends_sorted g.
  Hypothesis Ef : is_end f PInf.
  Hypothesis Eg : is_end g PInf.
  Lemma end_pos x : end_of f g x -> nle (Fin 0) x.
  Proof. intros [(v & H)|(v & H)]; [apply (proj1 Hf _ H) | apply (proj1 Hg _ H)]. Qed.
  Lemma end_ok x : end_of f g x -> ok x.
  Proof. intro H. apply end_pos in H. apply (nle_ok _ _ H). Qed.
  Lemma step_some (h : steps) x : is_end h PInf -> ok x -> exists i u, StepAt h x i u.
  Proof. intros (v & Hv) Ox. apply (StepAt_exists h x (PInf, v) Hv). apply nle_PInf, Ox. Qed.
  Lemma intersect_pairs k :
    (exists x y i j u w i' j' u' w' v, intersect_stepwise f g k = Ok (Some x, Some i, Some j, v) /\ next_end f g x y /\
       StepAt f x i u /\ StepAt g x j w /\ nlt w u /\ StepAt f y i' u' /\ StepAt g y j' w' /\ nlt u' w') \/
    (exists v, intersect_stepwise f g k = Ok (None, None, None, v) /\
       forall x y i j u w i' j' u' w', next_end f g x y -> StepAt f x i u -> StepAt g x j w -> StepAt f y i' u' -> StepAt g y j' w' -> ~ (nlt w u /\ nlt u' w')).
  Proof.
    assert (Nf : f <> []) by (intro E; rewrite E in Ef; destruct Ef as (v & [])).
    assert (Ng : g <> []) by (intro E; rewrite E in Eg; destruct Eg as (v & [])).
    destruct (x_max_spec f g Hf Hg Nf Ng) as (fm & gm & E1 & E2 & Pm & Im & Hd). cbn zeta in *.
    assert (Em : nmin fm gm = PInf).
    { apply nle_antisym; [apply nle_PInf, (nle_ok _ _ Pm)|]. apply Hd; [reflexivity|]. split; apply step_some; auto; discriminate. }
    rewrite Em in *. set (xs := common_xs f g PInf) in *.
    assert (C : forall x, In x xs <-> end_of f g x).
    { intro x. unfold xs. rewrite common_In by assumption. unfold end_of. split; [tauto|]. intro H. split; [exact H|]. apply nle_PInf, end_ok, H. }
    assert (So : StronglySorted nlt xs) by (apply common_sorted; assumption).
    assert (Val : forall h x, is_end h PInf -> In x xs -> exists i u, StepAt h x i u /\ get_value_stepwise x h = Some u /\ fval h x = u).
    { intros h x Hh Hx. apply C in Hx. destruct (step_some h x Hh (end_ok _ Hx)) as (i & u & Hu). exists i, u. split; [exact Hu|].
      destruct (fval_StepAt h x i u (end_pos _ Hx) Hu). auto. }
    assert (Ep : map (fun x => (x, get_value_stepwise x f, get_value_stepwise x g)) xs = map (fun x => (x, Some (fval f x), Some (fval g x))) xs).
    { apply map_ext_in. intros x Hx. destruct (Val f x Ef Hx) as (i & u & _ & Au & Bu), (Val g x Eg Hx) as (j & w & _ & Aw & Bw). rewrite Au, Bu, Aw, Bw. reflexivity. }
    destruct (scan_spec (fval f) (fval g) xs None) as (r & Es & Hr). rewrite <- Ep in Es.
    unfold intersect_stepwise. rewrite E1, E2. cbn [bind]. rewrite Em. fold xs. rewrite Es. cbn [bind].
    destruct Hr as [(l1 & x & y & l2 & E & C1 & C2 & ->)|[-> Hno]].
    - left. assert (Ix : In x xs) by (rewrite E; apply in_or_app; right; left; reflexivity).
      assert (Iy : In y xs) by (rewrite E; apply in_or_app; right; right; left; reflexivity).
      destruct (Val f x Ef Ix) as (i & u & Hu & _ & Eu), (Val g x Eg Ix) as (j & w & Hw & _ & Ew).
      destruct (Val f y Ef Iy) as (i' & u' & Hu' & _ & Eu'), (Val g y Eg Iy) as (j' & w' & Hw' & _ & Ew'). rewrite Eu, Ew in C1. rewrite Eu', Ew' in C2.
      exists x, y, i, j, u, w, i', j', u', w'. cbn [option_map]. rewrite (argmax_StepAt _ _ _ _ Hu), (argmax_StepAt _ _ _ _ Hw).
      destruct (StepAt_in _ _ _ _ Hu) as (a & _ & _ & Na). destruct (StepAt_in _ _ _ _ Hw) as (b & _ & _ & Nb).
      unfold piece_value. rewrite Na, Nb. cbn [bind]. eexists. split; [reflexivity|]. split; [|repeat (split; [assumption|]); assumption].
      split; [apply C, Ix|]. split; [apply C, Iy|]. rewrite E in So. split; [destruct (sorted_app _ _ _ _ So) as (_ & A2 & _); apply A2; left; reflexivity|].
      intros z Hz. apply C in Hz. rewrite E in Hz. exact (sorted_nlt_between _ _ _ _ _ So Hz).
    - right. destruct (Val f PInf Ef Im) as (i & u & Hu & Gu & _), (Val g PInf Eg Im) as (j & w & Hw & Gw & _).
      assert (Hlast : exists t, rev xs = PInf :: t).
      { destruct (exists_last (l := xs)) as (l' & z & El); [intro N; rewrite N in Im; contradiction|].
        rewrite El, rev_app_distr. simpl. exists (rev l'). f_equal.
        assert (Iz : In z xs) by (rewrite El; apply in_or_app; right; left; reflexivity).
        rewrite El in Im, So. apply in_app_or in Im. destruct Im as [Im|[Im|[]]]; [|exact Im].
        destruct (sorted_app _ _ _ _ So) as (A1 & _). specialize (A1 _ Im). exfalso. apply (nlt_not_le _ _ A1), nle_PInf, end_ok, C, Iz. }
      destruct Hlast as (t & Hlast). cbn [option_map]. unfold piece_value, value_at_last. rewrite Hlast, Gu, Gw. cbn [bind]. eexists. split; [reflexivity|].
      intros x y a b u1 w1 a' b' u2 w2 (Nx & Ny & L & Hb) S1 S2 S3 S4 [L1 L2].
      destruct (sorted_next xs x y So (proj2 (C x) Nx) (proj2 (C y) Ny) L) as (l1 & l2 & E); [intros z Hz; apply Hb, C, Hz|].
      apply (Hno l1 x y l2 E). destruct (fval_StepAt f x _ _ (end_pos _ Nx) S1) as [-> _], (fval_StepAt g x _ _ (end_pos _ Nx) S2) as [-> _].
      destruct (fval_StepAt f y _ _ (end_pos _ Ny) S3) as [-> _], (fval_StepAt g y _ _ (end_pos _ Ny) S4) as [-> _]. auto.
  Qed.
End Pairs.

(** ** Only comparisons of the values matter for the quantity and the positions *)
Section Same.
  Variables f f' g g' : curve.
  Hypothesis Hf : map fst f' = map fst f.
  Hypothesis Hg : map fst g' = map fst g.
  Lemma pos_same (h h' : curve) x : map fst h' = map fst h -> argmax_bool (map (fun p => nleb x (fst p)) h') = argmax_bool (map (fun p => nleb x (fst p)) h).
  Proof. intro E. f_equal. rewrite <- (map_map fst (nleb x) h'), E, map_map. reflexivity. Qed.
  Lemma search_none (h h' : curve) x : map fst h' = map fst h -> (get_value_stepwise x h' = None <-> get_value_stepwise x h = None).
  Proof.
    intro E. unfold get_value_stepwise. destruct (nltb x (Fin 0)); [tauto|]. revert h' E.
    induction h as [|[a v] h IH]; intros [|[a' v'] h'] E; try discriminate; [tauto|]. cbn [map fst] in E. injection E as -> E. cbn [step_search].
    destruct (nleb x a); [split; discriminate | apply IH, E].
  Qed.
  Hypothesis Hgt : forall x, opt_gt (get_value_stepwise x f') (get_value_stepwise x g') = opt_gt (get_value_stepwise x f) (get_value_stepwise x g).
  Hypothesis Hlt : forall x, opt_lt (get_value_stepwise x f') (get_value_stepwise x g') = opt_lt (get_value_stepwise x f) (get_value_stepwise x g).
  Lemma scan_same xs : forall a, scan (map (fun x => (x, get_value_stepwise x f', get_value_stepwise x g')) xs) a = scan (map (fun x => (x, get_value_stepwise x f, get_value_stepwise x g)) xs) a.
  Proof.
    set (p' := fun x => (x, get_value_stepwise x f', get_value_stepwise x g')). set (p := fun x => (x, get_value_stepwise x f, get_value_stepwise x g)).
    induction xs as [|x xs IH]; intro a; [reflexivity|]. destruct xs as [|y xs]; [reflexivity|]. cbn [map] in *. rewrite !scan_cons.
    change (p' y :: map p' xs) with (map p' (y :: xs)) in *. change (p y :: map p xs) with (map p (y :: xs)) in *. cbn [p p' fst snd]. rewrite Hgt, Hlt.
    destruct (opt_gt _ _) as [[]|]; cbn [bind]; [|apply IH|reflexivity]. destruct (opt_lt _ _) as [[]|]; cbn [bind]; [apply IH|apply IH|reflexivity].
  Qed.
  Lemma piece_same (h h' : curve) i xs : map fst h' = map fst h ->
    match piece_value i xs h, piece_value i xs h' with Ok (Some _), Ok (Some _) => True | Ok None, Ok None => True | Err e, Err e' => e = e' | _, _ => False end.
  Proof.
    intro E. destruct i as [i|]; cbn [piece_value].
    - assert (N : option_map fst (nth_error h' i) = option_map fst (nth_error h i)) by (rewrite <- !nth_error_map, E; reflexivity).
      destruct (nth_error h i) as [[a v]|], (nth_error h' i) as [[a' v']|]; try discriminate; auto.
    - unfold value_at_last. destruct (rev xs) as [|x r]; [reflexivity|]. pose proof (search_none h h' x E) as [A B].
      destruct (get_value_stepwise x h), (get_value_stepwise x h'); auto; exfalso; [specialize (A eq_refl) | specialize (B eq_refl)]; discriminate.
  Qed.
  Theorem same_intersect k :
    match intersect_stepwise f g k with
    | Ok (x, i, j, v) => exists v', intersect_stepwise f' g' k = Ok (x, i, j, v')
    | Err e => intersect_stepwise f' g' k = Err e
    end.
  Proof.
    assert (Q : forall m, common_xs f' g' m = common_xs f g m) by (intro m; unfold common_xs; rewrite Hf, Hg; reflexivity).
    assert (Cf : col_max f' = col_max f) by (unfold col_max; rewrite Hf; reflexivity). assert (Cg : col_max g' = col_max g) by (unfold col_max; rewrite Hg; reflexivity).
    unfold intersect_stepwise. rewrite Cf, Cg. destruct (col_max f) as [fm|]; [|reflexivity]. destruct (col_max g) as [gm|]; [|reflexivity]. cbn [bind]. rewrite Q.
    set (xs := common_xs f g _). rewrite scan_same. destruct (scan _ None) as [x|e]; [|reflexivity]. cbn [bind].
    assert (E : forall h h' : curve, map fst h' = map fst h -> option_map (fun x => argmax_bool (map (fun p => nleb x (fst p)) h')) x = option_map (fun x => argmax_bool (map (fun p => nleb x (fst p)) h)) x)
      by (intros h h' Eh; destruct x as [x|]; [|reflexivity]; cbn [option_map]; rewrite (pos_same h h') by exact Eh; reflexivity).
    rewrite (E f f' Hf), (E g g' Hg). set (gi := option_map _ x). set (fi := option_map _ x).
    pose proof (piece_same g g' gi xs Hg) as Pg. pose proof (piece_same f f' fi xs Hf) as Pf.
    destruct (piece_value gi xs g) as [[gv|]|e], (piece_value gi xs g') as [[gv'|]|e']; try contradiction; cbn [bind];
      destruct (piece_value fi xs f) as [[fv|]|e0], (piece_value fi xs f') as [[fv'|]|e0']; try contradiction; cbn [bind]; subst; try reflexivity; eexists; reflexivity.
  Qed.
End Same.

(** ** The curves *)
Definition wrows (a : Qc) (l : wdf) : curve := combine (map Fin (cumsum_from a (map w_qty l))) (map w_price l).
Lemma w_rows_wrows l : w_rows l = wrows 0 l.
Proof. reflexivity. Qed.
Lemma wrows_cons a r l : wrows a (r :: l) = (Fin (a + w_qty r), w_price r) :: wrows (a + w_qty r) l.
Proof. reflexivity. Qed.
Lemma wrows_length a l : length (wrows a l) = length l.
Proof. revert a; induction l as [|r l IH]; intro a; [reflexivity|]. rewrite wrows_cons. simpl. rewrite IH. reflexivity. Qed.
Lemma wrows_app a l m : wrows a (l ++ m) = wrows a l ++ wrows (a + qsumf w_qty l) m.
Proof.
  revert a; induction l as [|r l IH]; intro a; [cbn [app]; rewrite qsumf_nil; replace (a + 0) with a by ring; reflexivity|].
  cbn [app]. rewrite !wrows_cons, IH, qsumf_cons. cbn [app]. do 3 f_equal. ring.
Qed.
Lemma wrows_nth a l i r : nth_error l i = Some r -> nth_error (wrows a l) i = Some (Fin (a + qsumf w_qty (firstn (S i) l)), w_price r).
Proof.
  revert a i; induction l as [|x l IH]; intros a [|i] H; simpl in H; try discriminate; rewrite wrows_cons.
  - injection H as ->. simpl firstn. rewrite qsumf_cons, qsumf_nil. simpl. do 2 f_equal. f_equal. ring.
  - simpl nth_error. rewrite (IH _ _ H). change (firstn (S (S i)) (x :: l)) with (x :: firstn (S i) l). rewrite qsumf_cons. do 2 f_equal. f_equal. ring.
Qed.
Lemma wrows_fst a l l' : map w_qty l' = map w_qty l -> map fst (wrows a l') = map fst (wrows a l).
Proof.
  revert a l'; induction l as [|x l IH]; intros a [|x' l'] H; try discriminate; [reflexivity|]. cbn [map] in H. injection H as Hx Hl. rewrite !wrows_cons. cbn [map fst]. rewrite Hx, (IH _ _ Hl). reflexivity.
Qed.
Lemma wrows_ends a l v : (forall r, In r l -> 0 <= w_qty r) -> 0 <= a ->
  (forall p, In p (wrows a l ++ [(PInf, v)]) -> nle (Fin a) (fst p)) /\
  StronglySorted (fun p q => nleb (fst p) (fst q) = true) (wrows a l ++ [(PInf, v)]).
Proof.
  revert a; induction l as [|r l IH]; intros a H Ha.
  - simpl. split; [intros p [<-|[]]; reflexivity|]. constructor; constructor.
  - rewrite wrows_cons. simpl app. assert (Q : 0 <= w_qty r) by (apply H; left; reflexivity).
    destruct (IH (a + w_qty r)) as [A B]; [intros; apply H; right; assumption | qlra |]. split.
    + intros p [<-|Hp]; [simpl; apply nle_Fin; qlra|]. apply (nle_trans _ (Fin (a + w_qty r))); [apply nle_Fin; qlra | apply A, Hp].
    + constructor; [exact B|]. rewrite Forall_forall. intros p Hp. apply A, Hp.
Qed.
Lemma w_ends l v : (forall r, In r l -> 0 <= w_qty r) -> ends_sorted (w_rows l ++ [(PInf, v)]).
Proof. intro H. apply (wrows_ends 0 l v H). qlra. Qed.
Lemma w_end_inf l v : is_end (w_rows l ++ [(PInf, v)]) PInf.
Proof. exists v. apply in_or_app. right. left. reflexivity. Qed.

Lemma wrows_snd a l p : In p (wrows a l) -> exists r, In r l /\ snd p = w_price r.
Proof.
  revert a. induction l as [|r l IH]; intros a H; [destruct H|]. rewrite wrows_cons in H. destruct H as [<-|H]; [exists r; split; [left|]; reflexivity|].
  destruct (IH _ H) as (x & Hx & E). exists x. split; [right; exact Hx | exact E].
Qed.

(** a value of a curve: that of a row, or the closing value *)
Lemma w_nth l v i a u : nth_error (w_rows l ++ [(PInf, v)]) i = Some (a, u) ->
  (exists r, nth_error l i = Some r /\ a = Fin (qsumf w_qty (firstn (S i) l)) /\ u = w_price r) \/ (i = length l /\ a = PInf /\ u = v).
Proof.
  intro H. rewrite w_rows_wrows in H. destruct (Nat.lt_ge_cases i (length l)) as [L|L].
  - left. rewrite nth_error_app1 in H by (rewrite wrows_length; exact L). destruct (nth_error l i) as [r|] eqn:E; [|apply nth_error_None in E; lia].
    rewrite (wrows_nth 0 l i r E), Qcplus_0_l in H. exists r. split; [reflexivity|]. split; congruence.
  - right. rewrite nth_error_app2 in H by (rewrite wrows_length; exact L). rewrite wrows_length in H.
    destruct (i - length l)%nat as [|k] eqn:E; simpl in H; [injection H as <- <-; split; [lia|auto]|]. destruct k; discriminate.
Qed.
Lemma w_step l v x i u : StepAt (w_rows l ++ [(PInf, v)]) x i u ->
  (exists r, nth_error l i = Some r /\ nle x (Fin (qsumf w_qty (firstn (S i) l))) /\ u = w_price r) \/
  (i = length l /\ u = v /\ (l = [] \/ nlt (Fin (qsumf w_qty l)) x)).
Proof.
  intros ((a & H1 & H2) & H3). destruct (w_nth _ _ _ _ _ H1) as [(r & E & -> & ->)|(-> & -> & ->)]; [left; exists r; auto|].
  right. split; [reflexivity|]. split; [reflexivity|]. destruct l as [|r0 l0]; [left; reflexivity|]. right. set (l := r0 :: l0) in *.
  destruct (nth_error l (length l0)) as [r|] eqn:E; [|apply nth_error_None in E; simpl in E; lia].
  assert (N : nth_error (w_rows l ++ [(PInf, v)]) (length l0) = Some (Fin (qsumf w_qty l), w_price r)).
  { rewrite w_rows_wrows, nth_error_app1 by (rewrite wrows_length; simpl; lia). rewrite (wrows_nth 0 l _ r E). change (S (length l0)) with (length l). rewrite firstn_all, Qcplus_0_l. reflexivity. }
  specialize (H3 (length l0) _ _ (Nat.lt_succ_diag_r _) N). apply nleb_false; [apply (nle_ok _ _ H2) | discriminate | exact H3].
Qed.
