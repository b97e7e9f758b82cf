(** Sorting tables with infinite and NaN prices. *)
From Verif Require Import QcTac Num NumFacts ListFacts ModelBase ModelAny ModelWild SpecWild Sorter ExactFacts.

Fixpoint w_ins (le : wrow -> wrow -> bool) (x : wrow) (l : wdf) : wdf :=
  match l with [] => [x] | y :: r => if le x y then x :: l else y :: w_ins le x r end.
Definition w_isort (le : wrow -> wrow -> bool) (l : wdf) : wdf := fold_right (w_ins le) [] l.
Lemma w_ins_perm le x l : Permutation (w_ins le x l) (x :: l).
Proof. induction l as [|y r IH]; simpl; [reflexivity|]. destruct (le x y); [reflexivity|]. rewrite IH. apply perm_swap. Qed.
Lemma w_isort_perm le l : Permutation (w_isort le l) l.
Proof. induction l as [|x r IH]; simpl; [constructor|]. rewrite w_ins_perm. constructor. exact IH. Qed.
Section Sorted.
  Variable le : wrow -> wrow -> bool.
  Variable R : wrow -> wrow -> Prop.
  Hypothesis le_true : forall a b, le a b = true -> R a b.
  Hypothesis le_false : forall a b, le a b = false -> R b a.
  Hypothesis R_trans : forall a b c, R a b -> R b c -> R a c.
  Lemma w_ins_sorted x l : StronglySorted R l -> StronglySorted R (w_ins le x l).
  Proof.
    induction 1 as [|y r Hr IH Hy]; simpl; [repeat constructor|]. destruct (le x y) eqn:E.
    - constructor; [constructor; assumption|]. constructor; [auto|]. rewrite Forall_forall in *. eauto.
    - constructor; [exact IH|]. rewrite Forall_forall. intros z Hz. apply (Permutation_in z (w_ins_perm le x r)) in Hz.
      destruct Hz as [<-|Hz]; [auto|]. rewrite Forall_forall in Hy. auto.
  Qed.
  Lemma w_isort_sorted l : StronglySorted R (w_isort le l).
  Proof. induction l; simpl; [constructor | apply w_ins_sorted; assumption]. Qed.
End Sorted.

Definition le_up (a b : wrow) : bool := match w_price b with NaN => true | _ => nleb (w_price a) (w_price b) end.
Definition le_down (a b : wrow) : bool := match w_price b with NaN => true | _ => nleb (w_price b) (w_price a) end.
Lemma up_trans a b c : up a b -> up b c -> up a c.
Proof. unfold up. intros [H|H] [K|K]; auto; [rewrite H in K; discriminate|]. right. exact (nle_trans _ _ _ H K). Qed.
Lemma down_trans a b c : down a b -> down b c -> down a c.
Proof. unfold down. intros [H|H] [K|K]; auto; [rewrite H in K; destruct (w_price c); discriminate|]. right. exact (nle_trans _ _ _ K H). Qed.
Lemma w_isort_up l : StronglySorted up (w_isort le_up l).
Proof.
  apply w_isort_sorted; [| |apply up_trans]; unfold le_up, up; intros a b H.
  - destruct (w_price b); auto.
  - destruct (w_price a) eqn:Ea, (w_price b) eqn:Eb; auto; try discriminate; right; try reflexivity. cbn in *. apply qleb_gt in H. apply qleb_le. qlra.
Qed.
Lemma w_isort_down l : StronglySorted down (w_isort le_down l).
Proof.
  apply w_isort_sorted; [| |apply down_trans]; unfold le_down, down; intros a b H.
  - destruct (w_price b); auto.
  - destruct (w_price a) eqn:Ea, (w_price b) eqn:Eb; auto; try discriminate; right; try reflexivity. cbn in *. apply qleb_gt in H. apply qleb_le. qlra.
Qed.
Definition w_stable : wsorter :=
  mkWSorter (w_isort le_up) (w_isort le_down) (w_isort_perm _) (w_isort_perm _) w_isort_up w_isort_down.

(** ** A sorting function with prescribed results *)
Lemma row_dec (a b : row) : {a = b} + {a <> b}.
Proof. decide equality; solve [apply Bool.bool_dec | apply Qc_eq_dec | apply Z.eq_dec | apply Nat.eq_dec]. Qed.
Lemma wrow_dec (a b : wrow) : {a = b} + {a <> b}.
Proof. decide equality; solve [apply Bool.bool_dec | apply Qc_eq_dec | apply Z.eq_dec | apply Nat.eq_dec | apply num_eq_dec]. Qed.

Lemma sorter_for (l l' m m' : df) : Permutation l' l -> StronglySorted (fun a b => price b <= price a) l' ->
  Permutation m' m -> StronglySorted (fun a b => price a <= price b) m' -> exists S, s_desc S l = l' /\ s_asc S m = m'.
Proof.
  intros P1 S1 P2 S2.
  set (fd := fun d => if list_eq_dec row_dec d l then l' else isort le_desc d). set (fa := fun d => if list_eq_dec row_dec d m then m' else isort le_asc d).
  assert (A1 : forall d, Permutation (fa d) d) by (intro d; unfold fa; destruct (list_eq_dec row_dec d m) as [->|]; [exact P2 | apply isort_perm]).
  assert (A2 : forall d, Permutation (fd d) d) by (intro d; unfold fd; destruct (list_eq_dec row_dec d l) as [->|]; [exact P1 | apply isort_perm]).
  assert (A3 : forall d, StronglySorted (fun a b => price a <= price b) (fa d)) by (intro d; unfold fa; destruct (list_eq_dec row_dec d m) as [->|]; [exact S2 | apply isort_asc_sorted]).
  assert (A4 : forall d, StronglySorted (fun a b => price b <= price a) (fd d)) by (intro d; unfold fd; destruct (list_eq_dec row_dec d l) as [->|]; [exact S1 | apply isort_desc_sorted]).
  exists (mkSorter fa fd A1 A2 A3 A4). cbn [s_desc s_asc]. unfold fa, fd. destruct (list_eq_dec row_dec l l), (list_eq_dec row_dec m m); try congruence. auto.
Qed.
Lemma wsorter_for (l l' m m' : wdf) : Permutation l' l -> StronglySorted down l' -> Permutation m' m -> StronglySorted up m' ->
  exists S, w_desc S l = l' /\ w_asc S m = m'.
Proof.
  intros P1 S1 P2 S2.
  set (fd := fun d => if list_eq_dec wrow_dec d l then l' else w_isort le_down d). set (fa := fun d => if list_eq_dec wrow_dec d m then m' else w_isort le_up d).
  assert (A1 : forall d, Permutation (fa d) d) by (intro d; unfold fa; destruct (list_eq_dec wrow_dec d m) as [->|]; [exact P2 | apply w_isort_perm]).
  assert (A2 : forall d, Permutation (fd d) d) by (intro d; unfold fd; destruct (list_eq_dec wrow_dec d l) as [->|]; [exact P1 | apply w_isort_perm]).
  assert (A3 : forall d, StronglySorted up (fa d)) by (intro d; unfold fa; destruct (list_eq_dec wrow_dec d m) as [->|]; [exact S2 | apply w_isort_up]).
  assert (A4 : forall d, StronglySorted down (fd d)) by (intro d; unfold fd; destruct (list_eq_dec wrow_dec d l) as [->|]; [exact S1 | apply w_isort_down]).
  exists (mkWSorter fa fd A1 A2 A3 A4). cbn [w_desc w_asc]. unfold fa, fd. destruct (list_eq_dec wrow_dec l l), (list_eq_dec wrow_dec m m); try congruence. auto.
Qed.

(** ** The two parts of a sorted table *)
Lemma sorted_parts {A} (R : A -> A -> Prop) (p : A -> bool) l : StronglySorted R l -> (forall a b, R a b -> p b = true -> p a = true) ->
  l = filter p l ++ filter (fun x => negb (p x)) l.
Proof.
  intros So Hp. induction So as [|a l So IH F]; [reflexivity|]. cbn [filter]. destruct (p a) eqn:E; cbn [negb app]; [f_equal; exact IH|].
  rewrite Forall_forall in F. assert (Z : forall x, In x l -> p x = false) by (intros x Hx; destruct (p x) eqn:X; [rewrite (Hp a x (F x Hx) X) in E; discriminate | reflexivity]).
  rewrite (filter_none p l Z). cbn [app]. f_equal. symmetry. apply filter_all. intros x Hx. rewrite (Z x Hx). reflexivity.
Qed.
Lemma down_inf l : StronglySorted down l -> l = filter at_any_price l ++ filter (fun x => negb (at_any_price x)) l.
Proof. intro H. apply (sorted_parts _ _ _ H). unfold down, at_any_price. intros a b [K|K] E; [rewrite K in E; discriminate|]. destruct (w_price a), (w_price b); try discriminate; reflexivity. Qed.
Lemma down_nan l : StronglySorted down l -> l = filter not_nan l ++ filter (fun x => negb (not_nan x)) l.
Proof. intro H. apply (sorted_parts _ _ _ H). unfold down, not_nan. intros a b [K|K] E; [rewrite K in E; discriminate|]. destruct (w_price a), (w_price b); try discriminate; reflexivity. Qed.
Lemma up_nan l : StronglySorted up l -> l = filter not_nan l ++ filter (fun x => negb (not_nan x)) l.
Proof. intro H. apply (sorted_parts _ _ _ H). unfold up, not_nan. intros a b [K|K] E; [rewrite K in E; discriminate|]. destruct (w_price a), (w_price b); try discriminate; reflexivity. Qed.
