(** Generic list lemmas. *)
From Verif Require Import QcTac.

Lemma filter_perm {A} (p : A -> bool) l1 l2 : Permutation l1 l2 -> Permutation (filter p l1) (filter p l2).
Proof.
  induction 1; simpl; auto.
  - destruct (p x); auto.
  - destruct (p x), (p y); auto. constructor.
  - etransitivity; eauto.
Qed.
Lemma filter_all {A} (p : A -> bool) l : (forall x, In x l -> p x = true) -> filter p l = l.
Proof.
  induction l as [|x l IH]; simpl; [reflexivity|]. intro H.
  rewrite (H x) by auto. f_equal. auto.
Qed.
Lemma filter_none {A} (p : A -> bool) l : (forall x, In x l -> p x = false) -> filter p l = [].
Proof.
  induction l as [|x l IH]; simpl; [reflexivity|]. intro H.
  rewrite (H x) by auto. auto.
Qed.
Lemma filter_filter {A} (p q : A -> bool) l : filter p (filter q l) = filter (fun x => q x && p x) l.
Proof.
  induction l as [|x l IH]; simpl; [reflexivity|].
  destruct (q x); simpl; [destruct (p x)|]; rewrite IH; reflexivity.
Qed.
Lemma filter_ext_in' {A} (p q : A -> bool) l : (forall x, In x l -> p x = q x) -> filter p l = filter q l.
Proof. apply filter_ext_in. Qed.
Lemma filter_map {A B} (p : B -> bool) (f : A -> B) l :
  filter p (map f l) = map f (filter (fun x => p (f x)) l).
Proof. induction l as [|x l IH]; simpl; [reflexivity|]. destruct (p (f x)); simpl; rewrite IH; reflexivity. Qed.
Lemma filter_negb_perm {A} (p : A -> bool) l :
  Permutation l (filter p l ++ filter (fun x => negb (p x)) l).
Proof.
  induction l as [|x l IH]; simpl; [constructor|].
  destruct (p x); simpl; [constructor; exact IH|]. apply Permutation_cons_app. exact IH.
Qed.

Lemma sorted_app {A} (R : A -> A -> Prop) l1 x l2 :
  StronglySorted R (l1 ++ x :: l2) ->
  (forall y, In y l1 -> R y x) /\ (forall y, In y l2 -> R x y) /\
  StronglySorted R l1 /\ StronglySorted R l2 /\ (forall y z, In y l1 -> In z l2 -> R y z).
Proof.
  induction l1 as [|a l1 IH]; simpl; intro H; inversion_clear H as [|? ? H1 H2].
  - rewrite Forall_forall in H2. repeat split; auto; try constructor; try contradiction.
  - rewrite Forall_forall in H2. destruct (IH H1) as (A1 & A2 & A3 & A4 & A5).
    repeat split; auto.
    + intros y [<-|Hy]; [apply H2, in_or_app; right; left; reflexivity | auto].
    + constructor; [exact A3|]. rewrite Forall_forall. intros y Hy. apply H2, in_or_app. auto.
    + intros y z [<-|Hy] Hz; [apply H2, in_or_app; right; right; exact Hz | auto].
Qed.
Lemma sorted_app2 {A} (R : A -> A -> Prop) l1 l2 :
  StronglySorted R (l1 ++ l2) ->
  StronglySorted R l1 /\ StronglySorted R l2 /\ (forall y z, In y l1 -> In z l2 -> R y z).
Proof.
  induction l1 as [|a l1 IH]; simpl; intro H.
  - repeat split; auto; [constructor | contradiction].
  - inversion_clear H as [|? ? H1 H2]. rewrite Forall_forall in H2. destruct (IH H1) as (A1 & A2 & A3).
    repeat split; auto.
    + constructor; [exact A1|]. rewrite Forall_forall. intros y Hy. apply H2, in_or_app. auto.
    + intros y z [<-|Hy] Hz; [apply H2, in_or_app; right; exact Hz | auto].
Qed.
Lemma sorted_filter {A} (R : A -> A -> Prop) p l : StronglySorted R l -> StronglySorted R (filter p l).
Proof.
  induction 1 as [|x l H IH Hx]; simpl; [constructor|].
  destruct (p x); [|exact IH]. constructor; [exact IH|].
  rewrite Forall_forall in *. intros y Hy. apply filter_In in Hy. apply Hx, Hy.
Qed.

Lemma NoDup_map_in {A B} (f : A -> B) l x y :
  NoDup (map f l) -> In x l -> In y l -> f x = f y -> x = y.
Proof.
  induction l as [|a l IH]; simpl; [contradiction|]. intros H. inversion_clear H as [|? ? H1 H2].
  intros [<-|Hx] [<-|Hy] E; auto.
  - exfalso. apply H1. rewrite E. apply in_map, Hy.
  - exfalso. apply H1. rewrite <- E. apply in_map, Hx.
Qed.
Lemma NoDup_filter_map {A B} (f : A -> B) p l : NoDup (map f l) -> NoDup (map f (filter p l)).
Proof.
  induction l as [|a l IH]; simpl; [auto|]. intros H. inversion_clear H as [|? ? H1 H2].
  destruct (p a); simpl; [|auto]. constructor; [|auto].
  intro H. apply H1. apply in_map_iff in H. destruct H as (y & E & Hy).
  apply filter_In in Hy. rewrite <- E. apply in_map, Hy.
Qed.
Lemma NoDup_firstn {A} n (l : list A) : NoDup l -> NoDup (firstn n l).
Proof.
  revert n; induction l as [|a l IH]; intros [|n] H; simpl; try constructor.
  - inversion_clear H as [|? ? H1 H2]. intro H. apply H1.
    rewrite <- (firstn_skipn n l). apply in_or_app. auto.
  - inversion_clear H. auto.
Qed.
Lemma In_firstn {A} n (l : list A) x : In x (firstn n l) -> In x l.
Proof. intro H. rewrite <- (firstn_skipn n l). apply in_or_app. auto. Qed.
Lemma In_skipn {A} n (l : list A) x : In x (skipn n l) -> In x l.
Proof. intro H. rewrite <- (firstn_skipn n l). apply in_or_app. auto. Qed.
Lemma firstn_map' {A B} (f : A -> B) n l : firstn n (map f l) = map f (firstn n l).
Proof. apply firstn_map. Qed.
Lemma nth_error_split' {A} (l : list A) n x :
  nth_error l n = Some x -> l = firstn n l ++ x :: skipn (S n) l.
Proof.
  revert n; induction l as [|a l IH]; intros [|n] H; simpl in *; try discriminate.
  - congruence.
  - f_equal. apply IH, H.
Qed.
Lemma Forall2_len {A B} (R : A -> B -> Prop) l1 l2 : Forall2 R l1 l2 -> length l1 = length l2.
Proof. induction 1; simpl; congruence. Qed.

Lemma NoDup_app_l {A} (a b : list A) : NoDup (a ++ b) -> NoDup a.
Proof.
  induction a as [|x a IH]; simpl; [constructor|]. intro H. inversion_clear H as [|? ? H1 H2]. constructor; [|auto].
  intro Hx. apply H1, in_or_app. left; exact Hx.
Qed.
Lemma NoDup_app_r {A} (a b : list A) : NoDup (a ++ b) -> NoDup b.
Proof. induction a as [|x a IH]; simpl; [auto|]. intro H. inversion_clear H. auto. Qed.
Lemma NoDup_app_disj {A} (a b : list A) : NoDup (a ++ b) -> forall x, In x a -> ~ In x b.
Proof.
  induction a as [|y a IH]; simpl; [contradiction|]. intros H x. inversion_clear H as [|? ? H1 H2].
  intros [<-|Hx] Hb; [apply H1, in_or_app; auto | exact (IH H2 x Hx Hb)].
Qed.
Lemma NoDup_app_intro {A} (a b : list A) : NoDup a -> NoDup b -> (forall x, In x a -> ~ In x b) -> NoDup (a ++ b).
Proof.
  induction a as [|z a IH]; intros Ha Hb Hd; [exact Hb|]. simpl. inversion_clear Ha as [|? ? Ha1 Ha2]. constructor.
  - intro H. apply in_app_or in H. destruct H as [H|H]; [contradiction|]. apply (Hd z); [left; reflexivity | exact H].
  - apply IH; auto. intros x Hx. apply Hd. right; exact Hx.
Qed.
