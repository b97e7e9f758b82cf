(** Exact rational arithmetic: boolean comparisons, a linear arithmetic tactic
    and sums over lists.  No model of the code here, only tools. *)
From Coq Require Export List Arith ZArith QArith Qcanon Lia Lqa Bool Permutation Sorted.
Export ListNotations.
Global Open Scope Qc_scope.

(** Literals: [qz 3] is 3, [qf 5 2] is 5/2. *)
Definition qz (z : Z) : Qc := Q2Qc (inject_Z z).
Definition qf (a : Z) (b : positive) : Qc := Q2Qc (a # b).

Definition qleb (a b : Qc) : bool := Qle_bool a b.
Definition qltb (a b : Qc) : bool := negb (Qle_bool b a).
Definition qeqb (a b : Qc) : bool := Qeq_bool a b.
Definition qmin (a b : Qc) : Qc := if qleb a b then a else b.
Definition qmax (a b : Qc) : Qc := if qleb a b then b else a.
Definition qabs (a : Qc) : Qc := if qleb 0 a then a else - a.

Lemma qc_eq_Q (a b : Qc) : a = b <-> (this a == this b)%Q.
Proof. split; [intros ->; reflexivity | apply Qc_is_canon]. Qed.

Lemma this_plus (a b : Qc) : (this (a + b)%Qc == this a + this b)%Q.
Proof. apply Qred_correct. Qed.
Lemma this_mult (a b : Qc) : (this (a * b)%Qc == this a * this b)%Q.
Proof. apply Qred_correct. Qed.
Lemma this_opp (a : Qc) : (this (- a)%Qc == - this a)%Q.
Proof. apply Qred_correct. Qed.
Lemma this_minus (a b : Qc) : (this (a - b)%Qc == this a - this b)%Q.
Proof. unfold Qcminus. rewrite this_plus, this_opp. reflexivity. Qed.
Lemma this_inv (a : Qc) : (this (/ a)%Qc == / this a)%Q.
Proof. apply Qred_correct. Qed.
Lemma this_div (a b : Qc) : (this (a / b)%Qc == this a / this b)%Q.
Proof. unfold Qcdiv. rewrite this_mult, this_inv. reflexivity. Qed.
Lemma this_Q2Qc (q : Q) : (this (Q2Qc q) == q)%Q.
Proof. apply Qred_correct. Qed.
Lemma this_qz (z : Z) : (this (qz z) == inject_Z z)%Q.
Proof. apply this_Q2Qc. Qed.
Lemma this_qf (a : Z) (b : positive) : (this (qf a b) == a # b)%Q.
Proof. apply this_Q2Qc. Qed.

Lemma qleb_le a b : qleb a b = true <-> a <= b.
Proof. unfold qleb, Qcle. apply Qle_bool_iff. Qed.
Lemma qleb_gt a b : qleb a b = false <-> b < a.
Proof.
  unfold qleb, Qclt. rewrite <- not_true_iff_false, Qle_bool_iff.
  split; [apply Qnot_le_lt | apply Qlt_not_le].
Qed.
Lemma qltb_lt a b : qltb a b = true <-> a < b.
Proof. unfold qltb. rewrite negb_true_iff. apply qleb_gt. Qed.
Lemma qltb_ge a b : qltb a b = false <-> b <= a.
Proof. unfold qltb. rewrite negb_false_iff. apply qleb_le. Qed.
Lemma qeqb_eq a b : qeqb a b = true <-> a = b.
Proof. unfold qeqb. rewrite qc_eq_Q. apply Qeq_bool_iff. Qed.
Lemma qeqb_neq a b : qeqb a b = false <-> a <> b.
Proof. rewrite <- qeqb_eq. destruct (qeqb a b); split; congruence. Qed.

Lemma qle_spec a b : BoolSpec (a <= b) (b < a) (qleb a b).
Proof. destruct (qleb a b) eqn:E; constructor; [apply qleb_le | apply qleb_gt]; exact E. Qed.
Lemma qlt_spec a b : BoolSpec (a < b) (b <= a) (qltb a b).
Proof. destruct (qltb a b) eqn:E; constructor; [apply qltb_lt | apply qltb_ge]; exact E. Qed.
Lemma qeq_spec a b : BoolSpec (a = b) (a <> b) (qeqb a b).
Proof. destruct (qeqb a b) eqn:E; constructor; [apply qeqb_eq | apply qeqb_neq]; exact E. Qed.

(** ** Tactic [qlra]: linear arithmetic over Qc *)
Ltac qc_note P :=
  let T := type of P in
  lazymatch goal with
  | _ : T |- _ => idtac
  | _ => pose proof P
  end.

Ltac qc_term t :=
  lazymatch t with
  | Qcplus ?a ?b => qc_term a; qc_term b; qc_note (this_plus a b)
  | Qcminus ?a ?b => qc_term a; qc_term b; qc_note (this_minus a b)
  | Qcmult ?a ?b => qc_term a; qc_term b; qc_note (this_mult a b)
  | Qcopp ?a => qc_term a; qc_note (this_opp a)
  | Qcdiv ?a ?b => qc_term a; qc_term b; qc_note (this_div a b)
  | Qcinv ?a => qc_term a; qc_note (this_inv a)
  | Q2Qc ?q => qc_note (this_Q2Qc q)
  | qz ?z => qc_note (this_qz z); unfold inject_Z in *
  | qf ?a ?b => qc_note (this_qf a b)
  | _ => idtac
  end.

Ltac qc_prep :=
  intros;
  repeat match goal with
  | H : ~ (_ <= _)%Qc |- _ => apply Qcnot_le_lt in H
  | H : ~ (_ < _)%Qc |- _ => apply Qcnot_lt_le in H
  | H : _ /\ _ |- _ => destruct H
  | H : qleb _ _ = true |- _ => apply qleb_le in H
  | H : qleb _ _ = false |- _ => apply qleb_gt in H
  | H : qltb _ _ = true |- _ => apply qltb_lt in H
  | H : qltb _ _ = false |- _ => apply qltb_ge in H
  | H : qeqb _ _ = true |- _ => apply qeqb_eq in H
  end;
  lazymatch goal with
  | |- @eq Qc ?a ?b => apply Qc_is_canon
  | |- Qcle ?a ?b => idtac
  | |- Qclt ?a ?b => idtac
  | |- Qle _ _ => idtac
  | |- Qlt _ _ => idtac
  | |- False => idtac
  | |- ~ @eq Qc _ _ => let H := fresh in intro H
  | _ => exfalso
  end;
  repeat match goal with
  | H : @eq Qc ?a ?b |- _ =>
      let H' := fresh "Q" in
      assert (H' : (this a == this b)%Q) by (rewrite H; reflexivity);
      qc_term a; qc_term b; clear H
  end;
  repeat match goal with
  | H : Qcle ?a ?b |- _ => qc_term a; qc_term b; change (this a <= this b)%Q in H
  | H : Qclt ?a ?b |- _ => qc_term a; qc_term b; change (this a < this b)%Q in H
  end;
  lazymatch goal with
  | |- Qcle ?a ?b => qc_term a; qc_term b; change (this a <= this b)%Q
  | |- Qclt ?a ?b => qc_term a; qc_term b; change (this a < this b)%Q
  | |- Qeq (this ?a) (this ?b) => qc_term a; qc_term b
  | |- Qle (this ?a) (this ?b) => qc_term a; qc_term b
  | |- Qlt (this ?a) (this ?b) => qc_term a; qc_term b
  | |- _ => idtac
  end.

Ltac qgen :=
  repeat match goal with
  | |- context [this ?t] =>
      let v := fresh "v" in generalize (this t); intro v
  end.

(** Drop every hypothesis that is not about Q before calling lra. *)
Ltac qc_clean :=
  repeat match goal with
  | H : ?T |- _ =>
      lazymatch T with
      | Qeq _ _ => fail
      | Qle _ _ => fail
      | Qlt _ _ => fail
      | _ => clear H
      end
  end.

Ltac qlra := solve [ qc_prep; qc_clean; lra ].
Ltac qnra := solve [ qc_prep; qc_clean; nra ].
(** One step case analysis on a boolean comparison of the goal. *)
Ltac qcase :=
  match goal with
  | |- context [qleb ?a ?b] => destruct (qle_spec a b)
  | |- context [qltb ?a ?b] => destruct (qlt_spec a b)
  | |- context [qeqb ?a ?b] => destruct (qeq_spec a b)
  end.

Lemma qmin_l a b : qmin a b <= a.
Proof. unfold qmin; qcase; qlra. Qed.
Lemma qmin_r a b : qmin a b <= b.
Proof. unfold qmin; qcase; qlra. Qed.
Lemma qmin_glb a b c : c <= a -> c <= b -> c <= qmin a b.
Proof. unfold qmin; qcase; intros; qlra. Qed.
Lemma qmin_comm a b : qmin a b = qmin b a.
Proof. unfold qmin; repeat qcase; qlra. Qed.
Lemma qmin_case a b : qmin a b = a /\ a <= b \/ qmin a b = b /\ b <= a.
Proof. unfold qmin; qcase; [left | right]; split; try reflexivity; qlra. Qed.
Lemma qmax_l a b : a <= qmax a b.
Proof. unfold qmax; qcase; qlra. Qed.
Lemma qmax_r a b : b <= qmax a b.
Proof. unfold qmax; qcase; qlra. Qed.
Lemma qmax_case a b : qmax a b = a /\ b <= a \/ qmax a b = b /\ a <= b.
Proof. unfold qmax; qcase; [right | left]; split; try reflexivity; qlra. Qed.
Lemma qabs_nonneg a : 0 <= qabs a.
Proof. unfold qabs; qcase; qlra. Qed.
Lemma qabs_pos a : 0 <= a -> qabs a = a.
Proof. unfold qabs; qcase; intros; [reflexivity | qlra]. Qed.
Lemma qabs_neg a : a <= 0 -> qabs a = - a.
Proof. unfold qabs; qcase; intros; [qlra | reflexivity]. Qed.

Lemma qmult_nonneg a b : 0 <= a -> 0 <= b -> 0 <= a * b.
Proof. intros; qnra. Qed.
Lemma qmult_pos a b : 0 < a -> 0 < b -> 0 < a * b.
Proof. intros; qnra. Qed.
Lemma qmult_le_l a b c : 0 <= a -> b <= c -> a * b <= a * c.
Proof. intros; qnra. Qed.
Lemma qmult_le_r a b c : 0 <= a -> b <= c -> b * a <= c * a.
Proof. intros; qnra. Qed.

(** ** Sums *)
Fixpoint qsum (l : list Qc) : Qc :=
  match l with [] => 0 | x :: r => x + qsum r end.

Definition qsumf {A} (f : A -> Qc) (l : list A) : Qc := qsum (map f l).

Lemma qsum_app l1 l2 : qsum (l1 ++ l2) = qsum l1 + qsum l2.
Proof. induction l1 as [|x l1 IH]; simpl; [|rewrite IH]; ring. Qed.
Lemma qsumf_nil {A} (f : A -> Qc) : qsumf f [] = 0.
Proof. reflexivity. Qed.
Lemma qsumf_cons {A} (f : A -> Qc) x l : qsumf f (x :: l) = f x + qsumf f l.
Proof. reflexivity. Qed.
Lemma qsumf_app {A} (f : A -> Qc) l1 l2 : qsumf f (l1 ++ l2) = qsumf f l1 + qsumf f l2.
Proof. unfold qsumf. rewrite map_app. apply qsum_app. Qed.
Lemma qsum_perm l1 l2 : Permutation l1 l2 -> qsum l1 = qsum l2.
Proof.
  induction 1 as [|x l1 l2 _ IH|x y l|l1 l2 l3 _ IH1 _ IH2]; simpl;
    [reflexivity | rewrite IH; ring | ring | congruence].
Qed.
Lemma qsumf_perm {A} (f : A -> Qc) l1 l2 : Permutation l1 l2 -> qsumf f l1 = qsumf f l2.
Proof. intro H. apply qsum_perm, Permutation_map, H. Qed.
Lemma qsumf_ext {A} (f g : A -> Qc) l :
  (forall x, In x l -> f x = g x) -> qsumf f l = qsumf g l.
Proof.
  intro H; induction l as [|x l IH]; [reflexivity|].
  rewrite !qsumf_cons, (H x), IH; simpl; auto. intros y Hy; apply H; right; exact Hy.
Qed.
Lemma qsumf_le {A} (f g : A -> Qc) l :
  (forall x, In x l -> f x <= g x) -> qsumf f l <= qsumf g l.
Proof.
  intro H; induction l as [|x l IH]; [apply Qcle_refl|].
  rewrite !qsumf_cons. assert (f x <= g x) by (apply H; left; reflexivity).
  assert (qsumf f l <= qsumf g l) by (apply IH; intros y Hy; apply H; right; exact Hy). qlra.
Qed.
Lemma qsumf_nonneg {A} (f : A -> Qc) l : (forall x, In x l -> 0 <= f x) -> 0 <= qsumf f l.
Proof.
  intro H; induction l as [|x l IH]; [apply Qcle_refl|].
  rewrite qsumf_cons. assert (0 <= f x) by (apply H; left; reflexivity).
  assert (0 <= qsumf f l) by (apply IH; intros y Hy; apply H; right; exact Hy). qlra.
Qed.
Lemma qsumf_zero {A} (f : A -> Qc) l : (forall x, In x l -> f x = 0) -> qsumf f l = 0.
Proof.
  intro H; induction l as [|x l IH]; [reflexivity|].
  rewrite qsumf_cons, (H x), IH; simpl; auto; try ring.
  intros y Hy; apply H; right; exact Hy.
Qed.
Lemma qsumf_plus {A} (f g : A -> Qc) l : qsumf (fun x => f x + g x) l = qsumf f l + qsumf g l.
Proof. induction l as [|x l IH]; [reflexivity|]. rewrite !qsumf_cons, IH. ring. Qed.
Lemma qsumf_minus {A} (f g : A -> Qc) l : qsumf (fun x => f x - g x) l = qsumf f l - qsumf g l.
Proof. induction l as [|x l IH]; [reflexivity|]. rewrite !qsumf_cons, IH. ring. Qed.
Lemma qsumf_scale {A} (c : Qc) (f : A -> Qc) l : qsumf (fun x => c * f x) l = c * qsumf f l.
Proof. induction l as [|x l IH]; [rewrite !qsumf_nil; ring|]. rewrite !qsumf_cons, IH. ring. Qed.
Lemma qsumf_scale_r {A} (c : Qc) (f : A -> Qc) l : qsumf (fun x => f x * c) l = qsumf f l * c.
Proof. induction l as [|x l IH]; [rewrite !qsumf_nil; ring|]. rewrite !qsumf_cons, IH. ring. Qed.
Lemma qsumf_opp {A} (f : A -> Qc) l : qsumf (fun x => - f x) l = - qsumf f l.
Proof. induction l as [|x l IH]; [rewrite !qsumf_nil; ring|]. rewrite !qsumf_cons, IH. ring. Qed.
Lemma qsumf_map {A B} (f : B -> Qc) (g : A -> B) l : qsumf f (map g l) = qsumf (fun x => f (g x)) l.
Proof. unfold qsumf. rewrite map_map. reflexivity. Qed.
Lemma qsumf_filter_split {A} (f : A -> Qc) (p : A -> bool) l :
  qsumf f l = qsumf f (filter p l) + qsumf f (filter (fun x => negb (p x)) l).
Proof.
  induction l as [|x l IH]; [simpl filter; rewrite !qsumf_nil; ring|].
  simpl. destruct (p x); simpl; rewrite !qsumf_cons, IH; ring.
Qed.
Lemma qsumf_filter {A} (f : A -> Qc) (p : A -> bool) l :
  qsumf f (filter p l) = qsumf (fun x => if p x then f x else 0) l.
Proof.
  induction l as [|x l IH]; [reflexivity|].
  simpl. rewrite (qsumf_cons (fun x => if p x then f x else 0)); cbv beta.
  destruct (p x); [rewrite qsumf_cons, IH; reflexivity | rewrite IH; ring].
Qed.
Lemma qsumf_in_le {A} (f : A -> Qc) l x :
  (forall y, In y l -> 0 <= f y) -> In x l -> f x <= qsumf f l.
Proof.
  intros H Hx. apply in_split in Hx. destruct Hx as [l1 [l2 ->]].
  rewrite qsumf_app, qsumf_cons.
  assert (0 <= qsumf f l1) by (apply qsumf_nonneg; intros y Hy; apply H; apply in_or_app; auto).
  assert (0 <= qsumf f l2)
    by (apply qsumf_nonneg; intros y Hy; apply H; apply in_or_app; right; right; auto).
  qlra.
Qed.
Lemma qsumf_swap {A B} (f : A -> B -> Qc) la lb :
  qsumf (fun a => qsumf (f a) lb) la = qsumf (fun b => qsumf (fun a => f a b) la) lb.
Proof.
  induction la as [|a la IH].
  - rewrite qsumf_nil. symmetry. apply qsumf_zero. reflexivity.
  - rewrite qsumf_cons, IH, <- qsumf_plus. apply qsumf_ext. intros b _. rewrite qsumf_cons. reflexivity.
Qed.
